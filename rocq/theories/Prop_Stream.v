(** Properties C05-C09: the stream decoders and the host's read loop. *)
From Verif Require Import Base RzcobsModel DecoderModel DecoderPanic StreamModel StreamSpec StreamProofs
  DecoderExamples StreamExamples.

(** C05.  A device sends the frames [fs] (each any number of writes, each a
    frame that decodes on its own to the corresponding element of [frs]).
    However the stream is cut into chunks, the host shows exactly [frs], in
    order, and then waits with an empty buffer. *)
Theorem C05_frames_in_order : forall t fs frs chunks,
  table_safe t ->
  Forall2 (fun f fr => exists n, decode t (concat f) = Ok (fr, n)) fs frs ->
  concat chunks = snd (frames_chunks enc_new fs) ->
  host_run EncRzcobs t [] chunks = (map EvFrame frs, Waiting []).
Proof. exact C05_lemma. Qed.
Print Assumptions C05_frames_in_order.

Example C05_ex : exists fr1 fr2,
  table_safe ex_table /\
  Forall2 (fun f fr => exists n, decode ex_table (concat f) = Ok (fr, n)) ex_frames [fr1; fr2] /\
  concat ex_chunks = snd (frames_chunks enc_new ex_frames).
Proof. exact C05_ex_lemma. Qed.

(** C06.  Whatever bytes [g] the host saw before a separator (lost or corrupt
    data, the middle of a frame, an earlier boot): all frames sent after the
    separator are shown, and [g] costs at most one event per zero-delimited
    piece.  First for a host that attaches to a running device. *)
Theorem C06_resync_attach : forall t g h hs fs frs,
  table_safe t ->
  Forall2 (fun f fr => exists n, decode t (concat f) = Ok (fr, n)) fs frs ->
  exists garbage, (length garbage <= count_zero g + 1)%nat /\
    forall chunks,
      concat chunks = g ++ [0] ++ snd (frames_chunks (fst (frames_chunks enc_new (h :: hs))) fs) ->
      host_run EncRzcobs t [] chunks = (garbage ++ map EvFrame frs, Waiting []).
Proof. exact C06_attach_lemma. Qed.
Print Assumptions C06_resync_attach.

(** After a reboot no separator is needed: a fresh device starts with one. *)
Theorem C06_resync_reboot : forall t g f fs frs,
  table_safe t ->
  Forall2 (fun f fr => exists n, decode t (concat f) = Ok (fr, n)) (f :: fs) frs ->
  exists garbage, (length garbage <= count_zero g + 1)%nat /\
    forall chunks, concat chunks = g ++ snd (frames_chunks enc_new (f :: fs)) ->
      host_run EncRzcobs t [] chunks = (garbage ++ map EvFrame frs, Waiting []).
Proof. exact C06_reboot_lemma. Qed.
Print Assumptions C06_resync_reboot.

(** Corruption is local: the messages of a stream are those up to a separator
    followed by those after it. *)
Theorem C06_locality : forall a b,
  messages (a ++ 0 :: b) = messages (a ++ [0]) ++ messages b /\
  incomplete (a ++ 0 :: b) = incomplete b.
Proof. exact messages_app. Qed.
Print Assumptions C06_locality.

Example C06_ex : exists fr1 fr2,
  Forall2 (fun f fr => exists n, decode ex_table (concat f) = Ok (fr, n)) ex_frames [fr1; fr2] /\
  host_run EncRzcobs ex_table [] [[7; 7; 0; 1]; snd (frames_chunks enc_new ex_frames)] =
    ([EvSkipped; EvSkipped; EvFrame fr1; EvFrame fr2], Waiting []).
Proof. exact C06_ex_lemma. Qed.

(** C07.  What the host shows depends only on the concatenation of the received
    chunks, for both encodings and every table. *)
Theorem C07_chunk_independent : forall enc t chunks1 chunks2,
  concat chunks1 = concat chunks2 ->
  host_run enc t [] chunks1 = host_run enc t [] chunks2.
Proof. exact C07_independent_lemma. Qed.
Print Assumptions C07_chunk_independent.

(** For rzCOBS it is the specification: cut at zero bytes, decode every piece. *)
Theorem C07_host_shows_messages : forall t chunks,
  host_run EncRzcobs t [] chunks =
  show_messages t (messages (concat chunks)) (incomplete (concat chunks)).
Proof. exact C07_run_lemma. Qed.
Print Assumptions C07_host_shows_messages.

(** Any interleaving of [received] and [decode] calls: the answers other than
    [UnexpectedEof], followed by those still pending in the buffer, are the
    results of the messages of the received stream. *)
Theorem C07_any_history : forall t ops rs raw, run_ops t [] ops = (rs, raw) ->
  exists pending,
    map (message_result t) (messages (ops_bytes ops)) =
      filter (fun r => match r with Err UnexpectedEof => false | _ => true end) rs ++
      map (message_result t) pending /\
    messages raw = pending /\ incomplete raw = incomplete (ops_bytes ops).
Proof. exact C07_history_lemma. Qed.
Print Assumptions C07_any_history.

Example C07_ex : concat ex_chunks = concat [snd (frames_chunks enc_new ex_frames)] /\
  (length ex_chunks > 3)%nat /\ messages (concat ex_chunks) <> [].
Proof. split; [vm_compute; reflexivity|]. split; [vm_compute; lia|vm_compute; discriminate]. Qed.

(** C08.  In every reachable state the asserted invariant holds (the buffer does
    not start with a separator); a [decode] answers [UnexpectedEof] exactly if no
    separator is buffered and then leaves the buffer alone; otherwise it removes
    at least one byte and its answer is that of some message. *)
Theorem C08_progress : forall t ops rs raw, run_ops t [] ops = (rs, raw) ->
  (match raw with 0 :: _ => False | _ => True end) /\
  (forall r raw', rz_decode t raw = (r, raw') ->
     (r = Err UnexpectedEof /\ raw' = raw /\ ~ In 0 raw) \/
     (r <> Err UnexpectedEof /\ In 0 raw /\ (length raw' < length raw)%nat /\
      exists p, ~ In 0 p /\ r = message_result t p)).
Proof. exact C08_lemma. Qed.
Print Assumptions C08_progress.

Theorem C08_drain_terminates : forall t ops rs raw fuel,
  run_ops t [] ops = (rs, raw) -> (length raw < fuel)%nat ->
  snd (drain EncRzcobs t fuel raw) <> OutOfFuel /\
  (length (fst (drain EncRzcobs t fuel raw)) <= length raw)%nat.
Proof. exact C08_drain_lemma. Qed.
Print Assumptions C08_drain_terminates.

Example C08_ex : snd (run_ops ex_table [] [Received [0; 0; 5]; Decode; Received [0; 0; 7; 0]; Decode]) = [7; 0].
Proof. vm_compute. reflexivity. Qed.

(** C09.  Raw encoding: complete frames [bs] followed by an incomplete part are
    decoded frame by frame, whatever the chunking, and the part is kept. *)
Theorem C09_raw_lossless : forall t bs frs part chunks,
  Forall2 (fun b fr => decode t b = Ok (fr, length b)) bs frs ->
  decode t part = Err UnexpectedEof ->
  concat chunks = concat bs ++ part ->
  host_run EncRaw t [] chunks = (map EvFrame frs, Waiting part).
Proof. exact C09_lemma. Qed.
Print Assumptions C09_raw_lossless.

Example C09_ex : exists fr1 fr2,
  Forall2 (fun b fr => decode ex_table b = Ok (fr, length b)) (map (@List.concat Z) ex_frames) [fr1; fr2] /\
  decode ex_table [1; 0; 7] = Err UnexpectedEof.
Proof. exact C09_ex_lemma. Qed.
