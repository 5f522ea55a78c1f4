(** Properties C01-C04: the rzCOBS wire encoding. *)
From Verif Require Import Base RzcobsModel RzcobsProofs.

(** C01.  Whatever was sent before ([history]: any list of frames, each any list
    of writes), a frame written in any number of [write] calls is, up to the
    initial separator, [body ++ [0]] and the host decodes [body] to exactly the
    written bytes followed by at most six zero bytes. *)
Theorem C01_rzcobs_roundtrip : forall (history : list (list bytes)) (chunks : list bytes),
  exists sep body k,
    snd (frame_chunks (fst (frames_chunks enc_new history)) chunks) = sep ++ body ++ [0] /\
    (sep = [] \/ sep = [0]) /\
    ~ In 0 body /\
    rzcobs_decode body = Ok (concat chunks ++ repeat 0 k) /\
    (k <= 6)%nat.
Proof. exact C01_lemma. Qed.
Print Assumptions C01_rzcobs_roundtrip.

Example C01_ex :
  frame_chunks enc_new [[1; 0]; []; [5; 7; 0; 0; 9; 0; 3]] =
    (Encoder 0 0 true, [0; 1; 5; 7; 9; 50; 3; 125; 0]) /\
  rzcobs_decode [1; 5; 7; 9; 50; 3; 125] = Ok [1; 0; 5; 7; 0; 0; 9; 0; 3; 0; 0; 0; 0; 0].
Proof. vm_compute. auto. Qed.

(** C02.  The frame on the wire is a zero-free body followed by exactly one
    separator; the very first frame after boot is also preceded by one; a
    non-empty frame has a non-empty body; the output consists of bytes. *)
Theorem C02_separator : forall (history : list (list bytes)) (chunks : list bytes),
  exists body,
    snd (frame_chunks (fst (frames_chunks enc_new history)) chunks) =
      (match history with [] => [0] | _ :: _ => [] end) ++ body ++ [0] /\
    ~ In 0 body /\
    (concat chunks <> [] -> body <> []) /\
    (Forall bytes_ok chunks -> bytes_ok body).
Proof. exact C02_lemma. Qed.
Print Assumptions C02_separator.

Example C02_ex :
  snd (frame_chunks (fst (frames_chunks enc_new [[[4]]])) [[0; 0]]) = [127; 0].
Proof. vm_compute. auto. Qed.

(** C03.  Only the concatenation of the writes matters, for the output and for
    the encoder state left behind. *)
Theorem C03_split_independent : forall (e : encoder) (chunks1 chunks2 : list bytes),
  concat chunks1 = concat chunks2 -> frame_chunks e chunks1 = frame_chunks e chunks2.
Proof. exact C03_lemma. Qed.
Print Assumptions C03_split_independent.

Theorem C03_split_independent_raw : forall chunks1 chunks2 : list bytes,
  concat chunks1 = concat chunks2 -> raw_frame_chunks chunks1 = raw_frame_chunks chunks2.
Proof. exact C03_raw_lemma. Qed.
Print Assumptions C03_split_independent_raw.

Example C03_ex : concat [[1; 2]; [0]; []; [3]] = concat [[1]; [2; 0; 3]] /\
  snd (frame_chunks enc_new [[1; 2]; [0]; []; [3]]) = [0; 1; 2; 3; 116; 0].
Proof. vm_compute. auto. Qed.

(** C04.  A frame of [n] bytes occupies at most [n + n/134 + 1] bytes plus the
    separator(s). *)
Theorem C04_overhead : forall (history : list (list bytes)) (chunks : list bytes),
  let n := Z.of_nat (length (concat chunks)) in
  let separators := match history with [] => 2 | _ :: _ => 1 end in
  Z.of_nat (length (snd (frame_chunks (fst (frames_chunks enc_new history)) chunks)))
    <= n + n / 134 + 1 + separators.
Proof. exact C04_lemma. Qed.
Print Assumptions C04_overhead.

(** The bound is attained, e.g. by a one byte frame and by 135 non-zero bytes. *)
Example C04_ex :
  length (snd (frame_chunks enc_new [[9]])) = (1 + 0 + 1 + 2)%nat /\
  length (snd (frame_chunks enc_new [repeat 9 135])) = (135 + 1 + 1 + 2)%nat.
Proof. vm_compute. auto. Qed.
