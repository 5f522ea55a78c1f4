(** Properties C57 and C58: the main loops of defmt-print and qemu-run. *)
From Verif Require Import Base RzcobsModel ParserModel DecoderModel DecoderPanic DecoderExamples StreamModel StreamSpec StreamExamples
  DisplayModel DisplayExamples HostModel HostSpec HostProofs HostExamples.

(** The standard input: whatever the bytes are and however they are cut, what the stream
    shows is shown, and the program ends when the input does. *)
Theorem C57_stdin : forall json t chunks hs, Forall some_bytes chunks ->
  defmt_print false json Stdin (Loads t) (reads chunks ++ Read (Ok []) :: hs) =
  let '(evs, st) := host_run (t_encoding t) t [] [concat chunks] in
  ((if json then [Schema] else []) ++ map (Event t) evs,
   match st with Waiting _ => Finished true | Aborted => Finished false | _ => Crashed end).
Proof. exact stdin_run. Qed.
Print Assumptions C57_stdin.

Theorem C57_stdin_frames : forall json t fs frs chunks hs, table_safe t -> Forall2 (frame_decodes t) fs frs ->
  sent t fs (concat chunks) -> Forall some_bytes chunks ->
  defmt_print false json Stdin (Loads t) (reads chunks ++ Read (Ok []) :: hs) =
  ((if json then [Schema] else []) ++ map (Event t) (map EvFrame frs), Finished true).
Proof. exact stdin_frames. Qed.
Print Assumptions C57_stdin_frames.

Example C57_stdin_ex : exists fr1 fr2, table_safe ex_table /\ Forall2 (frame_decodes ex_table) ex_frames [fr1; fr2] /\
  sent ex_table ex_frames (concat ex_chunks) /\ Forall some_bytes ex_chunks /\
  defmt_print false true Stdin (Loads ex_table) (reads ex_chunks ++ [Read (Ok [])]) =
    ([Schema; Event ex_table (EvFrame fr1); Event ex_table (EvFrame fr2)], Finished true).
Proof. exact host_ex. Qed.

(** Without [--watch-elf] the file is read once. *)
Theorem C57_file_once : forall json s hs file file' d,
  run_print false json s file d hs = run_print false json s file' d (filter (fun h => match h with Read _ => true | _ => false end) hs).
Proof. exact unwatched. Qed.
Print Assumptions C57_file_once.

(** A network or serial connection: the frames are shown ... *)
Theorem C57_connection : forall watch json s t fs frs chunks n, table_safe t -> Forall2 (frame_decodes t) fs frs ->
  sent t fs (concat chunks) -> s <> Stdin ->
  defmt_print watch json s (Loads t) (reads chunks ++ closed n) =
  ((if json then [Schema] else []) ++ map (Event t) (map EvFrame frs), Running t []).
Proof. exact connection_frames. Qed.
Print Assumptions C57_connection.

(** ... but when the other side has closed it, the program reads zero bytes for ever. *)
Theorem C57_connection_ends_refuted : exists s t chunks, phase_fine (MkPhase t chunks [EvSkipped]) /\
  forall json n ok, snd (defmt_print false json s (Loads t) (reads chunks ++ closed n)) <> Finished ok.
Proof. exact closed_forever. Qed.
Print Assumptions C57_connection_ends_refuted.

(** [--watch-elf]: after the file was replaced, frames are decoded with the new table, from
    an empty buffer. *)
Theorem C57_watch : forall json s p phases, Forall phase_fine (p :: phases) ->
  s <> Stdin \/ Forall (fun p => Forall some_bytes (ph_chunks p)) (p :: phases) ->
  exists t buf, defmt_print true json s (Loads (ph_table p)) (reads (ph_chunks p) ++ flat_map phase_happens phases) =
    (flat_map (phase_shown json) (p :: phases), Running t buf).
Proof. exact watch_run. Qed.
Print Assumptions C57_watch.

Theorem C57_phase : forall t fs frs chunks, table_safe t -> Forall2 (frame_decodes t) fs frs -> sent t fs (concat chunks) ->
  phase_fine (MkPhase t chunks (map EvFrame frs)).
Proof. exact phase_frames. Qed.
Print Assumptions C57_phase.

(** A file that is only half written when it is read ends the program. *)
Theorem C57_half_written_refuted : exists t t' chunks, phase_fine (MkPhase t' chunks [EvSkipped]) /\
  forall json s hs, defmt_print true json s (Loads t) (Replaced Unusable :: Replaced (Loads t') :: reads chunks ++ hs) =
    ((if json then [Schema] else []), Finished false).
Proof. exact half_written. Qed.
Print Assumptions C57_half_written_refuted.

(** With [--watch-elf] the end of the standard input restarts the program without end. *)
Theorem C57_watch_ends_refuted : exists t, forall n, exists buf,
  defmt_print true true Stdin (Loads t) (closed n) = (Schema :: repeat Schema n, Running t buf).
Proof. exact schema_forever. Qed.
Print Assumptions C57_watch_ends_refuted.

(** qemu-run: all frames, one line each, and the exit code of QEMU, however its output is
    cut and whenever its end is noticed. *)
Theorem C58_frames : forall X t fs frs ls pieces last c rest, table_safe t -> Forall2 (frame_decodes t) fs frs ->
  sent t fs (qemu_output pieces last rest) -> Forall2 (line_of X t) frs ls ->
  qemu_run X t (qemu_turns pieces last (Exit c) rest) = (ls, Some c).
Proof. intros X t fs frs ls pieces last c rest. exact (qemu_frames X t fs frs ls pieces last (Exit c) rest). Qed.
Print Assumptions C58_frames.

Example C58_ex : qemu_run X0 ex_table (qemu_ex_turns (Exit 3)) =
  ([lit "0.000007 " ++ x_paint X0 LInfo (lit "INFO") ++ lit " x=200 Some(4660)" ++ [10]; lit "0.000009 true|true" ++ [10]], Some 3).
Proof. exact qemu_ex. Qed.

(** Output that is damaged: the frames before the damage are printed, and it is an error. *)
Theorem C58_damaged : forall X t pieces last s rest frs ls evs st,
  host_run (t_encoding t) t [] [qemu_output pieces last rest] = (map EvFrame frs ++ evs, st) -> Forall2 (line_of X t) frs ls ->
  (exists evs', evs = EvSkipped :: evs') \/ (evs = [] /\ st = Aborted) ->
  qemu_run X t (qemu_turns pieces last s rest) = (ls, Some 1).
Proof. exact qemu_damaged. Qed.
Print Assumptions C58_damaged.

Example C58_damaged_ex : qemu_run X0 ex_table (qemu_turns [[255]; [0]] (concat ex_chunks) (Exit 0) []) = ([], Some 1).
Proof. exact qemu_damaged_ex. Qed.

(** Success: QEMU did not report a failure, and all its output was decoded and printed. *)
Theorem C58_success : forall X t pieces last s rest ls,
  qemu_run X t (qemu_turns pieces last s rest) = (ls, Some 0) ->
  (s = Exit 0 \/ exists n, s = Signal n) /\
  exists frs r, host_run (t_encoding t) t [] [qemu_output pieces last rest] = (map EvFrame frs, Waiting r) /\ Forall2 (line_of X t) frs ls.
Proof. exact qemu_success. Qed.
Print Assumptions C58_success.

(** When QEMU is killed by a signal, qemu-run reports success. *)
Theorem C58_killed_refuted : exists ls, qemu_run X0 ex_table (qemu_ex_turns (Signal 9)) = (ls, Some 0).
Proof. exact qemu_killed. Qed.
Print Assumptions C58_killed_refuted.
