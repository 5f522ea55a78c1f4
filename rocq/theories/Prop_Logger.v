(** Properties C31 and C43: the global logger shared by all contexts. *)
From Verif Require Import Base RzcobsModel DecoderModel DecoderPanic StreamModel StreamSpec StreamProofs
  LoggerModel LoggerSpec LoggerProofs LoggerMain LoggerExamples.

(** C31.  At every moment of every interleaving the bytes transmitted are whole messages, one after the
    other, followed by at most one unfinished one, which belongs to the context holding the logger.
    Each context's messages appear completely and in the order of its program. *)
Theorem C31_whole_frames : forall lg k msg progs s, programs_ok msg progs -> reachable lg k msg progs s ->
  exists hist open,
    out s = match open with None => transmitted k (map snd hist) | Some (_, w) => transmitted_part k (map snd hist) w end /\
    (forall i w, open = Some (i, w) -> owner s = Some i /\ taken s = true /\ (i < length progs)%nat) /\
    (forall i w, In (i, w) hist -> (i < length progs)%nat) /\
    forall i ts, nth_error progs i = Some ts -> exists more,
      attempts msg ts = complete (by_ctx i hist) ++ more /\
      forall w, open = Some (i, w) -> exists w2 fl more', more = (w ++ w2, fl) :: more'.
Proof. exact whole_frames. Qed.
Print Assumptions C31_whole_frames.

(** The host shows exactly the complete messages that are not empty, in order, however the bytes arrive,
    and waits for the rest of the unfinished one. *)
Theorem C31_host : forall t done open frs chunks, table_safe t ->
  Forall2 (decodes t) (filter (fun f => non_empty (concat f)) done) frs ->
  concat chunks = match open with None => transmitted EncRzcobs done | Some w => transmitted_part EncRzcobs done w end ->
  exists rest, host_run EncRzcobs t [] chunks = (map EvFrame frs, Waiting rest).
Proof. exact host_shows. Qed.
Print Assumptions C31_host.

(** A context that logs inside a log statement panics, and nothing is transmitted after that. *)
Theorem C31_reentrant : forall lg k msg progs s i, programs_ok msg progs -> reachable lg k msg progs s ->
  next_op s i = Some OCheckFree -> taken s = true ->
  owner s = Some i /\ (exists s', step lg k msg i s = Some s' /\ panicked s' = true) /\
  forall n s', runs lg k msg n s s' -> out s' = out s.
Proof. exact reentrant. Qed.
Print Assumptions C31_reentrant.

(** Programs that neither panic nor log inside log statements are never stuck ... *)
Theorem C31_progress : forall lg k msg progs, programs_ok msg progs -> Forall calm progs ->
  forall s, reachable lg k msg progs s -> finished s \/ exists i s', step lg k msg i s = Some s'.
Proof. exact calm_progress. Qed.
Print Assumptions C31_progress.

(** ... and in the end every message of every context has been transmitted, whatever the schedule. *)
Theorem C31_delivered : forall lg k msg progs, programs_ok msg progs -> Forall calm progs ->
  forall s, reachable lg k msg progs s -> finished s ->
  owner s = None /\ taken s = false /\ panicked s = false /\
  exists hist, out s = transmitted k (map snd hist) /\ (forall i w, In (i, w) hist -> (i < length progs)%nat) /\
    forall i ts, nth_error progs i = Some ts -> by_ctx i hist = messages ts.
Proof. exact calm_delivered. Qed.
Print Assumptions C31_delivered.

(** Logging does not end a critical section of the program early: as long as a context has
    one open, no other context is in one. *)
Theorem C31_sections : forall lg k msg progs, programs_ok msg progs -> Forall calm progs ->
  forall s i c, reachable lg k msg progs s -> nth_error (ctxs s) i = Some c -> (0 < open_sections 0 (code c))%nat -> owner s = Some i.
Proof. exact calm_sections. Qed.
Print Assumptions C31_sections.

Example C31_ex :
  programs_ok ex_msg ex_progs /\ Forall calm ex_progs /\
  (let s := follow Rtt EncRaw ex_msg (alternate 60) (boot Rtt ex_progs) in
   map code (ctxs s) = [[]; []] /\ out s = [1; 0; 2; 7; 8; 5] /\ reachable Rtt EncRaw ex_msg ex_progs s) /\
  messages (nth 0 ex_progs []) = [[[1; 0]; [2]]; [[5]]] /\ messages (nth 1 ex_progs []) = [[[7; 8]]].
Proof. split; [exact ex_programs_ok|]. split; [exact ex_calm|]. split; [exact ex_run|]. split; reflexivity. Qed.

Example C31_waits_ex :
  let s := follow Rtt EncRaw ex_msg (repeat 0%nat 8 ++ repeat 1%nat 5) (boot Rtt ex_progs) in
  owner s = Some 0%nat /\ out s = [1; 0] /\ next_op s 1 = Some OEnter /\ step Rtt EncRaw ex_msg 1 s = None.
Proof. exact ex_waits. Qed.

Example C31_reentrant_ex : programs_ok ex_msg ex_reentrant /\
  let s := follow Rtt EncRaw ex_msg (repeat 0%nat 18) (boot Rtt ex_reentrant) in
  next_op s 0 = Some OCheckFree /\ taken s = true /\ out s = [1; 2] /\
  let s' := follow Rtt EncRaw ex_msg (alternate 30) s in out s' = [1; 2] /\ map code (ctxs s') = [[OHalt]; comp Rtt [TLog [TWrite [5]]]].
Proof. split; [exact ex_reentrant_ok|exact ex_reentrant_run]. Qed.

Example C31_flush_ex :
  let s := follow Rtt EncRzcobs ex_msg (repeat 0%nat 40) (boot Rtt [[TLog [TWrite [1; 0]]; TLog [TFlush]; TLog [TWrite [1; 0]; TWork; THalt]]]) in
  out s = transmitted_part EncRzcobs [[[1; 0]]; []] [[1; 0]] /\ out s = [0; 1; 126; 0; 0; 1].
Proof. exact ex_flush_run. Qed.

(** C43.  The rules of the [Logger] trait: the logger's state is touched only by the context in the critical
    section, and data is written, flushed and ended only between [acquire] and [release]; the
    check in [release] and [write] for a logger that is not taken never fires. *)
Theorem C43_contract : forall lg k msg progs s i o, programs_ok msg progs -> reachable lg k msg progs s -> next_op s i = Some o ->
  (uses_logger o = true -> owner s = Some i) /\
  (inside_frame o = true -> taken s = true) /\ (o = OCheckTaken -> taken s = true).
Proof. exact contract. Qed.
Print Assumptions C43_contract.

(** A log statement takes the logger, ends a frame and frees the logger exactly once. *)
Theorem C43_once : forall lg body, calm_body body ->
  taken_by (comp lg [TLog body]) = 1%nat /\ freed_by (comp lg [TLog body]) = 1%nat /\ ended_by (comp lg [TLog body]) = 1%nat.
Proof. exact once. Qed.
Print Assumptions C43_once.

(** Programs that neither panic nor log inside log statements never see a panic of the logger. *)
Theorem C43_no_panic : forall lg k msg progs, programs_ok msg progs -> Forall calm progs ->
  forall s, reachable lg k msg progs s -> panicked s = false /\
  forall i s', step lg k msg i s = Some s' -> panicked s' = false.
Proof. exact calm_quiet. Qed.
Print Assumptions C43_no_panic.

(** A panic after a panic stops its context without logging. *)
Theorem C43_second_panic : forall lg k msg n s0 s i o rest ls, panicked s0 = true -> runs lg k msg n s0 s ->
  nth_error (ctxs s) i = Some (MkCtx (o :: rest) ls) -> exec k i o s ls = Panics ->
  exists s', step lg k msg i s = Some s' /\ nth_error (ctxs s') i = Some (MkCtx [OHalt] ls) /\ out s' = out s.
Proof. intros lg k msg n s0 s i o rest ls P R E X. exact (second_panic lg k msg s i o rest ls E X (runs_panicked _ _ _ _ _ _ R P)). Qed.
Print Assumptions C43_second_panic.

(** Panics, also in the panic message and in log statements, never loop: no run is longer than
    the programs and one panic message. *)
Theorem C43_bounded : forall lg k msg progs n s, runs lg k msg n (boot lg progs) s ->
  (n <= list_sum (map (fun ts => length (comp lg ts)) progs) + match msg with Some body => length (comp lg [TLog body]) | None => 0 end)%nat.
Proof. exact runs_short. Qed.
Print Assumptions C43_bounded.

Example C43_ex : let s := follow Itm EncRaw ex_msg (repeat 0%nat 40) (boot Itm [[TLog [TWrite [1]]; TPanic]]) in
  out s = [1; 9] /\ map code (ctxs s) = [[OHalt]] /\ owner s = None.
Proof. exact ex_panic_run. Qed.
