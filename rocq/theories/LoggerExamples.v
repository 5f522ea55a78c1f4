(** The logger on concrete programs and schedules. *)
From Verif Require Import Base RzcobsModel DecoderModel LoggerModel LoggerSpec LoggerProofs LoggerMain.

Fixpoint follow (lg : logger) (k : encoding) (msg : option (list task)) (sched : list nat) (s : sys) : sys :=
  match sched with
  | [] => s
  | i :: r => match step lg k msg i s with Some s' => follow lg k msg r s' | None => follow lg k msg r s end
  end.

Lemma follow_runs : forall lg k msg sched s0 n s, runs lg k msg n s0 s -> exists m, runs lg k msg m s0 (follow lg k msg sched s).
Proof.
  intros lg k msg. induction sched as [|i r IH]; intros s0 n s R; cbn [follow]; [eauto|].
  destruct (step lg k msg i s) eqn:E; [|eauto]. apply (IH s0 (S n)). eapply Run_step; eauto.
Qed.

(** A thread that logs twice, the second time in a critical section, and an interrupt handler that logs once. *)
Definition ex_progs : list (list task) :=
  [ [TLog [TWrite [1; 0]; TEnter; TWork; TLeave; TWrite [2]]; TEnter; TLog [TWrite [5]]; TWork; TLeave]; [TWork; TLog [TWrite [7; 8]]] ].
Definition ex_msg : option (list task) := Some [TWrite [9]].

Lemma ex_programs_ok : programs_ok ex_msg ex_progs.
Proof. split; [repeat constructor|]. intros body Q. injection Q as <-. repeat constructor. Qed.
Lemma ex_calm : Forall calm ex_progs.
Proof. repeat constructor. Qed.

(** The contexts take turns. *)
Definition alternate (n : nat) : list nat := concat (repeat [1; 0]%nat n).

Lemma ex_run :
  let s := follow Rtt EncRaw ex_msg (alternate 60) (boot Rtt ex_progs) in
  map code (ctxs s) = [[]; []] /\ out s = [1; 0; 2; 7; 8; 5] /\ reachable Rtt EncRaw ex_msg ex_progs s.
Proof.
  split; [vm_compute; reflexivity|]. split; [vm_compute; reflexivity|]. destruct (follow_runs Rtt EncRaw ex_msg (alternate 60) _ 0 _ (Run_start _ _ _ (boot Rtt ex_progs))) as [m R]. exists m. exact R.
Qed.

(** Context 1 has to wait while context 0 writes. *)
Lemma ex_waits :
  let s := follow Rtt EncRaw ex_msg (repeat 0%nat 8 ++ repeat 1%nat 5) (boot Rtt ex_progs) in
  owner s = Some 0%nat /\ out s = [1; 0] /\ next_op s 1 = Some OEnter /\ step Rtt EncRaw ex_msg 1 s = None.
Proof. vm_compute. repeat split. Qed.

(** A [Format] implementation that logs. *)
Definition ex_reentrant : list (list task) := [ [TLog [TWrite [1]]; TLog [TWrite [2]; TLog [TWrite [3]]; TWrite [4]]]; [TLog [TWrite [5]]] ].
Lemma ex_reentrant_ok : programs_ok ex_msg ex_reentrant.
Proof. split; [repeat constructor|]. intros body Q. injection Q as <-. repeat constructor. Qed.
Lemma ex_reentrant_run :
  let s := follow Rtt EncRaw ex_msg (repeat 0%nat 18) (boot Rtt ex_reentrant) in
  next_op s 0 = Some OCheckFree /\ taken s = true /\ out s = [1; 2] /\
  let s' := follow Rtt EncRaw ex_msg (alternate 30) s in out s' = [1; 2] /\ map code (ctxs s') = [[OHalt]; comp Rtt [TLog [TWrite [5]]]].
Proof. vm_compute. repeat split. Qed.

(** A panic outside log statements is reported. *)
Lemma ex_panic_run :
  let s := follow Itm EncRaw ex_msg (repeat 0%nat 40) (boot Itm [[TLog [TWrite [1]]; TPanic]]) in out s = [1; 9] /\ map code (ctxs s) = [[OHalt]] /\ owner s = None.
Proof. vm_compute. repeat split. Qed.

(** The empty frame of [defmt::flush] and an unfinished frame on the wire. *)
Lemma ex_flush_run :
  let s := follow Rtt EncRzcobs ex_msg (repeat 0%nat 40) (boot Rtt [[TLog [TWrite [1; 0]]; TLog [TFlush]; TLog [TWrite [1; 0]; TWork; THalt]]]) in
  out s = transmitted_part EncRzcobs [[[1; 0]]; []] [[1; 0]] /\ out s = [0; 1; 126; 0; 0; 1].
Proof. vm_compute. repeat split. Qed.
