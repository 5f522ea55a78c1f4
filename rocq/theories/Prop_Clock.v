(** Property C75: the timestamps of the book. *)
From Verif Require Import Base ClockModel ClockSpec ClockProofs.

(** C75.  Messages take turns: with any source, for any contexts that log and any interleaving, the timestamp of
    a message is evaluated after that of every message before it. *)
Theorem C75_turns : forall src progs ms s, logs_only progs -> runs ms (boot src progs) s -> in_turn (uses s).
Proof. exact turns. Qed.
Print Assumptions C75_turns.

(** The atomic counter: messages are numbered one after the other, in the order they are sent, modulo 2^32. *)
Theorem C75_counter : forall progs ms s, logs_only progs -> runs ms (boot Counter progs) s ->
  map u_value (uses s) = map (fun k => Z.of_nat k mod 2 ^ 32) (seq 0 (length (uses s))).
Proof. exact counter_values. Qed.
Print Assumptions C75_counter.

(** The timer: every value is what it showed at some time during the evaluation; timestamps do not go back
    before it wraps around. *)
Theorem C75_timer : forall progs ms s, runs ms (boot Hardware progs) s ->
  Forall true_low (uses s) /\ (logs_only progs -> now s < 2 ^ 32 -> ascending (uses s)).
Proof. intros progs ms s R. split; [exact (timer_values progs ms s R)|]. intros O N. exact (timer_ascending progs ms s O R N). Qed.
Print Assumptions C75_timer.

(** The timer extended to 64 bits: right wherever it is evaluated with interrupts enabled, as long as no interrupt is lost because
    a critical section lasts longer than the timer takes to wrap around twice. *)
Theorem C75_extended : forall progs s, runs_if not_pending (boot Extended progs) s ->
  Forall (fun u => u_logged u = false -> true_time u) (uses s).
Proof. exact extended_reads. Qed.
Print Assumptions C75_extended.

(** The loop ends after a round in which the timer does not wrap around, however long it takes. *)
Theorem C75_ends : forall s i rest t h l n1 n2 n3,
  nth_error (ctxs s) i = Some (MkCtx (High1 :: Low :: High2 :: rest) t h l) -> may_run i (owner s) = true ->
  0 <= now s -> now s + Z.of_nat (n1 + n2 + n3) < 2 ^ 64 -> (now s + Z.of_nat (n1 + n2 + n3)) / 2 ^ 32 = now s / 2 ^ 32 ->
  exists s', go (repeat Tick n1 ++ [Step i] ++ repeat Tick n2 ++ [Step i] ++ repeat Tick n3 ++ [Step i]) s = Some s' /\
    nth_error (ctxs s') i = Some (MkCtx rest t (overflows s) ((now s + Z.of_nat (n1 + n2)) mod 2 ^ 32)).
Proof. exact round_ends. Qed.
Print Assumptions C75_ends.

(** As a timestamp it is right, and does not go back, if the timer never wraps around while a message is being sent ... *)
Theorem C75_extended_log : forall progs s, runs_if not_masked (boot Extended progs) s ->
  Forall true_time (uses s) /\ (logs_only progs -> ascending (uses s)).
Proof. intros progs s R. split; [exact (extended_all progs s R)|]. intros O. exact (extended_ascending progs s O R). Qed.
Print Assumptions C75_extended_log.

(** ... and goes back by 2^32 otherwise: the timestamp is evaluated with interrupts masked, so that the overflow is not counted. *)
Theorem C75_extended_log_refuted : exists ms s, runs ms (boot Extended [[Log; Log]]) s /\ now s = 2 ^ 32 /\
  map u_value (uses s) = [2 ^ 32 - 1; 0].
Proof. exact extended_goes_back. Qed.
Print Assumptions C75_extended_log_refuted.

(** Two contexts, one of which has to wait. *)
Example counted : option_map (fun s => (map u_value (uses s), now s))
  (go ([Step 0; Step 0; Tick; Step 0; Tick; Step 0; Step 0] ++ repeat (Step 1) 6 ++ repeat (Step 0) 5) (boot Counter [[Log; Log]; [Other; Log]])) =
  Some ([0; 1; 2], 2).
Proof. reflexivity. Qed.
Example waits : go [Step 0; Step 1] (boot Counter [[Log]; [Log]]) = None.
Proof. reflexivity. Qed.

(** A read around a wrap-around: the loop goes round once more. *)
Definition near : sys := MkSys (2 ^ 32 - 1) 0 false None 0 (ctxs (boot Extended [[Read]])) [].
Example read_again : option_map (fun s => (uses s, map code (ctxs s)))
  (go ([Step 0; Step 0; Tick] ++ repeat (Step 0) 6) near) = Some ([MkUsed (2 ^ 32) false (2 ^ 32 - 1) (2 ^ 32)], [[]]).
Proof. vm_compute. reflexivity. Qed.
