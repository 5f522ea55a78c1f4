(** Properties C28-C30: the RTT channel. *)
From Verif Require Import Base RttModel RttProofs RttLive RttExamples RttGone.

(** C28.  At every moment of every interleaving: what the host has got, followed by
    the unread bytes (which are in the buffer, intact), by what the current write has
    still to publish and by the writes to come is exactly the data written. *)
Theorem C28_lossless : forall size s ops s', start size s ops -> r_connected s = true -> steps size false s s' ->
  exists unread, Z.of_nat (length unread) = (r_write s' - r_read s') mod size /\
    holds size (r_mem s') (r_read s') unread /\
    r_delivered s' ++ unread ++ pending (r_dev s') ++ data (r_ops s') = data ops.
Proof. exact rtt_lossless. Qed.
Print Assumptions C28_lossless.

(** No state of a connected channel is a fault. *)
Theorem C28_no_fault : forall size s ops s', start size s ops -> r_connected s = true -> steps size false s s' ->
  r_dev s' <> DFault.
Proof. exact rtt_no_fault. Qed.
Print Assumptions C28_no_fault.

(** Every fair run delivers everything and all operations return. *)
Theorem C28_all_delivered : forall size, 2 <= size -> forall run ops, fair_run size run ops ->
  exists i, r_dev (run i) = DNext /\ r_ops (run i) = [] /\ r_delivered (run i) = data ops.
Proof. exact all_delivered. Qed.
Print Assumptions C28_all_delivered.

(** Every start has a fair run. *)
Theorem C28_fair_runs_exist : forall size, 2 <= size -> forall s ops, start size s ops -> r_connected s = true ->
  exists run, fair_run size run ops /\ run O = s.
Proof. intros size H s ops S C. exists (turns size s). exact (turns_fair size H s ops S C). Qed.
Print Assumptions C28_fair_runs_exist.

(** The bound 2 is needed: with a buffer of one byte nothing is ever delivered. *)
Theorem C28_size_one_blocks : forall s ops s', start 1 s ops -> r_connected s = true -> steps 1 false s s' ->
  r_delivered s' = [].
Proof. exact size_one_blocks. Qed.
Print Assumptions C28_size_one_blocks.

Example C28_ex : start 4 rtt_ex_start rtt_ex_ops /\ r_delivered (turns 4 rtt_ex_start 60) = [1; 2; 3; 4; 5].
Proof. split; [exact rtt_ex_starts|apply rtt_ex_run]. Qed.

(** If the host stops reading for good (it has left, and the mode is still blocking) and more than [size - 1] bytes
    have not been read, the operations never finish. *)
Theorem C28_host_gone : forall size s0 ops s, start size s0 ops -> r_connected s0 = true -> steps size false s0 s ->
  size <= Z.of_nat (length (data ops)) - Z.of_nat (length (r_delivered s)) ->
  forall n, ~ (r_dev (Nat.iter n (dev_step size false) s) = DNext /\ r_ops (Nat.iter n (dev_step size false) s) = []).
Proof. exact write_blocks. Qed.
Print Assumptions C28_host_gone.

(** What fits is written without the host (flushes apart). *)
Theorem C28_host_gone_fits : forall size s0 ops s, start size s0 ops -> r_connected s0 = true -> steps size false s0 s ->
  ~ In OFlush (r_ops s) /\ match r_dev s with DFlushR | DFlushW _ => False | _ => True end ->
  Z.of_nat (length (data ops)) - Z.of_nat (length (r_delivered s)) < size ->
  exists n, r_dev (Nat.iter n (dev_step size false) s) = DNext /\ r_ops (Nat.iter n (dev_step size false) s) = [].
Proof. exact fits_finishes. Qed.
Print Assumptions C28_host_gone_fits.

Example C28_fits_ex : let s := MkRtt [0; 0; 0; 0] 3 3 true DNext [OWrite [1; 2]; OWrite [3]] HIdle [] in
  start 4 s (r_ops s) /\ length (data (r_ops s)) = 3%nat /\
  (let s' := Nat.iter 30 (dev_step 4 false) s in r_dev s' = DNext /\ r_ops s' = [] /\ r_mem s' = [2; 3; 0; 1] /\ r_write s' = 2).
Proof. split; [repeat split; cbn; lia|]. split; [reflexivity|]. vm_compute. auto. Qed.

Example C28_gone_ex : r_delivered rtt_ex_start = [] /\ length (data rtt_ex_ops) = 5%nat /\
  (forall n, ~ (r_dev (Nat.iter n (dev_step 4 false) rtt_ex_start) = DNext /\ r_ops (Nat.iter n (dev_step 4 false) rtt_ex_start) = [])).
Proof.
  split; [reflexivity|]. split; [reflexivity|].
  exact (C28_host_gone 4 _ _ _ rtt_ex_starts eq_refl (steps_refl _ _ _) ltac:(cbn; lia)).
Qed.

(** C29.  Whatever the host does with its read offset (below the size) and with the
    mode flag, in both builds: no access leaves the buffer (that would be [DFault]),
    nothing panics, the write offset stays below the size. *)
Theorem C29_safe : forall size nonblocking, 1 <= size -> forall s ops s', start size s ops ->
  wild_steps size nonblocking s s' ->
  r_dev s' <> DFault /\ 0 <= r_write s' < size /\ Z.of_nat (length (r_mem s')) = size.
Proof. exact wild_safe. Qed.
Print Assumptions C29_safe.

(** A non-blocking [write_all] of [bs] takes at most [5 * length bs + 1] device steps,
    whatever the host does meanwhile. *)
Theorem C29_nonblocking_terminates : forall size nonblocking, 1 <= size -> forall s0 ops s n s' bs,
  start size s0 ops -> wild_steps size nonblocking s0 s -> r_dev s = DLoop false bs ->
  busy_run size nonblocking n s s' -> Z.of_nat n <= 5 * Z.of_nat (length bs) + 1.
Proof. exact nonblocking_bound. Qed.
Print Assumptions C29_nonblocking_terminates.

(** So every operation that begins while no host is connected (or, with blocking disabled, at any time) returns. *)
Theorem C29_write_returns : forall size nonblocking, 1 <= size -> forall s0 ops s n s' bs more,
  start size s0 ops -> wild_steps size nonblocking s0 s ->
  r_dev s = DNext -> r_ops s = OWrite bs :: more -> nonblocking = true \/ r_connected s = false ->
  busy_run size nonblocking n (dev_step size nonblocking s) s' -> Z.of_nat n <= 5 * Z.of_nat (length bs) + 1.
Proof. exact unconnected_write. Qed.
Print Assumptions C29_write_returns.

Theorem C29_flush_returns : forall size nonblocking s more, r_dev s = DNext -> r_ops s = OFlush :: more -> r_connected s = false ->
  r_dev (dev_step size nonblocking s) = DNext /\ r_ops (dev_step size nonblocking s) = more.
Proof. exact unconnected_flush. Qed.
Print Assumptions C29_flush_returns.

Example C29_ex : exists s, r_dev s = DNext /\ r_ops s = [] /\ wild_steps 2 true (dev_step 2 true rtt_ex_wild) s /\
  busy_run 2 true 12 (dev_step 2 true rtt_ex_wild) s.
Proof. exact rtt_ex_wild_run. Qed.

(** The guard on the read offset is needed, and so is the one on the size. *)
Example C29_bad_host : exists s s', r_mem s = [0; 0] /\ r_write s = 0 /\ r_read s = 7 /\ r_connected s = true /\
  r_dev s = DNext /\ s' = Nat.iter 12 (dev_step 2 false) s /\ r_dev s' = DFault.
Proof. exact bad_host. Qed.

Example C29_size_zero : forall nonblocking, exists s s', r_mem s = [] /\ r_write s = 0 /\ r_read s = 0 /\
  r_dev s = DNext /\ r_ops s = [OWrite [1]] /\ s' = Nat.iter 10 (dev_step 0 nonblocking) s /\ r_dev s' = DFault.
Proof. exact size_zero_faults. Qed.

(** C30.  When a flush returns, the host has got everything written before it (the
    operations not yet started are the ones after it). *)
Theorem C30_flush_waits : forall size s ops s', start size s ops -> r_connected s = true -> steps size false s s' ->
  forall r0, r_dev s' = DFlushW r0 -> r_dev (dev_step size false s') = DNext ->
  r_delivered s' ++ data (r_ops s') = data ops.
Proof. exact flush_waits. Qed.
Print Assumptions C30_flush_waits.

(** The same without the states of a flush: at any moment of any interleaving the device has not got to the flush
    yet, or is in it, or the host has got everything written before it. *)
Theorem C30_passed : forall size s before after s', start size s (before ++ OFlush :: after) -> r_connected s = true ->
  steps size false s s' ->
  ((exists before', r_ops s' = before' ++ OFlush :: after) \/
   (r_ops s' = after /\ (r_dev s' = DFlushR \/ exists r, r_dev s' = DFlushW r))) \/
  exists more, r_delivered s' = data before ++ more.
Proof. exact flush_passed. Qed.
Print Assumptions C30_passed.

(** It waits for nothing else: with nothing unread (and no stale read offset) it
    returns within two device steps. *)
Theorem C30_flush_returns : forall size nonblocking s, r_dev s = DFlushR -> r_read s = r_write s ->
  r_dev (dev_step size nonblocking (dev_step size nonblocking s)) = DNext.
Proof. exact flush_returns. Qed.
Print Assumptions C30_flush_returns.

(** If the host stops reading for good while a byte written before a flush is unread, the device never gets past
    the flush. *)
Theorem C30_host_gone : forall size s0 ops s before after, start size s0 ops -> r_connected s0 = true -> steps size false s0 s ->
  r_ops s = before ++ OFlush :: after -> (length (r_delivered s) < length (data ops) - length (data after))%nat ->
  forall n, let s' := Nat.iter n (dev_step size false) s in
  (exists before', r_ops s' = before' ++ OFlush :: after) \/
  (r_ops s' = after /\ (r_dev s' = DFlushR \/ exists r, r_dev s' = DFlushW r)).
Proof. exact flush_blocks. Qed.
Print Assumptions C30_host_gone.

Example C30_gone_ex : let s := MkRtt [0; 0; 0; 0] 3 3 true DNext [OWrite [1]; OFlush; OWrite [2]] HIdle [] in
  start 4 s [OWrite [1]; OFlush; OWrite [2]] /\
  r_dev (Nat.iter 101 (dev_step 4 false) s) = DFlushR /\ r_ops (Nat.iter 101 (dev_step 4 false) s) = [OWrite [2]] /\
  forall n, r_ops (Nat.iter n (dev_step 4 false) s) <> [].
Proof.
  intros s. assert (S : start 4 s [OWrite [1]; OFlush; OWrite [2]]) by (repeat split; cbn; lia).
  split; [exact S|]. split; [vm_compute; reflexivity|]. split; [vm_compute; reflexivity|]. intros n E.
  destruct (C30_host_gone 4 s _ s [OWrite [1]] [OWrite [2]] S eq_refl (steps_refl _ _ _) eq_refl ltac:(cbn; lia) n) as [(b & B)|(B & _)];
    rewrite E in B; [destruct b|]; discriminate.
Qed.

Example C30_ex : exists s r0, steps 4 false rtt_ex_start s /\ r_dev s = DFlushW r0 /\
  r_dev (dev_step 4 false s) = DNext /\ r_delivered s = [1; 2; 3; 4; 5].
Proof. exact rtt_ex_flush. Qed.
