(** Fair runs of the RTT channel exist; concrete runs. *)
From Verif Require Import Base RttModel RttProofs RttLive.

Section Alternate.
  Context (size : Z) (Hsize : 2 <= size) (s0 : rtt) (D : bytes).
  Context (I0 : exists u, inv size D s0 u).

  (** A host that always reads everything it has seen. *)
  Definition eager_host (s : rtt) : rtt :=
    match r_host s with
    | HIdle => set_host s (HRead (r_write s) [])
    | HRead w got =>
        if Z.of_nat (length got) <? (w - r_read s) mod size then
          match nth_error (r_mem s) (Z.to_nat ((r_read s + Z.of_nat (length got)) mod size)) with
          | Some x => set_host s (HRead w (got ++ [x]))
          | None => s
          end
        else consumed size s got
    end.

  (** Device and host take turns. *)
  Fixpoint turns (n : nat) : rtt :=
    match n with
    | O => s0
    | S n' => if Nat.even n' then dev_step size false (turns n') else eager_host (turns n')
    end.

  Lemma turns_step : forall i, turns (S i) = turns i \/ step size false (turns i) (turns (S i)).
  Proof.
    clear Hsize I0. intros i. cbn [turns]. destruct (Nat.even i); [right; constructor|].
    unfold eager_host. destruct (r_host (turns i)) as [|w got] eqn:E.
    - right. apply step_host. now constructor.
    - destruct (Z.of_nat (length got) <? (w - r_read (turns i)) mod size) eqn:L.
      + destruct (nth_error _ _) eqn:N; [|auto]. right. apply step_host. econstructor; eauto. lia.
      + right. apply step_host. unfold consumed. econstructor; eauto.
  Qed.

  Lemma turns_inv : forall i, exists u, inv size D (turns i) u.
  Proof.
    induction i as [|i (u & IH)]; [exact I0|].
    destruct (turns_step i) as [->|H]; [eauto|]. eapply inv_step; eauto.
  Qed.

  Definition host_left (s : rtt) : Z :=
    match r_host s with
    | HIdle => size + 1
    | HRead w got => (w - r_read s) mod size - Z.of_nat (length got)
    end.

  Lemma host_turn : forall n i, Nat.even i = false -> (Z.to_nat (host_left (turns i)) < n)%nat ->
    exists j w got, (i <= j)%nat /\ r_host (turns j) = HRead w got /\
       Z.of_nat (length got) = (w - r_read (turns j)) mod size /\ turns (S j) = consumed size (turns j) got.
  Proof.
    induction n as [|n IH]; intros i O L; [lia|].
    destruct (turns_inv i) as (u & Iv). destruct (turns_inv (S i)) as (u' & Iv').
    assert (T : turns (S i) = eager_host (turns i)) by (cbn [turns]; now rewrite O).
    assert (E2 : Nat.even (S (S i)) = false) by exact O.
    assert (HL : host_left (turns (S (S i))) = host_left (turns (S i))).
    { cbn [turns]. assert (Nat.even (S i) = true) by (rewrite Nat.even_succ, <- Nat.negb_even, O; reflexivity).
      cbn [turns] in *. rewrite H. rewrite O. set (s := eager_host (turns i)).
      destruct (dev_step_keeps size s) as (_ & H1 & H2 & _). unfold host_left. rewrite H1, H2. reflexivity. }
    assert (K : (exists w got, r_host (turns i) = HRead w got /\
       Z.of_nat (length got) = (w - r_read (turns i)) mod size /\ turns (S i) = consumed size (turns i) got) \/
       (0 <= host_left (turns (S i)) < host_left (turns i))).
    { pose proof (i_host _ _ _ _ Iv) as IH'. unfold host_inv in IH'.
      rewrite T. unfold eager_host, host_left. destruct (r_host (turns i)) as [|w got] eqn:E.
      - right. cbn. pose proof (Z.mod_pos_bound (r_write (turns i) - r_read (turns i)) size ltac:(lia)). lia.
      - destruct IH' as (W1 & W2 & W3 & v & W4).
        destruct (Z.of_nat (length got) <? (w - r_read (turns i)) mod size) eqn:Q.
        + right. pose proof (i_holds _ _ _ _ Iv) as Hh. subst u. destruct v as [|x v].
          { rewrite app_nil_r in W2. lia. }
          specialize (Hh (length got) x). rewrite nth_error_app2, Nat.sub_diag in Hh by lia.
          rewrite (Hh eq_refl). cbn. rewrite app_length. cbn [length]. lia.
        + left. exists w, got. repeat split; auto. lia. }
    destruct K as [(w & got & K)|K].
    - exists i, w, got. split; [lia|exact K].
    - destruct (IH (S (S i)) E2 ltac:(lia)) as (j & w & got & J1 & J2). exists j, w, got. split; [lia|exact J2].
  Qed.

  Theorem turns_fair_from : fair_turns size turns.
  Proof.
    split; [exact turns_step|]. split.
    - intros i. destruct (Nat.even i) eqn:E.
      + exists i. split; auto. cbn [turns]. now rewrite E.
      + exists (S i). split; [lia|]. cbn [turns]. rewrite Nat.even_succ, <- Nat.negb_even, E. reflexivity.
    - intros i. destruct (Nat.even i) eqn:E.
      + assert (E' : Nat.even (S i) = false) by (rewrite Nat.even_succ, <- Nat.negb_even, E; reflexivity).
        destruct (host_turn _ (S i) E' (Nat.lt_succ_diag_r _)) as (j & w & got & J1 & J2). exists j, w, got. split; [lia|exact J2].
      + exact (host_turn _ i E (Nat.lt_succ_diag_r _)).
  Qed.
End Alternate.

Theorem turns_fair : forall size, 2 <= size -> forall s0 ops, start size s0 ops -> r_connected s0 = true ->
  fair_run size (turns size s0) ops /\ turns size s0 O = s0.
Proof.
  intros size H s0 ops S0 C0. split; [|reflexivity]. split; [exact S0|]. split; [exact C0|].
  apply (turns_fair_from size H s0 (data ops)). exists []. now apply start_inv.
Qed.

(** A buffer of four bytes, five bytes in two writes, and a flush. *)
Definition rtt_ex_start : rtt := MkRtt [0; 0; 0; 0] 3 3 true DNext [OWrite [1; 2; 3]; OWrite [4; 5]; OFlush] HIdle [].
Definition rtt_ex_ops : list devop := [OWrite [1; 2; 3]; OWrite [4; 5]; OFlush].

Lemma rtt_ex_starts : start 4 rtt_ex_start rtt_ex_ops.
Proof. repeat split; cbn; lia. Qed.

Lemma rtt_ex_run : r_delivered (turns 4 rtt_ex_start 60) = [1; 2; 3; 4; 5] /\
  r_dev (turns 4 rtt_ex_start 60) = DNext /\ r_ops (turns 4 rtt_ex_start 60) = [] /\
  r_mem (turns 4 rtt_ex_start 60) = [2; 3; 4; 5] .
Proof. vm_compute. auto. Qed.

(** A host that puts the read offset outside of the buffer makes a blocking write
    leave it: not excluded by the code, outside of C29. *)
Lemma bad_host : exists s s', r_mem s = [0; 0] /\ r_write s = 0 /\ r_read s = 7 /\ r_connected s = true /\ r_dev s = DNext /\
  s' = Nat.iter 12 (dev_step 2 false) s /\ r_dev s' = DFault.
Proof.
  exists (MkRtt [0; 0] 0 7 true DNext [OWrite [1; 2; 3; 4; 5]] HIdle []). eexists.
  repeat split.
Qed.

(** Without a buffer the first write panics, in both modes. *)
Lemma size_zero_faults : forall nonblocking, exists s s', r_mem s = [] /\ r_write s = 0 /\ r_read s = 0 /\ r_dev s = DNext /\ r_ops s = [OWrite [1]] /\ s' = Nat.iter 10 (dev_step 0 nonblocking) s /\ r_dev s' = DFault.
Proof.
  intros nonblocking. exists (MkRtt [] 0 0 true DNext [OWrite [1]] HIdle []). eexists.
  repeat split. destruct nonblocking; vm_compute; reflexivity.
Qed.

Lemma iter_wild : forall size nb n s, wild_steps size nb s (Nat.iter n (dev_step size nb) s).
Proof. induction n as [|n IH]; intros s; cbn [Nat.iter]; [constructor|]. eapply wild_trans; [apply IH|constructor]. Qed.

Definition idleb (d : dev) : bool := match d with DNext => true | _ => false end.

Lemma iter_busy : forall size nb n s,
  forallb (fun k => negb (idleb (r_dev (Nat.iter k (dev_step size nb) s)))) (seq 0 n) = true ->
  busy_run size nb n s (Nat.iter n (dev_step size nb) s).
Proof.
  intros size nb. induction n as [|n IH]; intros s H; [constructor|].
  rewrite seq_S, forallb_app in H. apply andb_prop in H as [H1 H2].
  change (Nat.iter (S n) (dev_step size nb) s) with (dev_step size nb (Nat.iter n (dev_step size nb) s)).
  apply busy_dev; [exact (IH s H1)|].
  cbn [forallb Nat.add] in H2. intros E. rewrite E in H2. discriminate.
Qed.

(** Three bytes into a non-blocking channel of two bytes. *)
Definition rtt_ex_wild : rtt := MkRtt [0; 0] 1 1 true DNext [OWrite [1; 2; 3]] HIdle [].

Lemma rtt_ex_wild_run : exists s, r_dev s = DNext /\ r_ops s = [] /\ wild_steps 2 true (dev_step 2 true rtt_ex_wild) s /\
  busy_run 2 true 12 (dev_step 2 true rtt_ex_wild) s.
Proof.
  exists (Nat.iter 12 (dev_step 2 true) (dev_step 2 true rtt_ex_wild)).
  split; [vm_compute; reflexivity|]. split; [vm_compute; reflexivity|].
  split; [apply iter_wild|]. apply iter_busy. vm_compute. reflexivity.
Qed.

Lemma turns_steps : forall size s n, steps size false s (turns size s n).
Proof.
  intros size s. induction n as [|n IH]; [constructor|].
  destruct (turns_step size s n) as [->|H]; [exact IH|]. eapply steps_step; eauto.
Qed.

Lemma rtt_ex_flush : exists s r0, steps 4 false rtt_ex_start s /\ r_dev s = DFlushW r0 /\
  r_dev (dev_step 4 false s) = DNext /\ r_delivered s = [1; 2; 3; 4; 5].
Proof.
  exists (turns 4 rtt_ex_start 56). eexists. split; [apply turns_steps|].
  split; [vm_compute; reflexivity|]. split; [vm_compute; reflexivity|]. vm_compute. reflexivity.
Qed.
