(** Fair runs with late stores exist; concrete runs; a [Relaxed] store of the write offset would not do (C64). *)
From Verif Require Import Base RttModel RttProofs RttLive RttExamples WeakModel WeakProofs WeakMain.

Section Slow.
  Context (size : Z) (Hsize : 2 <= size) (s0 : rtt) (ops : list devop).
  Context (S0 : start size s0 ops) (C0 : r_connected s0 = true).

  Fixpoint half (n : nat) : nat * bool := match n with O => (O, false) | S n' => let (i, b) := half n' in if b then (S i, false) else (i, true) end.

  (** Every turn twice: a store reaches the memory right after the step that made it. *)
  Definition slow (n : nat) : weak :=
    let (i, b) := half n in
    if b then if Nat.even i then weak_dev size (MkWeak (turns size s0 i) []) else MkWeak (turns size s0 (S i)) []
    else MkWeak (turns size s0 i) [].

  Lemma half_double : forall i, half (2 * i) = (i, false) /\ half (S (2 * i)) = (i, true).
  Proof.
    induction i as [|i (IH1 & IH2)]; [split; reflexivity|]. replace (2 * S i)%nat with (S (S (2 * i))) by lia.
    assert (E : half (S (S (2 * i))) = (S i, false)).
    { change (half (S (S (2 * i)))) with (let (j, b) := half (S (2 * i)) in if b then (S j, false) else (j, true)). now rewrite IH2. }
    split; [exact E|]. change (half (S (S (S (2 * i))))) with (let (j, b) := half (S (S (2 * i))) in if b then (S j, false) else (j, true)). now rewrite E.
  Qed.

  Lemma slow_even : forall i, slow (2 * i) = MkWeak (turns size s0 i) [].
  Proof. intros i. unfold slow. now rewrite (proj1 (half_double i)). Qed.
  Lemma slow_odd : forall i, slow (S (2 * i)) = if Nat.even i then weak_dev size (MkWeak (turns size s0 i) []) else MkWeak (turns size s0 (S i)) [].
  Proof. intros i. unfold slow. now rewrite (proj2 (half_double i)). Qed.

  Lemma one_store : forall s, (stores_of size s = [] /\ k_shared (weak_dev size (MkWeak s [])) = dev_step size false s) \/
    exists e, stores_of size s = [e] /\ apply_store (k_shared (weak_dev size (MkWeak s []))) e = dev_step size false s.
  Proof.
    intros s. pose proof (view_dev size (MkWeak s [])) as V. unfold view in V at 1. cbn [weak_dev k_shared k_buffer app] in *.
    assert (L : stores_of size s = [] \/ exists e, stores_of size s = [e]).
    { unfold stores_of. destruct (r_dev s) as [|conn bs|bs|bs [r0|]|conn bs cursor len j|conn bs cursor len| |r0|]; auto.
      - destruct (j <? len); auto. destruct (nth_error bs (Z.to_nat j)); auto. destruct (_ && _); eauto.
      - destruct (size =? 0); eauto. }
    unfold view in V. cbn [apply_all k_shared k_buffer] in V. destruct L as [L|(e & L)]; rewrite L in V; cbn [apply_all] in V; eauto.
  Qed.

  Lemma slow_commit : forall i, Nat.even i = true ->
    match k_buffer (weak_dev size (MkWeak (turns size s0 i) [])) with
    | [] => weak_dev size (MkWeak (turns size s0 i) []) = MkWeak (turns size s0 (S i)) []
    | e :: b => b = [] /\ MkWeak (apply_store (k_shared (weak_dev size (MkWeak (turns size s0 i) []))) e) [] = MkWeak (turns size s0 (S i)) []
    end.
  Proof.
    intros i E. cbn [turns]. rewrite E. cbn [weak_dev k_buffer app]. unfold view. cbn [apply_all k_shared k_buffer].
    destruct (one_store (turns size s0 i)) as [(L & Q)|(e & L & Q)]; rewrite L.
    - unfold weak_dev, view in *. cbn [apply_all k_shared k_buffer app] in *. rewrite L. now rewrite Q.
    - split; auto. f_equal. exact Q.
  Qed.

  Lemma slow_parity : forall n, exists i, n = (2 * i)%nat \/ n = S (2 * i).
  Proof. induction n as [|n (i & [->| ->])]; [exists O; auto|exists i; auto|exists (S i); left; lia]. Qed.

  Lemma even_step : forall i, Nat.even i = true -> turns size s0 (S i) = dev_step size false (turns size s0 i).
  Proof. intros i E. cbn [turns]. now rewrite E. Qed.

  Lemma eager_step : forall s, eager_host size s = s \/ host_step size s (eager_host size s).
  Proof.
    intros s. unfold eager_host. destruct (r_host s) as [|w got] eqn:E; [right; now constructor|].
    destruct (Z.of_nat (length got) <? (w - r_read s) mod size) eqn:L.
    - destruct (nth_error _ _) eqn:N; [|auto]. right. econstructor; eauto. lia.
    - right. unfold consumed. econstructor; eauto.
  Qed.

  Theorem slow_fair : weak_fair size true slow.
  Proof.
    pose proof (turns_fair size Hsize s0 ops S0 C0) as ((_ & _ & T1 & T2 & T3) & _).
    split; [|split; [|split]].
    - intros n. destruct (slow_parity n) as (i & [->| ->]).
      + rewrite slow_odd, slow_even. destruct (Nat.even i) eqn:E; [right; constructor|].
        cbn [turns]. rewrite E. destruct (eager_step (turns size s0 i)) as [Q|H]; [left; now rewrite Q|]. right. now constructor.
      + replace (S (S (2 * i))) with (2 * S i)%nat by lia. rewrite slow_odd, slow_even. destruct (Nat.even i) eqn:E; [|auto].
        pose proof (slow_commit i E) as K. destruct (weak_dev size (MkWeak (turns size s0 i) [])) as [sh b] eqn:Q. cbn [k_buffer k_shared] in K.
        destruct b as [|e b]; [left; auto|]. destruct K as (-> & K). right. rewrite <- K.
        apply (weak_commit size true sh [] e []). destruct e; cbn; auto.
    - intros n. exists (2 * (2 * n))%nat. split; [lia|]. rewrite slow_odd, slow_even.
      assert (E : Nat.even (2 * n) = true) by (rewrite Nat.even_mul; reflexivity). now rewrite E.
    - intros n. destruct (T3 n) as (j & w & got & L & H & G & Q). exists (2 * j)%nat, w, got. split; [lia|].
      rewrite slow_odd, slow_even. cbn [k_shared k_buffer]. split; [exact H|]. split; [exact G|].
      destruct (Nat.even j) eqn:E.
      + exfalso. rewrite (even_step j E) in Q. destruct (dev_step_keeps size (turns size s0 j)) as (_ & K & _).
        rewrite Q, H in K. discriminate.
      + cbn [k_shared k_buffer]. rewrite Q. split; [|split; reflexivity]. unfold consumed. now apply (host_store size (turns size s0 j) w got).
    - intros n. exists (2 * n)%nat. split; [lia|]. now rewrite slow_even.
  Qed.
End Slow.

Theorem slow_starts : forall size s ops, start size s ops -> slow size s O = MkWeak s [].
Proof. reflexivity. Qed.

(** Five bytes into a buffer of four; the second write's bytes reach the memory before the store of the offset of
    the first write. *)
Inductive move := Dev | Load | Get | Put | Commit (n : nat).

Definition do_move (size : Z) (m : move) (k : weak) : option weak :=
  match m with
  | Dev => Some (weak_dev size k)
  | Load => match r_host (k_shared k) with
            | HIdle => Some (MkWeak (set_host (k_shared k) (HRead (r_write (k_shared k)) [])) (k_buffer k))
            | _ => None
            end
  | Get => match r_host (k_shared k) with
           | HRead w got =>
               if Z.of_nat (length got) <? (w - r_read (k_shared k)) mod size then
                 match nth_error (r_mem (k_shared k)) (Z.to_nat ((r_read (k_shared k) + Z.of_nat (length got)) mod size)) with
                 | Some x => Some (MkWeak (set_host (k_shared k) (HRead w (got ++ [x]))) (k_buffer k))
                 | None => None
                 end
               else None
           | _ => None
           end
  | Put => match r_host (k_shared k) with
           | HRead w got => Some (MkWeak (consumed size (k_shared k) got) (k_buffer k))
           | _ => None
           end
  | Commit n => match nth_error (k_buffer k) n with
                | Some e => Some (MkWeak (apply_store (k_shared k) e) (firstn n (k_buffer k) ++ skipn (S n) (k_buffer k)))
                | None => None
                end
  end.

Definition allowed (release : bool) (m : move) (k : weak) : bool :=
  match m with
  | Commit n => match nth_error (k_buffer k) n with
                | Some (SByte i _) => forallb (fun e => match e with SByte j _ => negb (j =? i) | _ => true end) (firstn n (k_buffer k))
                | Some (SOffset _) => if release then Nat.eqb n 0 else forallb (fun e => match e with SOffset _ => false | _ => true end) (firstn n (k_buffer k))
                | None => false
                end
  | _ => true
  end.

Fixpoint moves (size : Z) (release : bool) (l : list move) (k : weak) : option weak :=
  match l with
  | [] => Some k
  | m :: l' => if allowed release m k then match do_move size m k with Some k' => moves size release l' k' | None => None end else None
  end.

Lemma nth_split_commit : forall (l : list store) n e, nth_error l n = Some e -> l = firstn n l ++ e :: skipn (S n) l.
Proof.
  induction l as [|x l IH]; intros [|n] e H; cbn [nth_error] in H; try discriminate.
  - injection H as ->. reflexivity.
  - cbn [firstn app]. f_equal. exact (IH n e H).
Qed.

Lemma do_move_step : forall size release m k k', allowed release m k = true -> do_move size m k = Some k' -> weak_step size release k k'.
Proof.
  intros size release m [s b] k' A H. destruct m as [| | | |n]; cbn [do_move k_shared k_buffer] in H.
  - injection H as <-. constructor.
  - destruct (r_host s) eqn:E; [|discriminate]. injection H as <-. constructor. now constructor.
  - destruct (r_host s) as [|w got] eqn:E; [discriminate|].
    destruct (Z.of_nat (length got) <? (w - r_read s) mod size) eqn:L; [|discriminate].
    destruct (nth_error (r_mem s) _) as [x|] eqn:N; [|discriminate]. injection H as <-. constructor. econstructor; eauto. lia.
  - destruct (r_host s) as [|w got] eqn:E; [discriminate|]. injection H as <-. constructor. unfold consumed. econstructor; eauto.
  - destruct (nth_error b n) as [e|] eqn:N; [|discriminate]. injection H as <-.
    cbn [allowed k_buffer] in A. rewrite N in A. rewrite (nth_split_commit b n e N) at 1. constructor.
    destruct e as [i x|w]; cbn [may_overtake].
    + intros y Q. rewrite forallb_forall in A. apply A in Q. rewrite Z.eqb_refl in Q. discriminate.
    + destruct release.
      * destruct n; [reflexivity|discriminate].
      * intros w' Q. rewrite forallb_forall in A. apply A in Q. discriminate.
Qed.

Lemma steps_before : forall size release k k' k'', weak_step size release k k' -> weak_steps size release k' k'' -> weak_steps size release k k''.
Proof.
  intros size release k k' k'' H T. induction T as [|k' k1 k2 T IH S].
  - eapply weak_trans; [constructor|exact H].
  - eapply weak_trans; eauto.
Qed.

Lemma moves_steps : forall size release l k k', moves size release l k = Some k' -> weak_steps size release k k'.
Proof.
  intros size release. induction l as [|m l IH]; intros k k' H; cbn [moves] in H; [injection H as <-; constructor|].
  destruct (allowed release m k) eqn:A; [|discriminate]. destruct (do_move size m k) as [k1|] eqn:D; [|discriminate].
  eapply steps_before; [eapply do_move_step; eauto|auto].
Qed.

Definition weak_ex_start : rtt := MkRtt [9; 9; 9; 9] 0 0 true DNext [OWrite [1]; OWrite [2]] HIdle [].
Definition weak_ex_ops : list devop := [OWrite [1]; OWrite [2]].

Lemma weak_ex_starts : start 4 weak_ex_start weak_ex_ops.
Proof. repeat split; cbn; lia. Qed.

(** The device has stored both bytes and both offsets; 2 reaches the memory before the first offset. *)
Lemma weak_ex_run : exists k, weak_steps 4 true (MkWeak weak_ex_start []) k /\ r_mem (k_shared k) = [1; 2; 9; 9] /\
  r_write (k_shared k) = 1 /\ k_buffer k = [SOffset 2] /\ r_delivered (k_shared k) = [1].
Proof.
  eexists. split; [apply (moves_steps 4 true (repeat Dev 16 ++ [Commit 2; Commit 0; Commit 0; Load; Get; Put])); vm_compute; reflexivity|].
  vm_compute. auto.
Qed.

(** With a [Relaxed] store of the offset the host gets a byte that was never written. *)
Lemma relaxed_fails : exists k, weak_steps 4 false (MkWeak weak_ex_start []) k /\ r_delivered (k_shared k) = [9].
Proof.
  eexists. split; [apply (moves_steps 4 false (repeat Dev 8 ++ [Commit 1; Load; Get; Put])); vm_compute; reflexivity|]. reflexivity.
Qed.
