(** A host that stops reading while the channel is in blocking mode ([defmt-rtt/src/lib.rs:13-24]): "this
    implementation may block forever if probe-rs disconnects at runtime", and so may [defmt::flush]. *)
From Verif Require Import Base RttModel RttProofs RttLive.

Section Gone.
  Context (size : Z).

  Lemma iter_S : forall n (f : rtt -> rtt) s, Nat.iter (S n) f s = f (Nat.iter n f s).
  Proof. reflexivity. Qed.

  Lemma alone_steps : forall n s0 s, steps size false s0 s -> steps size false s0 (Nat.iter n (dev_step size false) s).
  Proof.
    induction n; intros s0 s H; [exact H|]. rewrite iter_S.
    eapply steps_step; [apply IHn; exact H|apply step_dev].
  Qed.

  Lemma dev_keeps : forall s, r_delivered (dev_step size false s) = r_delivered s /\
    r_connected (dev_step size false s) = r_connected s.
  Proof.
    intros s. unfold dev_step. repeat match goal with |- context [match ?x with _ => _ end] => destruct x end; auto.
  Qed.

  Lemma alone_keeps : forall n s, r_delivered (Nat.iter n (dev_step size false) s) = r_delivered s /\ r_connected (Nat.iter n (dev_step size false) s) = r_connected s.
  Proof.
    induction n; intros s; [split; reflexivity|]. rewrite iter_S.
    destruct (IHn s) as [A B]. destruct (dev_keeps (Nat.iter n (dev_step size false) s)) as [C D]. split; congruence.
  Qed.

  Lemma steps_connected : forall s s', steps size false s s' -> r_connected s' = r_connected s.
  Proof.
    induction 1 as [|s s' s'' _ IH T]; [reflexivity|]. rewrite <- IH. destruct T as [x|x y T]; [apply dev_keeps|].
    destruct T; reflexivity.
  Qed.

  (** Too much for the buffer: the operations never finish. *)
  Theorem write_blocks : forall s0 ops s, start size s0 ops -> r_connected s0 = true -> steps size false s0 s ->
    size <= Z.of_nat (length (data ops)) - Z.of_nat (length (r_delivered s)) ->
    forall n, ~ (r_dev (Nat.iter n (dev_step size false) s) = DNext /\ r_ops (Nat.iter n (dev_step size false) s) = []).
  Proof.
    intros s0 ops s S C H L n [D O].
    destruct (rtt_lossless size s0 ops _ S C (alone_steps n _ _ H)) as (un & Hl & _ & E).
    rewrite (proj1 (alone_keeps n s)), D, O in E. cbn [pending data] in E. rewrite !app_nil_r in E.
    apply (f_equal (@length Z)) in E. rewrite app_length in E.
    assert (P : 0 < size) by (destruct S as (_ & W & _); lia).
    pose proof (Z.mod_pos_bound (r_write (Nat.iter n (dev_step size false) s) - r_read (Nat.iter n (dev_step size false) s)) size P). lia.
  Qed.

  Definition at_flush (after : list devop) (s : rtt) : Prop :=
    (exists before, r_ops s = before ++ OFlush :: after) \/
    (r_ops s = after /\ (r_dev s = DFlushR \/ exists r, r_dev s = DFlushW r)).

  (** Something unread: a flush never returns. *)
  Theorem flush_blocks : forall s0 ops s before after, start size s0 ops -> r_connected s0 = true -> steps size false s0 s ->
    r_ops s = before ++ OFlush :: after ->
    (length (r_delivered s) < length (data ops) - length (data after))%nat ->
    forall n, at_flush after (Nat.iter n (dev_step size false) s).
  Proof.
    intros s0 ops s before after S C H O L. induction n.
    - left. exists before. exact O.
    - pose proof (alone_steps n _ _ H) as T. pose proof (alone_keeps n s) as [K _].
      pose proof (steps_connected _ _ T) as Cn. rewrite C in Cn.
      rewrite iter_S. set (x := Nat.iter n (dev_step size false) s) in *.
      destruct IHn as [(b & B)|(B & [D|(r & D)])].
      + destruct (r_dev x) eqn:D.
        * destruct b as [|o b]; cbn [app] in B.
          -- right. unfold dev_step. rewrite D, B, Cn. cbn. auto.
          -- left. exists b. unfold dev_step. rewrite D, B. destruct o; [reflexivity|]. rewrite Cn. reflexivity.
        * left. exists b. rewrite <- B. unfold dev_step. rewrite D.
          repeat match goal with |- context [match ?y with _ => _ end] => destruct y end; reflexivity.
        * left. exists b. rewrite <- B. unfold dev_step. rewrite D.
          repeat match goal with |- context [match ?y with _ => _ end] => destruct y end; reflexivity.
        * left. exists b. rewrite <- B. unfold dev_step. rewrite D.
          repeat match goal with |- context [match ?y with _ => _ end] => destruct y end; reflexivity.
        * left. exists b. rewrite <- B. unfold dev_step. rewrite D.
          repeat match goal with |- context [match ?y with _ => _ end] => destruct y end; reflexivity.
        * left. exists b. rewrite <- B. unfold dev_step. rewrite D.
          repeat match goal with |- context [match ?y with _ => _ end] => destruct y end; reflexivity.
        * left. exists b. rewrite <- B. unfold dev_step. rewrite D. reflexivity.
        * left. exists b. rewrite <- B. unfold dev_step. rewrite D.
          repeat match goal with |- context [match ?y with _ => _ end] => destruct y end; reflexivity.
        * left. exists b. rewrite <- B. unfold dev_step. rewrite D. reflexivity.
      + right. unfold dev_step. rewrite D. cbn. split; [exact B|]. right. eauto.
      + assert (Ne : r_dev (dev_step size false x) <> DNext).
        { intros R. pose proof (flush_waits size s0 ops x S C T r D R) as E. rewrite K, B in E.
          apply (f_equal (@length Z)) in E. rewrite app_length in E. lia. }
        right. unfold dev_step in Ne |- *. rewrite D in Ne |- *. destruct (r =? r_write x); [exfalso; apply Ne; reflexivity|].
        cbn. auto.
  Qed.
  Lemma data_app : forall a b, data (a ++ b) = data a ++ data b.
  Proof. induction a as [|[bs|] a IH]; intros b; cbn; [reflexivity| |apply IH]. rewrite IH. apply app_assoc. Qed.

  (** Whatever the host does: the device is not past a flush before everything written before it has arrived. *)
  Theorem flush_passed : forall s0 before after s, start size s0 (before ++ OFlush :: after) -> r_connected s0 = true ->
    steps size false s0 s -> at_flush after s \/ exists more, r_delivered s = data before ++ more.
  Proof.
    intros s0 before after s S C H. revert S C. induction H as [s|s0 x y H IH T]; intros S C.
    - left. left. exists before. apply S.
    - specialize (IH S C). pose proof (steps_connected _ _ H) as Cn. rewrite C in Cn.
      destruct IH as [A|(more & E)].
      2:{ right. destruct T as [x|x y T]; [exists more; rewrite (proj1 (dev_keeps x)); exact E|].
          destruct T; [exists more; exact E|exists more; exact E|].
          exists (more ++ got). cbn. rewrite E. symmetry. apply app_assoc. }
      destruct T as [x|x y T].
      2:{ left. destruct T; exact A. }
      destruct A as [(b & B)|(B & [D|(r & D)])].
      + left. destruct (r_dev x) eqn:D.
        1:{ destruct b as [|o b]; cbn [app] in B.
            - right. unfold dev_step. rewrite D, B, Cn. cbn. auto.
            - left. exists b. unfold dev_step. rewrite D, B. destruct o; [reflexivity|]. rewrite Cn. reflexivity. }
        all: left; exists b; rewrite <- B; unfold dev_step; rewrite D;
          repeat match goal with |- context [match ?z with _ => _ end] => destruct z end; reflexivity.
      + left. right. unfold dev_step. rewrite D. cbn. split; [exact B|]. right. eauto.
      + destruct (r =? r_write x) eqn:Q.
        * right. exists []. assert (R : r_dev (dev_step size false x) = DNext) by (unfold dev_step; rewrite D, Q; reflexivity).
          pose proof (flush_waits size s0 _ x S C H r D R) as E. rewrite B, data_app in E. cbn [data] in E.
          apply app_inv_tail in E. rewrite (proj1 (dev_keeps x)), E, app_nil_r. reflexivity.
        * left. right. unfold dev_step. rewrite D, Q. cbn. auto.
  Qed.

  (** What fits the buffer is written without the host. *)
  Definition no_flush (s : rtt) : Prop :=
    ~ In OFlush (r_ops s) /\ match r_dev s with DFlushR | DFlushW _ => False | _ => True end.

  Definition left_bytes (s : rtt) : Z := Z.of_nat (length (pending (r_dev s) ++ data (r_ops s))).
  Definition todo (s : rtt) : Z := left_bytes s * (size + 20) + work size s.

  Lemma fits_step : forall D s u, inv size D s u -> no_flush s ->
    Z.of_nat (length D) - Z.of_nat (length (r_delivered s)) < size ->
    (r_dev s = DNext /\ r_ops s = []) \/ (no_flush (dev_step size false s) /\ todo (dev_step size false s) < todo s).
  Proof.
    intros D s u Iv [NF NF'] F. destruct Iv as [Im Iw Ir Ic Iu Ih Id [V V'] It].
    apply (f_equal (@length Z)) in Id. rewrite !app_length in Id.
    destruct s as [mem w r c d o h de]. cbn [r_mem r_write r_read r_connected r_dev r_ops r_host r_delivered] in *. subst c.
    unfold no_flush, todo, left_bytes, work, rank, dev_step.
    destruct d as [|conn bs|bs|bs [r0|]|conn bs cursor len k|conn bs cursor len| |r0|];
      cbn [r_mem r_write r_read r_connected r_dev r_ops r_host r_delivered pending] in *; try contradiction.
    - destruct o as [|[bs|] o]; [left; auto| |].
      + right. cbn [set_dev r_dev r_ops r_read length pending data]. split; [split; [|exact I]|].
        * intros J. apply NF. now right.
        * rewrite app_nil_l. destruct bs; lia.
      + exfalso. apply NF. now left.
    - right. subst conn. destruct bs; cbn [set_dev r_dev r_ops r_read pending]; (split; [auto|]); lia.
    - right. cbn [set_dev r_dev r_ops r_read pending]. rewrite Z.eqb_refl. split; [auto|]. lia.
    - destruct V as [[F1 F2] NE]. cbn [r_write r_read] in F2. right.
      destruct (available_spec size r0 w F1 Iw) as (n & A & N0 & N1 & N2 & N3). rewrite A.
      destruct (n =? 0) eqn:En; cbn [set_dev r_dev r_ops r_read pending]; (split; [auto|]).
      + assert (0 < Z.of_nat (length bs)) by (destruct bs; [congruence|cbn [length]; lia]).
        destruct (r0 =? r) eqn:Q; [|destruct bs; lia].
        assert (r0 = r) by lia. subst r0. lia.
      + pose proof (Z.mod_pos_bound (w - r0) size ltac:(lia)). destruct (r0 =? r); lia.
    - destruct V as [-> (C1 & C2 & C3 & C4 & C5 & _)]. cbn [r_write] in C1. subst cursor. right.
      destruct (k <? len) eqn:L.
      + unfold target. replace (w + len >? size) with false by lia.
        destruct (nth_error bs (Z.to_nat k)) as [x|] eqn:N.
        2:{ apply nth_error_None in N. lia. }
        replace ((0 <=? w + k) && (w + k <? size)) with true by lia. cbn. split; [auto|]. lia.
      + cbn. split; [auto|]. lia.
    - destruct V as [-> (C1 & C2 & C3 & C4 & C5 & _)]. cbn [r_write] in C1. subst cursor. right.
      replace (size =? 0) with false by lia. cbn [set_dev store_write r_dev r_ops r_read pending]. split; [auto|].
      rewrite !app_length, skipn_length.
      set (X := Z.of_nat (length o) * (size + 20)).
      assert (match skipn (Z.to_nat len) bs with [] => 1 | _ => size + 10 end <= size + 10) by (destruct (skipn _ _); lia).
      assert (Z.of_nat (length bs - Z.to_nat len + length (data o)) <= Z.of_nat (length bs + length (data o)) - 1) by lia.
      nia.
  Qed.

  Lemma todo_nonneg : forall D s u, inv size D s u -> 0 <= todo s.
  Proof.
    intros D s u I. unfold todo, left_bytes, work. pose proof (i_write _ _ _ _ I). assert (0 <= rank size s); [|nia].
    unfold rank. destruct (i_dev _ _ _ _ I) as [V _].
    destruct (r_dev s) as [|conn bs|bs|bs [r0|]|conn bs cursor len k|conn bs cursor len| |r0|]; try lia.
    - destruct bs; lia.
    - destruct (r0 =? r_read s); lia.
    - destruct V as [_ (C1 & C2 & _)]. lia.
    - destruct (r0 =? r_read s); lia.
  Qed.

  Lemma iter_r : forall n (f : rtt -> rtt) s, Nat.iter (S n) f s = Nat.iter n f (f s).
  Proof. induction n; intros f s; [reflexivity|]. rewrite iter_S, IHn. reflexivity. Qed.

  Theorem fits_finishes : forall s0 ops s, start size s0 ops -> r_connected s0 = true -> steps size false s0 s -> no_flush s ->
    Z.of_nat (length (data ops)) - Z.of_nat (length (r_delivered s)) < size ->
    exists n, r_dev (Nat.iter n (dev_step size false) s) = DNext /\ r_ops (Nat.iter n (dev_step size false) s) = [].
  Proof.
    intros s0 ops s S C H NF F.
    assert (G : forall m s, (Z.to_nat (todo s) < m)%nat -> (exists u, inv size (data ops) s u) -> no_flush s ->
      Z.of_nat (length (data ops)) - Z.of_nat (length (r_delivered s)) < size ->
      exists n, r_dev (Nat.iter n (dev_step size false) s) = DNext /\ r_ops (Nat.iter n (dev_step size false) s) = []).
    { clear s H NF F. induction m as [|m IH]; intros s L (u & Iv) NF F; [lia|].
      destruct (fits_step _ _ _ Iv NF F) as [D|[NF' T]]; [exists O; exact D|].
      destruct (inv_dev size _ _ _ Iv) as (u' & Iv').
      pose proof (todo_nonneg _ _ _ Iv') as W.
      destruct (IH (dev_step size false s) ltac:(lia) (ex_intro _ u' Iv') NF') as (n & N).
      - rewrite (proj1 (dev_keeps s)). exact F.
      - exists (Datatypes.S n). rewrite iter_r. exact N. }
    apply (G (Datatypes.S (Z.to_nat (todo s))) s ltac:(lia)); auto.
    apply (inv_steps size _ _ _ _ (start_inv size _ _ S C) H).
  Qed.
End Gone.
