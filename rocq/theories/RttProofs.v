(** The RTT channel delivers what was written (C28-C30). *)
From Verif Require Import Base RttModel.

Lemma upd_length : forall i x l, length (upd i x l) = length l.
Proof. induction i as [|i IH]; intros x [|y l]; cbn [upd length]; auto. Qed.

Lemma upd_same : forall i x l, (i < length l)%nat -> nth_error (upd i x l) i = Some x.
Proof. induction i as [|i IH]; intros x [|y l] H; cbn in *; try lia; auto. apply IH. lia. Qed.

Lemma upd_other : forall i j x l, i <> j -> nth_error (upd i x l) j = nth_error l j.
Proof. induction i as [|i IH]; intros [|j] x [|y l] H; cbn; auto; try lia. Qed.

(** [lia] after hiding remainders. *)
Ltac flia :=
  repeat match goal with
  | H : context [?a mod ?b] |- _ => let q := fresh "q" in set (q := a mod b) in *; clearbody q
  | |- context [?a mod ?b] => let q := fresh "q" in set (q := a mod b) in *; clearbody q
  end; lia.

Section Proofs.
  Context (size : Z).

  Lemma mod_wrap : forall x, 0 <= x < 2 * size -> (x < size /\ x mod size = x) \/ (size <= x /\ x mod size = x - size).
  Proof.
    intros x H. destruct (Z.lt_ge_cases x size); [left|right]; split; try lia.
    - apply Z.mod_small. lia.
    - symmetry. apply (Z.mod_unique x size 1); lia.
  Qed.

  Lemma mod_diff : forall r w, 0 <= r < size -> 0 <= w < size ->
    (r <= w /\ (w - r) mod size = w - r) \/ (w < r /\ (w - r) mod size = w - r + size).
  Proof.
    intros r w Hr Hw. destruct (Z.le_gt_cases r w); [left|right]; split; try lia.
    - apply Z.mod_small. lia.
    - symmetry. apply (Z.mod_unique (w - r) size (-1)); lia.
  Qed.

  (** The buffer holds the bytes [l] from offset [i] on, wrapping around. *)
  Definition holds (mem : bytes) (i : Z) (l : bytes) : Prop :=
    forall k x, nth_error l k = Some x -> nth_error mem (Z.to_nat ((i + Z.of_nat k) mod size)) = Some x.

  Lemma holds_app : forall mem i a b, 0 <= i < size -> Z.of_nat (length a + length b) <= size ->
    holds mem i a -> holds mem ((i + Z.of_nat (length a)) mod size) b -> holds mem i (a ++ b).
  Proof.
    intros mem i a b Hi L H1 H2 k x N. destruct (Nat.lt_ge_cases k (length a)) as [K|K].
    - rewrite nth_error_app1 in N by lia. auto.
    - rewrite nth_error_app2 in N by lia. apply H2 in N.
      rewrite Zplus_mod_idemp_l in N. rewrite <- N. do 3 f_equal. lia.
  Qed.

  Lemma holds_prefix : forall mem i a b, holds mem i (a ++ b) -> holds mem i a.
  Proof. intros mem i a b H k x N. apply H. rewrite nth_error_app1; auto. apply nth_error_Some. congruence. Qed.

  Lemma holds_suffix : forall mem i a b, holds mem i (a ++ b) -> holds mem ((i + Z.of_nat (length a)) mod size) b.
  Proof.
    intros mem i a b H k x N. rewrite Zplus_mod_idemp_l.
    replace (i + Z.of_nat (length a) + Z.of_nat k) with (i + Z.of_nat (length a + k)) by lia.
    apply H. rewrite nth_error_app2 by lia. rewrite <- N. f_equal. lia.
  Qed.

  (** Bytes not yet published by the device. *)
  Definition pending (d : dev) : bytes :=
    match d with
    | DLoop _ bs | DRead bs | DWrite bs _ | DCopy _ bs _ _ _ | DStore _ bs _ _ => bs
    | _ => []
    end.

  Definition fresh (s : rtt) (r0 : Z) : Prop :=
    0 <= r0 < size /\ (r_write s - r_read s) mod size <= (r_write s - r0) mod size.

  Definition copying (s : rtt) (u : bytes) (bs : bytes) (cursor len k : Z) : Prop :=
    cursor = r_write s /\ 0 <= k <= len /\ 0 < len <= Z.of_nat (length bs) /\
    Z.of_nat (length u) + len <= size - 1 /\ cursor + len <= size /\
    holds (r_mem s) cursor (firstn (Z.to_nat k) bs).

  Definition dev_inv (s : rtt) (u : bytes) : Prop :=
    match r_dev s with
    | DNext | DRead _ | DFlushR => True
    | DLoop conn _ => conn = true
    | DWrite bs (Some r0) => fresh s r0 /\ bs <> []
    | DWrite _ None => False
    | DCopy conn bs cursor len k => conn = true /\ copying s u bs cursor len k
    | DStore conn bs cursor len => conn = true /\ copying s u bs cursor len len
    | DFlushW r0 => fresh s r0
    | DFault => False
    end /\ match r_dev s with DRead bs => bs <> [] | _ => True end.

  Definition host_inv (s : rtt) (u : bytes) : Prop :=
    match r_host s with
    | HIdle => True
    | HRead w0 got => 0 <= w0 < size /\ (w0 - r_read s) mod size <= Z.of_nat (length u) /\
        Z.of_nat (length got) <= (w0 - r_read s) mod size /\ exists v, u = got ++ v
    end.

  (** [u]: published and not yet consumed bytes; [D]: all bytes to be written. *)
  Record inv (D : bytes) (s : rtt) (u : bytes) : Prop := {
    i_mem : Z.of_nat (length (r_mem s)) = size;
    i_write : 0 <= r_write s < size;
    i_read : 0 <= r_read s < size;
    i_connected : r_connected s = true;
    i_unread : Z.of_nat (length u) = (r_write s - r_read s) mod size;
    i_holds : holds (r_mem s) (r_read s) u;
    i_data : r_delivered s ++ u ++ pending (r_dev s) ++ data (r_ops s) = D;
    i_dev : dev_inv s u;
    i_host : host_inv s u
  }.

  Lemma start_inv : forall s ops, start size s ops -> r_connected s = true -> inv (data ops) s [].
  Proof.
    intros s ops (H1 & H2 & H3 & H4 & H5 & H6 & H7) C. constructor; auto; try lia.
    - rewrite H3, Z.sub_diag, Z.mod_0_l by lia. reflexivity.
    - intros k x N. destruct k; discriminate.
    - rewrite H7, H4, H5. reflexivity.
    - unfold dev_inv. now rewrite H4.
    - unfold host_inv. now rewrite H6.
  Qed.

  Lemma available_spec : forall r0 w, 0 <= r0 < size -> 0 <= w < size ->
    exists n, available size r0 w = Some n /\ 0 <= n /\ n + (w - r0) mod size <= size - 1 /\ w + n <= size /\
      (0 < n \/ (w - r0) mod size = size - 1).
  Proof.
    intros r0 w Hr Hw. unfold available. pose proof (mod_diff r0 w Hr Hw) as M.
    destruct (r0 >? w) eqn:E1.
    - exists (r0 - w - 1). replace (r0 - w - 1 <? 0) with false by lia. split; auto. lia.
    - destruct (r0 =? 0) eqn:E2.
      + exists (size - w - 1). replace (size - w - 1 <? 0) with false by lia. split; auto. lia.
      + exists (size - w). replace (size - w <? 0) with false by lia. split; auto. lia.
  Qed.

  Lemma holds_upd : forall mem i l j x, 0 <= i < size -> 0 <= j < size -> Z.of_nat (length l) <= size ->
    (forall k, (k < length l)%nat -> (i + Z.of_nat k) mod size <> j) ->
    holds mem i l -> holds (upd (Z.to_nat j) x mem) i l.
  Proof.
    intros mem i l j x Hi Hj L D H k y N. rewrite upd_other; [auto|].
    assert (K : (k < length l)%nat) by (apply nth_error_Some; congruence).
    specialize (D k K). pose proof (Z.mod_pos_bound (i + Z.of_nat k) size ltac:(lia)). lia.
  Qed.

  Lemma firstn_succ : forall (l : bytes) k x, nth_error l k = Some x -> firstn (S k) l = firstn k l ++ [x].
  Proof.
    induction l as [|y l IH]; intros [|k] x H; cbn in *; try discriminate.
    - now injection H as ->.
    - f_equal. auto.
  Qed.

  Lemma inv_dev : forall D s u, inv D s u -> exists u', inv D (dev_step size false s) u'.
  Proof.
    intros D s u [Im Iw Ir Ic Iu Ih Id [Iv Iv'] It]. unfold dev_step.
    destruct s as [mem w r c d ops h del]. cbn [r_mem r_write r_read r_connected r_dev r_ops r_host r_delivered] in *.
    subst c. unfold host_inv in It. cbn [r_host r_read] in It.
    assert (SD : forall d', pending d' = pending d -> dev_inv (MkRtt mem w r true d' ops h del) u ->
      exists u', inv D (set_dev (MkRtt mem w r true d ops h del) d') u').
    { intros d' P V. exists u. constructor; auto. cbn. rewrite P. exact Id. }
    destruct d as [|conn bs|bs|bs [r0|]|conn bs cursor len k|conn bs cursor len| |r0|];
      cbn [r_dev pending] in *.
    - destruct ops as [|[bs|] ops]; [exists u; constructor; auto; split; exact I| |].
      + exists u. constructor; auto. split; [reflexivity|exact I].
      + exists u. constructor; auto; split; exact I.
    - subst conn. destruct bs as [|b bs].
      + apply SD; [reflexivity|]. split; exact I.
      + apply SD; [reflexivity|]. split; [exact I|discriminate].
    - apply SD; [reflexivity|]. split; [|exact I]. split; [|exact Iv']. split; cbn; lia.
    - destruct Iv as [[F1 F2] NE]. cbn [r_write r_read] in F2.
      destruct (available_spec r0 w F1 Iw) as (n & A & N0 & N1 & N2 & N3). rewrite A.
      destruct (n =? 0) eqn:E.
      + apply SD; [reflexivity|]. split; [reflexivity|exact I].
      + apply SD; [reflexivity|]. split; [|exact I]. cbn [r_dev]. split; auto.
        assert (0 < Z.of_nat (length bs)) by (destruct bs; [congruence|cbn [length]; lia]).
        repeat split; cbn [r_write r_mem]; try lia.
        intros k x K. destruct k; discriminate.
    - contradiction.
    - destruct Iv as [-> (C1 & C2 & C3 & C4 & C5 & C6)]. cbn [r_write r_mem] in *. subst cursor.
      destruct (k <? len) eqn:E.
      + assert (T : target size w len k = w + k).
        { unfold target. replace (w + len >? size) with false by lia. reflexivity. }
        rewrite T. destruct (nth_error bs (Z.to_nat k)) as [x|] eqn:N.
        2:{ apply nth_error_None in N. lia. }
        replace ((0 <=? w + k) && (w + k <? size)) with true by lia.
        exists u. constructor; auto; cbn.
        * rewrite upd_length. exact Im.
        * apply holds_upd; auto; try lia. intros j J Q.
          pose proof (mod_diff r w Ir Iw). pose proof (mod_wrap (r + Z.of_nat j)). flia.
        * split; [|exact I]. cbn [r_dev]. split; [reflexivity|]. repeat split; cbn [r_write r_mem]; try lia.
          replace (Z.to_nat (k + 1)) with (S (Z.to_nat k)) by lia. rewrite (firstn_succ _ _ _ N).
          apply holds_app; auto.
          { rewrite firstn_length. cbn [length]. lia. }
          { apply holds_upd; auto; try lia. { rewrite firstn_length; lia. }
            intros j J Q. rewrite firstn_length in J. pose proof (mod_wrap (w + Z.of_nat j)). flia. }
          { intros j y J. destruct j; [|destruct j; discriminate]. injection J as <-.
            rewrite firstn_length. rewrite Z.add_0_r, Z.mod_mod by lia.
            replace (Z.of_nat (Nat.min (Z.to_nat k) (length bs))) with k by lia.
            rewrite Z.mod_small by lia. apply upd_same. cbn [r_mem]. lia. }
      + apply SD; [reflexivity|]. split; [|exact I]. cbn [r_dev]. split; [reflexivity|].
        assert (k = len) by lia. subst k. repeat split; cbn [r_write r_mem]; try lia. auto.
    - destruct Iv as [-> (C1 & C2 & C3 & C4 & C5 & C6)]. cbn [r_write r_mem] in *. subst cursor.
      replace (size =? 0) with false by lia.
      exists (u ++ firstn (Z.to_nat len) bs).
      assert (LN : Z.of_nat (length (firstn (Z.to_nat len) bs)) = len) by (rewrite firstn_length; lia).
      constructor; auto; cbn.
      * apply Z.mod_pos_bound. lia.
      * rewrite app_length. pose proof (mod_diff r w Ir Iw).
        pose proof (mod_wrap (w + len) ltac:(lia)).
        pose proof (mod_diff r ((w + len) mod size) Ir ltac:(apply Z.mod_pos_bound; lia)). flia.
      * apply holds_app; auto; [lia|].
        replace ((r + Z.of_nat (length u)) mod size) with w; auto.
        pose proof (mod_diff r w Ir Iw). pose proof (mod_wrap (r + Z.of_nat (length u)) ltac:(lia)). flia.
      * rewrite <- Id, <- !app_assoc. do 2 f_equal. now rewrite app_assoc, firstn_skipn.
      * split; [reflexivity|exact I].
      * unfold host_inv. cbn. destruct h as [|w0 got]; auto. destruct It as (H1 & H2 & H3 & v & ->).
        rewrite app_length. repeat split; try lia. exists (v ++ firstn (Z.to_nat len) bs). now rewrite app_assoc.
    - apply SD; [reflexivity|]. split; [|exact I]. cbn. split; cbn; lia.
    - destruct (r0 =? w); apply SD; try reflexivity; split; exact I.
    - contradiction.
  Qed.

  Lemma inv_host : forall D s s' u, inv D s u -> host_step size s s' -> exists u', inv D s' u'.
  Proof.
    intros D s s' u [Im Iw Ir Ic Iu Ih Id [Iv Iv'] It] H. destruct H as [s E|s w0 got x E L N|s w0 got E]; unfold host_inv in It; rewrite E in It.
    - exists u. constructor; auto.
      + split; auto.
      + unfold host_inv. cbn. repeat split; try lia. exists u. reflexivity.
    - destruct It as (H1 & H2 & H3 & v & ->). exists (got ++ v). constructor; auto; [split; auto|].
      unfold host_inv. cbn [set_host r_host r_read]. split; [exact H1|]. split; [exact H2|].
      split; [rewrite app_length; cbn [length]; lia|].
      destruct v as [|y v]. { rewrite app_nil_r in H2. lia. }
      specialize (Ih (length got) y). rewrite nth_error_app2, Nat.sub_diag in Ih by lia. specialize (Ih eq_refl).
      rewrite Ih in N. injection N as ->. exists v. now rewrite <- app_assoc.
    - destruct It as (H1 & H2 & H3 & v & ->). rewrite app_length in *.
      assert (R : 0 <= r_read s + Z.of_nat (length got) < 2 * size).
      { pose proof (Z.mod_pos_bound (w0 - r_read s) size ltac:(lia)). lia. }
      pose proof (mod_wrap _ R) as M. set (r' := (r_read s + Z.of_nat (length got)) mod size) in *.
      assert (R' : 0 <= r' < size) by lia.
      assert (LV : Z.of_nat (length v) = (r_write s - r') mod size).
      { pose proof (mod_diff (r_read s) (r_write s) Ir Iw). pose proof (mod_diff r' (r_write s) R' Iw). clearbody r'. flia. }
      assert (FR : forall r0, fresh s r0 -> forall d o h de, fresh (MkRtt (r_mem s) (r_write s) r' (r_connected s) d o h de) r0).
      { intros r0 [F1 F2] d o h de. split; auto. cbn. clearbody r'. flia. }
      exists v. constructor; cbn; auto.
      + apply holds_suffix. exact Ih.
      + rewrite <- Id, <- !app_assoc. reflexivity.
      + split; [|exact Iv']. cbn [r_dev]. destruct (r_dev s) as [|conn bs|bs|bs [r0|]|conn bs cursor len k|conn bs cursor len| |r0|]; auto.
        * destruct Iv as [Iv NE]. split; auto.
        * destruct Iv as (A & C1 & C2 & C3 & C4 & C5 & C6). rewrite app_length in C4. clear - A C1 C2 C3 C4 C5 C6. repeat split; cbn; auto; lia.
        * destruct Iv as (A & C1 & C2 & C3 & C4 & C5 & C6). rewrite app_length in C4. clear - A C1 C2 C3 C4 C5 C6. repeat split; cbn; auto; lia.
  Qed.

  Lemma inv_step : forall D s s' u, inv D s u -> step size false s s' -> exists u', inv D s' u'.
  Proof.
    intros D s s' u H T. inversion T as [s1|s1 s1' HS]; subst; [eapply inv_dev; eauto|eapply inv_host; eauto].
  Qed.

  Lemma inv_steps : forall D s s' u, inv D s u -> steps size false s s' -> exists u', inv D s' u'.
  Proof.
    intros D s s' u H S. induction S as [|s s1 s2 S IH T]; eauto.
    destruct (IH H) as (u1 & H1). eapply inv_step; eauto.
  Qed.

  (** A host that may have loaded an older write offset than the current one. *)
  Inductive lax_step : rtt -> rtt -> Prop :=
  | lax_dev s : lax_step s (dev_step size false s)
  | lax_host s s' : host_step size s s' -> lax_step s s'
  | lax_load s w : r_host s = HIdle -> 0 <= w < size -> (w - r_read s) mod size <= (r_write s - r_read s) mod size ->
      lax_step s (set_host s (HRead w [])).

  Lemma inv_lax : forall D s s' u, inv D s u -> lax_step s s' -> exists u', inv D s' u'.
  Proof.
    intros D s s' u H T. destruct T as [s|s s' HS|s w E B L]; [eapply inv_dev; eauto|eapply inv_host; eauto|].
    destruct H as [Im Iw Ir Ic Iu Ih Id [Iv Iv'] It]. exists u. constructor; auto.
    - split; auto.
    - unfold host_inv. cbn. pose proof (Z.mod_pos_bound (w - r_read s) size ltac:(lia)).
      split; [exact B|]. split; [clear - L Iu; flia|]. split; [clear - H; flia|]. exists u. reflexivity.
  Qed.

  (** Everything written is delivered, still in the buffer, or still to be written. *)
  Theorem rtt_lossless : forall s ops s', start size s ops -> r_connected s = true -> steps size false s s' ->
    exists unread, Z.of_nat (length unread) = (r_write s' - r_read s') mod size /\
      holds (r_mem s') (r_read s') unread /\
      r_delivered s' ++ unread ++ pending (r_dev s') ++ data (r_ops s') = data ops.
  Proof.
    intros s ops s' S C T. destruct (inv_steps _ _ _ _ (start_inv s ops S C) T) as (u & I).
    exists u. destruct I. auto.
  Qed.

  Theorem rtt_no_fault : forall s ops s', start size s ops -> r_connected s = true -> steps size false s s' ->
    r_dev s' <> DFault.
  Proof.
    intros s ops s' S C T E. destruct (inv_steps _ _ _ _ (start_inv s ops S C) T) as (u & I).
    destruct (i_dev _ _ _ I) as [V _]. rewrite E in V. exact V.
  Qed.

  (** When a flush returns, the host has got everything written before it. *)
  Theorem flush_waits : forall s ops s', start size s ops -> r_connected s = true -> steps size false s s' ->
    forall r0, r_dev s' = DFlushW r0 -> r_dev (dev_step size false s') = DNext ->
    r_delivered s' ++ data (r_ops s') = data ops.
  Proof.
    intros s ops s' S C T r0 E N. destruct (inv_steps _ _ _ _ (start_inv s ops S C) T) as (u & I).
    destruct I as [Im Iw Ir Ic Iu Ih Id [Iv _] It]. rewrite E in Iv. destruct Iv as [F1 F2].
    unfold dev_step in N. rewrite E in N. destruct (r0 =? r_write s') eqn:Q; [|discriminate].
    assert (r0 = r_write s') by lia. subst r0. rewrite Z.sub_diag, Z.mod_0_l in F2 by lia.
    assert (L : length u = O) by lia. destruct u; [|discriminate]. rewrite E in Id. exact Id.
  Qed.
End Proofs.
