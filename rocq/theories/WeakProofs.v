(** The RTT channel with late and reordered stores does what the sequential channel does (C64). *)
From Verif Require Import Base RttModel RttProofs RttLive WeakModel.

Definition place (e : store) : option Z := match e with SByte i _ => Some i | SOffset _ => None end.

Lemma apply_all_app : forall a b s, apply_all s (a ++ b) = apply_all (apply_all s a) b.
Proof. induction a as [|e a IH]; intros b s; cbn [app apply_all]; auto. Qed.

Lemma apply_fields : forall l s, r_read (apply_all s l) = r_read s /\ r_connected (apply_all s l) = r_connected s /\
  r_dev (apply_all s l) = r_dev s /\ r_ops (apply_all s l) = r_ops s /\ r_host (apply_all s l) = r_host s /\
  r_delivered (apply_all s l) = r_delivered s /\ length (r_mem (apply_all s l)) = length (r_mem s).
Proof.
  induction l as [|e l IH]; intros s; cbn [apply_all]; [repeat split|].
  destruct (IH (apply_store s e)) as (H1 & H2 & H3 & H4 & H5 & H6 & H7).
  rewrite H1, H2, H3, H4, H5, H6, H7. destruct e; cbn; rewrite ?upd_length; repeat split.
Qed.

Lemma apply_goes_on : forall l s d o, apply_all (goes_on s d o) l = goes_on (apply_all s l) d o.
Proof. induction l as [|e l IH]; intros s d o; cbn [apply_all]; auto. rewrite <- IH. destruct e; reflexivity. Qed.

(** The bytes and the offset after some stores. *)
Fixpoint bytes_after (m : bytes) (l : list store) : bytes :=
  match l with
  | [] => m
  | SByte i x :: l' => bytes_after (upd (Z.to_nat i) x m) l'
  | SOffset _ :: l' => bytes_after m l'
  end.

Fixpoint offset_after (w : Z) (l : list store) : Z :=
  match l with
  | [] => w
  | SByte _ _ :: l' => offset_after w l'
  | SOffset w' :: l' => offset_after w' l'
  end.

Lemma apply_split : forall l s, apply_all s l =
  MkRtt (bytes_after (r_mem s) l) (offset_after (r_write s) l) (r_read s) (r_connected s) (r_dev s) (r_ops s) (r_host s) (r_delivered s).
Proof.
  induction l as [|e l IH]; intros s; cbn [apply_all bytes_after offset_after]; [now destruct s|].
  rewrite IH. destruct e; reflexivity.
Qed.

Section Weak.
  Context (size : Z).
  Notation dstep := (dev_step size false).

  Lemma view_dev : forall k, view (weak_dev size k) = dstep (view k).
  Proof.
    intros [s b]. unfold view, weak_dev. cbn [k_shared k_buffer]. rewrite apply_all_app, apply_goes_on.
    unfold view. cbn [k_shared k_buffer]. set (v := apply_all s b). unfold stores_of, dev_step.
    destruct v as [mem w r c d o h de]. cbn [r_dev r_ops r_connected r_mem r_write r_read r_host r_delivered].
    destruct d as [|conn bs|bs|bs [r0|]|conn bs cursor len j|conn bs cursor len| |r0|]; cbn [apply_all apply_store].
    - destruct o as [|[bs|] o]; cbn; auto. destruct c; reflexivity.
    - destruct bs; reflexivity.
    - reflexivity.
    - destruct (available size r0 w) as [n|]; [destruct (n =? 0)|]; reflexivity.
    - reflexivity.
    - destruct (j <? len); [|reflexivity]. destruct (nth_error bs (Z.to_nat j)) as [x|]; [|reflexivity].
      destruct (_ && _); reflexivity.
    - destruct (size =? 0); reflexivity.
    - reflexivity.
    - destruct (r0 =? w); reflexivity.
    - reflexivity.
  Qed.

  (** The stores in the buffer, relative to the read offset: those before a store of the write offset
      are behind the [c] bytes that the host can see before. *)
  Fixpoint ordered (read c : Z) (l : list store) : Prop :=
    match l with
    | [] => True
    | SByte i _ :: l' => 0 <= i < size /\ c <= (i - read) mod size /\ ordered read c l'
    | SOffset w :: l' => 0 <= w < size /\ c <= (w - read) mod size /\ ordered read ((w - read) mod size) l'
    end.

  Fixpoint last_count (read c : Z) (l : list store) : Z :=
    match l with
    | [] => c
    | SByte _ _ :: l' => last_count read c l'
    | SOffset w :: l' => last_count read ((w - read) mod size) l'
    end.

  Lemma last_count_is : forall l read w, last_count read ((w - read) mod size) l = (offset_after w l - read) mod size.
  Proof. induction l as [|[i x|w'] l IH]; intros read w; cbn [last_count offset_after]; auto. Qed.

  Lemma ordered_last : forall l read c, ordered read c l -> c <= last_count read c l.
  Proof.
    induction l as [|[i x|w] l IH]; intros read c H; cbn [ordered last_count] in *; [lia| |].
    - apply IH. tauto.
    - destruct H as (_ & H1 & H2). apply IH in H2. lia.
  Qed.

  Lemma ordered_app : forall a b read c, ordered read c (a ++ b) <-> ordered read c a /\ ordered read (last_count read c a) b.
  Proof.
    induction a as [|[i x|w] a IH]; intros b read c; cbn [app ordered last_count]; [tauto| |]; rewrite IH; tauto.
  Qed.

  Lemma ordered_mono : forall l read c c', c' <= c -> ordered read c l -> ordered read c' l.
  Proof.
    induction l as [|[i x|w] l IH]; intros read c c' L H; cbn [ordered] in *; auto.
    - destruct H as (H1 & H2 & H3). repeat split; try lia. eapply IH; eauto.
    - destruct H as (H1 & H2 & H3). repeat split; try lia. exact H3.
  Qed.

  Lemma shift : forall r g i, 0 <= r < size -> 0 <= i < size -> 0 <= g <= (i - r) mod size ->
    (i - (r + g) mod size) mod size = (i - r) mod size - g.
  Proof.
    intros r g i Hr Hi G. pose proof (mod_diff size r i Hr Hi) as M1.
    assert (R : 0 <= r + g < 2 * size) by (pose proof (Z.mod_pos_bound (i - r) size ltac:(lia)); lia).
    pose proof (mod_wrap size (r + g) R) as M2.
    assert (R2 : 0 <= (r + g) mod size < size) by (apply Z.mod_pos_bound; lia).
    pose proof (mod_diff size ((r + g) mod size) i R2 Hi) as M3. flia.
  Qed.

  Lemma ordered_shift : forall l read c g, 0 <= read < size -> 0 <= g <= c -> ordered read c l ->
    ordered ((read + g) mod size) (c - g) l.
  Proof.
    induction l as [|[i x|w] l IH]; intros read c g R G H; cbn [ordered] in *; auto.
    - destruct H as (H1 & H2 & H3). rewrite shift by (auto; lia). split; [auto|]. split; [lia|]. now apply IH.
    - destruct H as (H1 & H2 & H3). rewrite shift by (auto; lia). split; [auto|]. split; [lia|]. apply IH; auto. lia.
  Qed.

  (** No store in the buffer goes to a place that the host can see. *)
  Lemma ordered_apart : forall l m read c p, 0 <= read < size -> ordered read c l -> 0 <= p < c -> p < size ->
    nth_error (bytes_after m l) (Z.to_nat ((read + p) mod size)) = nth_error m (Z.to_nat ((read + p) mod size)).
  Proof.
    induction l as [|[i x|w] l IH]; intros m read c p R H P PS; cbn [ordered bytes_after] in *; auto.
    - destruct H as (H1 & H2 & H3). rewrite (IH _ read c p R H3 P PS). apply upd_other. intros E.
      assert (R2 : 0 <= (read + p) mod size < size) by (apply Z.mod_pos_bound; lia).
      assert (E2 : i = (read + p) mod size) by lia. rewrite E2 in H2.
      pose proof (mod_wrap size (read + p) ltac:(lia)) as M1.
      pose proof (mod_diff size read ((read + p) mod size) R R2) as M2. flia.
    - destruct H as (H1 & H2 & H3). apply (IH m read ((w - read) mod size)); auto. lia.
  Qed.

  Lemma upd_swap : forall i j x y m, i <> j -> upd i x (upd j y m) = upd j y (upd i x m).
  Proof. induction i as [|i IH]; intros [|j] x y [|z m] H; cbn; auto; [congruence|]. f_equal. apply IH. congruence. Qed.

  Lemma commit_bytes : forall a b i x m, (forall y, ~ In (SByte i y) a) -> (0 <= i) -> (forall j y, In (SByte j y) a -> 0 <= j) ->
    bytes_after (upd (Z.to_nat i) x m) (a ++ b) = bytes_after m (a ++ SByte i x :: b).
  Proof.
    induction a as [|[j y|w] a IH]; intros b i x m N I0 P; cbn [app bytes_after]; auto.
    - rewrite <- IH; auto.
      + f_equal. apply upd_swap. intros E. apply (N y). left. f_equal. specialize (P j y (or_introl eq_refl)). lia.
      + intros z Q. apply (N z). now right.
      + intros j' y' Q. apply (P j' y'). now right.
    - apply IH; auto.
      + intros z Q. apply (N z). now right.
      + intros j' y' Q. apply (P j' y'). now right.
  Qed.

  Lemma ordered_places : forall a read c j y, ordered read c a -> In (SByte j y) a -> 0 <= j < size.
  Proof.
    induction a as [|[i x|w] a IH]; intros read c j y H Q; cbn [ordered] in H; [destruct Q| |]; destruct Q as [Q|Q]; try discriminate.
    - injection Q as -> ->. tauto.
    - eapply IH; [apply H|eauto].
    - eapply IH; [apply H|eauto].
  Qed.

  Lemma offset_middle : forall a i x b w, offset_after w (a ++ SByte i x :: b) = offset_after w (a ++ b).
  Proof. induction a as [|[j y|w'] a IH]; intros i x b w; cbn [app offset_after]; auto. Qed.

  (** What holds of the memory and of the stores on their way. *)
  Definition visible (k : weak) : Z := (r_write (k_shared k) - r_read (k_shared k)) mod size.

  Definition buffered (k : weak) : Prop :=
    0 <= r_read (k_shared k) < size /\ 0 <= r_write (k_shared k) < size /\
    ordered (r_read (k_shared k)) (visible k) (k_buffer k) /\
    match r_host (k_shared k) with
    | HIdle => True
    | HRead w got => 0 <= w < size /\ Z.of_nat (length got) <= (w - r_read (k_shared k)) mod size <= visible k
    end.

  Lemma view_write : forall k, (r_write (view k) - r_read (k_shared k)) mod size = last_count (r_read (k_shared k)) (visible k) (k_buffer k).
  Proof. intros [s b]. unfold view, visible. cbn [k_shared k_buffer]. rewrite apply_split. cbn [r_write]. symmetry. apply last_count_is. Qed.

  Lemma view_read : forall k, r_read (view k) = r_read (k_shared k).
  Proof. intros k. apply apply_fields. Qed.
  Lemma view_host : forall k, r_host (view k) = r_host (k_shared k).
  Proof. intros k. apply apply_fields. Qed.
  Lemma view_ops : forall k, r_ops (view k) = r_ops (k_shared k).
  Proof. intros k. apply apply_fields. Qed.
  Lemma view_pc : forall k, r_dev (view k) = r_dev (k_shared k).
  Proof. intros k. apply apply_fields. Qed.
  Lemma view_delivered : forall k, r_delivered (view k) = r_delivered (k_shared k).
  Proof. intros k. apply apply_fields. Qed.

  Lemma set_host_apply : forall l s h, apply_all (set_host s h) l = set_host (apply_all s l) h.
  Proof. induction l as [|e l IH]; intros s h; cbn [apply_all]; auto. rewrite <- IH. destruct e; reflexivity. Qed.

  Lemma buffered_dev : forall D k u, inv size D (view k) u -> buffered k -> buffered (weak_dev size k).
  Proof.
    intros D k u Iv (B1 & B2 & B3 & B4). destruct k as [s b]. unfold buffered, visible, weak_dev in *. cbn [k_shared k_buffer goes_on r_read r_write r_host] in *.
    split; [exact B1|]. split; [exact B2|]. split; [|exact B4]. apply ordered_app. split; [exact B3|].
    pose proof (view_write (MkWeak s b)) as VW. unfold visible in VW. cbn [k_shared k_buffer] in VW. rewrite <- VW. clear VW B3 B4.
    pose proof (view_read (MkWeak s b)) as VR. cbn [k_shared] in VR.
    set (v := view (MkWeak s b)) in *. clearbody v. rewrite <- VR in *. clear VR.
    destruct Iv as [Im Iw Ir Ic Iu Ih Id [V V'] It]. unfold stores_of. destruct v as [mem w r c d o h de].
    cbn [r_dev r_ops r_connected r_mem r_write r_read r_host r_delivered] in *.
    destruct d as [|conn bs|bs|bs [r0|]|conn bs cursor len j|conn bs cursor len| |r0|]; try exact Logic.I.
    - destruct (j <? len) eqn:E; [|exact Logic.I]. destruct (nth_error bs (Z.to_nat j)) as [x|]; [|exact Logic.I].
      destruct V as [-> (C1 & C2 & C3 & C4 & C5 & C6)]. cbn [r_write] in C1. subst cursor.
      assert (T : target size w len j = w + j).
      { unfold target. replace (w + len >? size) with false by lia. reflexivity. }
      rewrite T. destruct ((0 <=? w + j) && (w + j <? size)) eqn:Q; [|exact Logic.I].
      cbn [ordered]. split; [lia|]. split; [|exact Logic.I].
      pose proof (mod_diff size r w B1 Iw) as M1. pose proof (mod_diff size r (w + j) B1 ltac:(lia)) as M2. flia.
    - destruct (size =? 0) eqn:E; [exact Logic.I|].
      destruct V as [-> (C1 & C2 & C3 & C4 & C5 & C6)]. cbn [r_write] in C1. subst cursor.
      assert (R2 : 0 <= (w + len) mod size < size) by (apply Z.mod_pos_bound; lia).
      cbn [ordered]. split; [exact R2|]. split; [|exact Logic.I].
      pose proof (mod_diff size r w B1 Iw) as M1. pose proof (mod_wrap size (w + len) ltac:(lia)) as M2.
      pose proof (mod_diff size r _ B1 R2) as M3. flia.
  Qed.

  (** A step of the host is a step of a host that may see an older write offset. *)
  Lemma host_lax : forall s s' b, buffered (MkWeak s b) -> host_step size s s' ->
    lax_step size (view (MkWeak s b)) (view (MkWeak s' b)) /\ buffered (MkWeak s' b).
  Proof.
    intros s s' b (B1 & B2 & B3 & B4) H. unfold visible in *. cbn [k_shared k_buffer] in *.
    pose proof (view_write (MkWeak s b)) as VW. unfold visible in VW. cbn [k_shared k_buffer] in VW.
    pose proof (ordered_last _ _ _ B3) as OL. unfold view. cbn [k_shared k_buffer].
    destruct (apply_fields b s) as (F1 & F2 & F3 & F4 & F5 & F6 & F7).
    destruct H as [s E|s w got x E L N|s w got E].
    - split.
      + rewrite set_host_apply. apply lax_load; [congruence|exact B2|]. rewrite F1.
        unfold view in VW. cbn [k_shared k_buffer] in VW. rewrite VW. exact OL.
      + unfold buffered, visible. cbn [k_shared k_buffer set_host r_read r_write r_host]. repeat split; auto; try lia.
        cbn [length]. apply Z.mod_pos_bound. lia.
    - rewrite E in B4. destruct B4 as (B4 & B5). split.
      + rewrite set_host_apply. apply lax_host. eapply host_read; [congruence|rewrite F1; exact L|]. rewrite F1, <- N.
        rewrite apply_split. cbn [r_mem]. eapply ordered_apart; eauto; [lia|].
        pose proof (Z.mod_pos_bound (w - r_read s) size ltac:(lia)). lia.
      + unfold buffered, visible. cbn [k_shared k_buffer set_host r_read r_write r_host]. repeat split; auto; try lia.
        rewrite app_length. cbn [length]. lia.
    - rewrite E in B4. destruct B4 as (B4 & B5). split.
      + apply lax_host.
        assert (Q : apply_all (MkRtt (r_mem s) (r_write s) ((r_read s + Z.of_nat (length got)) mod size) (r_connected s) (r_dev s) (r_ops s) HIdle (r_delivered s ++ got)) b =
          MkRtt (r_mem (apply_all s b)) (r_write (apply_all s b)) ((r_read (apply_all s b) + Z.of_nat (length got)) mod size) (r_connected (apply_all s b))
            (r_dev (apply_all s b)) (r_ops (apply_all s b)) HIdle (r_delivered (apply_all s b) ++ got)).
        { rewrite !apply_split. cbn. reflexivity. }
        rewrite Q. eapply host_store. rewrite F5. exact E.
      + unfold buffered, visible. cbn [k_shared k_buffer r_read r_write r_host].
        split; [apply Z.mod_pos_bound; lia|]. split; [exact B2|]. split; [|exact Logic.I].
        rewrite shift by (auto; lia). apply ordered_shift; auto. lia.
  Qed.

  Lemma commit_view : forall s a e b, buffered (MkWeak s (a ++ e :: b)) -> may_overtake true e a ->
    view (MkWeak (apply_store s e) (a ++ b)) = view (MkWeak s (a ++ e :: b)) /\ buffered (MkWeak (apply_store s e) (a ++ b)).
  Proof.
    intros s a e b (B1 & B2 & B3 & B4) M. unfold view, buffered, visible in *. cbn [k_shared k_buffer] in *.
    destruct e as [i x|w]; cbn [may_overtake apply_store] in *.
    - pose proof (proj1 (ordered_app _ _ _ _) B3) as (O1 & O2). cbn [ordered] in O2. destruct O2 as (O2 & O3 & O4). split.
      + rewrite !apply_split. cbn [store_byte r_mem r_write r_read r_connected r_dev r_ops r_host r_delivered].
        rewrite offset_middle. f_equal. apply commit_bytes; auto; [lia|].
        intros j y Q. apply (ordered_places _ _ _ _ _ O1) in Q. lia.
      + cbn [store_byte r_mem r_write r_read r_connected r_dev r_ops r_host r_delivered]. repeat split; auto; try lia.
        apply ordered_app. auto.
    - subst a. cbn [app ordered] in *. split; [reflexivity|]. destruct B3 as (O1 & O2 & O3).
      cbn [store_write r_mem r_write r_read r_connected r_dev r_ops r_host r_delivered]. repeat split; auto; try lia.
      destruct (r_host s) as [|w0 got]; auto. destruct B4 as (B4 & B5). split; [exact B4|]. lia.
  Qed.

  Definition fine (D : bytes) (k : weak) : Prop := buffered k /\ exists u, inv size D (view k) u.

  Lemma weak_is_lax : forall D k k', fine D k -> weak_step size true k k' ->
    fine D k' /\ (view k' = view k \/ lax_step size (view k) (view k')).
  Proof.
    intros D k k' (B & u & Iv) T. destruct T as [k|s s' b H|s a e b M].
    - assert (L : lax_step size (view k) (view (weak_dev size k))) by (rewrite view_dev; apply lax_dev).
      split; [|right; exact L]. split; [eapply buffered_dev; eauto|]. eapply inv_lax; eauto.
    - destruct (host_lax s s' b B H) as (L & B'). split; [|right; exact L]. split; [exact B'|]. eapply inv_lax; eauto.
    - destruct (commit_view s a e b B M) as (E & B'). split; [|left; exact E]. split; [exact B'|]. rewrite E. eauto.
  Qed.

  Lemma start_fine : forall s ops, start size s ops -> r_connected s = true -> fine (data ops) (MkWeak s []).
  Proof.
    intros s ops S C. split; [|exists []; now apply start_inv].
    destruct S as (H1 & H2 & H3 & H4 & H5 & H6 & H7). unfold buffered, visible. cbn [k_shared k_buffer ordered]. rewrite H6. repeat split; lia.
  Qed.

  Lemma weak_fine : forall s ops k, start size s ops -> r_connected s = true -> weak_steps size true (MkWeak s []) k -> fine (data ops) k.
  Proof.
    intros s ops k S C T. remember (MkWeak s []) as k0 eqn:E0. induction T as [|k0 k k' T IH H].
    - subst. now apply start_fine.
    - destruct (weak_is_lax _ _ _ (IH E0) H) as (F & _). exact F.
  Qed.
End Weak.
