(** What [prepare_params] (host) makes of the parameters of a format string:
    one entry per argument index, in order, with the argument's wire type. *)
From Verif Require Import Base ParserModel ParserProofs DecoderModel.
From Coq Require Import Sorted Permutation.

(** [lo..hi] is the smallest range covering all bitfield ranges of argument [i]. *)
Definition covers (ps : list parameter) (i lo hi : Z) : Prop :=
  (exists p hi', In p ps /\ p_index p = i /\ p_ty p = TBitField lo hi') /\
  (exists p lo', In p ps /\ p_index p = i /\ p_ty p = TBitField lo' hi) /\
  (forall p lo' hi', In p ps -> p_index p = i -> p_ty p = TBitField lo' hi' -> lo <= lo' /\ hi' <= hi).

(** The wire type of argument [i]. *)
Definition wire_ty (ps : list parameter) (i : Z) (t : ty) : Prop :=
  (is_bitfield t = false /\ exists p, In p ps /\ p_index p = i /\ p_ty p = t) \/
  (exists lo hi, t = TBitField lo hi /\ covers ps i lo hi).

Lemma params_of_frag : forall fs, params_of fs = frag_params fs.
Proof. induction fs as [|[s|p] fs IH]; cbn; congruence. Qed.

Lemma zmax_spec : forall l x, zmax l = Some x -> In x l /\ forall y, In y l -> y <= x.
Proof.
  induction l as [|a l IH]; intros x H; cbn [zmax] in H; try discriminate.
  destruct (zmax l) as [y|] eqn:E.
  - inversion H; subst. destruct (IH y eq_refl) as [A B]. split.
    + destruct (Z.max_spec a y) as [[_ ->]|[_ ->]]; cbn; auto.
    + intros z [Hz|Hz]; subst; [lia|]. specialize (B z Hz). lia.
  - inversion H; subst. destruct l; [|cbn in E; destruct (zmax l); discriminate].
    split; cbn; auto. intros y [->|[]]. lia.
Qed.

Lemma zmin_spec : forall l x, zmin l = Some x -> In x l /\ forall y, In y l -> x <= y.
Proof.
  induction l as [|a l IH]; intros x H; cbn [zmin] in H; try discriminate.
  destruct (zmin l) as [y|] eqn:E.
  - inversion H; subst. destruct (IH y eq_refl) as [A B]. split.
    + destruct (Z.min_spec a y) as [[_ ->]|[_ ->]]; cbn; auto.
    + intros z [Hz|Hz]; subst; [lia|]. specialize (B z Hz). lia.
  - inversion H; subst. destruct l; [|cbn in E; destruct (zmin l); discriminate].
    split; cbn; auto. intros y [->|[]]. lia.
Qed.

Lemma zmax_none : forall l, zmax l = None -> l = [].
Proof. destruct l; cbn; auto. destruct (zmax l); discriminate. Qed.
Lemma zmin_none : forall l, zmin l = None -> l = [].
Proof. destruct l; cbn; auto. destruct (zmin l); discriminate. Qed.

Lemma bitfield_ranges_spec : forall ps, Forall (fun p => is_bitfield (p_ty p) = true) ps ->
  exists rs, bitfield_ranges ps = Some rs /\ length rs = length ps /\
    forall lo hi, In (lo, hi) rs <-> exists p, In p ps /\ p_ty p = TBitField lo hi.
Proof.
  induction ps as [|p ps IH]; intros H; cbn [bitfield_ranges].
  - exists []. repeat split; auto. { intros []. } intros (p & [] & _).
  - inversion H; subst. destruct (IH H3) as (rs & E & L & S). rewrite E.
    destruct (p_ty p) eqn:T; try discriminate. exists ((lo, hi) :: rs). repeat split.
    + cbn. lia.
    + intros [X|X]; [inversion X; subst; exists p; cbn; auto|]. apply S in X as (q & A & B).
      exists q; cbn; auto.
    + intros (q & [X|X] & Y); subst; [left; congruence|]. right. apply S. eauto.
Qed.

Lemma max_range_spec : forall ps, ps <> [] -> Forall (fun p => is_bitfield (p_ty p) = true) ps ->
  exists lo hi, get_max_bitfield_range ps = Some (Some (lo, hi)) /\
    (exists p hi', In p ps /\ p_ty p = TBitField lo hi') /\
    (exists p lo', In p ps /\ p_ty p = TBitField lo' hi) /\
    (forall p lo' hi', In p ps -> p_ty p = TBitField lo' hi' -> lo <= lo' /\ hi' <= hi).
Proof.
  intros ps Hne H. destruct (bitfield_ranges_spec ps H) as (rs & E & L & S).
  unfold get_max_bitfield_range. rewrite E.
  destruct (zmin (map fst rs)) as [lo|] eqn:E1.
  2: { apply zmin_none in E1. destruct rs; [|discriminate]. destruct ps; [congruence|discriminate]. }
  destruct (zmax (map snd rs)) as [hi|] eqn:E2.
  2: { apply zmax_none in E2. destruct rs; [|discriminate]. destruct ps; [congruence|discriminate]. }
  exists lo, hi. split; auto. apply zmin_spec in E1 as [A1 A2]. apply zmax_spec in E2 as [B1 B2].
  apply in_map_iff in A1 as ([l1 h1] & C1 & C2). apply in_map_iff in B1 as ([l2 h2] & D1 & D2).
  cbn in *; subst. apply S in C2 as (p1 & ? & ?). apply S in D2 as (p2 & ? & ?). repeat split.
  - exists p1, h1; auto.
  - exists p2, l2; auto.
  - apply A2. apply in_map_iff. exists (lo', hi'). split; auto. apply S. eauto.
  - apply B2. apply in_map_iff. exists (lo', hi'). split; auto. apply S. eauto.
Qed.

Record merge_inv (ps0 ps merged : list parameter) : Prop := {
  mi_merged : forall p, In p merged -> wire_ty ps0 (p_index p) (p_ty p);
  mi_sub : forall p, In p ps -> In p ps0;
  mi_bits : forall i, filter (bitfield_at i) ps = filter (bitfield_at i) ps0 \/ filter (bitfield_at i) ps = [];
  mi_cover : forall p, In p ps0 -> exists q, In q (ps ++ merged) /\ p_index q = p_index p
}.

Lemma filter_filter_neg : forall i j ps, i <> j ->
  filter (bitfield_at j) (filter (fun p => negb (bitfield_at i p)) ps) = filter (bitfield_at j) ps.
Proof.
  intros i j ps H. induction ps as [|p ps IH]; cbn [filter]; auto.
  destruct (bitfield_at i p) eqn:E; cbn [negb filter].
  - rewrite IH. assert (bitfield_at j p = false) as ->; auto. unfold bitfield_at in *. lia.
  - rewrite IH. reflexivity.
Qed.

Lemma filter_same_neg : forall i ps,
  filter (bitfield_at i) (filter (fun p => negb (bitfield_at i p)) ps) = [].
Proof.
  intros i ps. induction ps as [|p ps IH]; cbn [filter]; auto.
  destruct (bitfield_at i p) eqn:E; cbn [negb filter]; rewrite ?E; auto.
Qed.

Lemma merge_loop_spec : forall is ps0 ps merged, merge_inv ps0 ps merged ->
  let '(ps', merged') := merge_loop is ps merged in
  merge_inv ps0 ps' merged' /\ (forall p, In p ps' -> In p ps) /\
  (forall i, In i is -> filter (bitfield_at i) ps' = []).
Proof.
  induction is as [|i is IH]; intros ps0 ps merged H; cbn [merge_loop].
  { repeat split; auto; try (intros ? []); try apply H. }
  destruct (filter (bitfield_at i) ps) as [|b bs] eqn:E.
  - specialize (IH ps0 ps merged H). destruct (merge_loop is ps merged) as [ps' merged'].
    destruct IH as (A & B & C). repeat split; try apply A; auto.
    intros j [Hj|Hj]; auto. subst j.
    destruct (filter (bitfield_at i) ps') as [|x xs] eqn:F; auto.
    assert (In x (filter (bitfield_at i) ps')) as X by (rewrite F; cbn; auto).
    apply filter_In in X as [X1 X2]. assert (In x (filter (bitfield_at i) ps)) as Y by (apply filter_In; auto).
    rewrite E in Y. destruct Y.
  - assert (AB : Forall (fun p => is_bitfield (p_ty p) = true) (b :: bs)).
    { rewrite Forall_forall, <- E. intros p Hp. apply filter_In in Hp as [_ Hp]. unfold bitfield_at in Hp. lia. }
    destruct (max_range_spec (b :: bs) ltac:(discriminate) AB) as (lo & hi & R & R1 & R2 & R3).
    rewrite R.
    assert (E0 : filter (bitfield_at i) ps0 = b :: bs).
    { destruct (mi_bits _ _ _ H i) as [X|X]; rewrite E in X; congruence. }
    assert (IB : forall p, In p (b :: bs) <-> In p ps0 /\ is_bitfield (p_ty p) = true /\ p_index p = i).
    { intro p. rewrite <- E0, filter_In. unfold bitfield_at. rewrite andb_true_iff, Z.eqb_eq. tauto. }
    set (ps1 := filter (fun p => negb (bitfield_at i p)) ps) in *.
    set (mg1 := merged ++ [MkParameter i (TBitField lo hi) None]) in *.
    assert (H1 : merge_inv ps0 ps1 mg1).
    { constructor.
      - intros p Hp. apply in_app_iff in Hp as [Hp|[Hp|[]]]; [apply (mi_merged _ _ _ H); auto|].
        subst p. cbn [p_index p_ty]. right. exists lo, hi. split; auto. repeat split.
        + destruct R1 as (p & h & A & B). apply IB in A as (A1 & A2 & A3). eauto 6.
        + destruct R2 as (p & h & A & B). apply IB in A as (A1 & A2 & A3). eauto 6.
        + eapply R3; [|eassumption]. apply IB. rewrite H2. auto.
        + eapply R3; [|eassumption]. apply IB. rewrite H2. auto.
      - intros p Hp. apply filter_In in Hp as [Hp _]. apply (mi_sub _ _ _ H); auto.
      - intro j. destruct (Z.eq_dec i j) as [->|Hij]; [right; apply filter_same_neg|].
        unfold ps1. rewrite filter_filter_neg; auto. apply (mi_bits _ _ _ H).
      - intros p Hp. destruct (mi_cover _ _ _ H p Hp) as (q & Q1 & Q2).
        apply in_app_iff in Q1 as [Q1|Q1].
        + destruct (bitfield_at i q) eqn:Bq.
          * exists (MkParameter i (TBitField lo hi) None). split.
            -- apply in_app_iff. right. apply in_app_iff. right. cbn; auto.
            -- cbn. unfold bitfield_at in Bq. lia.
          * exists q. split; auto. apply in_app_iff. left. apply filter_In. rewrite Bq. auto.
        + exists q. split; auto. apply in_app_iff. right. apply in_app_iff. auto. }
    specialize (IH ps0 ps1 mg1 H1). destruct (merge_loop is ps1 mg1) as [ps' merged'].
    destruct IH as (A & B & C). repeat split; try apply A.
    + intros p Hp. apply B in Hp. apply filter_In in Hp as [? _]. auto.
    + intros j [Hj|Hj]; auto. subst j.
      destruct (filter (bitfield_at i) ps') as [|x xs] eqn:F; auto.
      assert (In x (filter (bitfield_at i) ps')) as X by (rewrite F; cbn; auto).
      apply filter_In in X as [X1 X2]. apply B, filter_In in X1 as [_ X1]. rewrite X2 in X1. discriminate.
Qed.

Lemma merge_bitfields_spec : forall ps,
  (forall p, In p ps -> 0 <= p_index p) ->
  (forall p, In p (merge_bitfields ps) -> wire_ty ps (p_index p) (p_ty p)) /\
  (forall p, In p ps -> exists q, In q (merge_bitfields ps) /\ p_index q = p_index p).
Proof.
  intros ps Hnn. unfold merge_bitfields.
  destruct (zmax (map p_index ps)) as [mx|] eqn:E.
  2: { apply zmax_none in E. destruct ps; [|discriminate]. split; intros ? []. }
  apply zmax_spec in E as [_ Hmx].
  assert (I0 : merge_inv ps ps []).
  { constructor; auto. { intros p []. } intros p Hp. exists p. rewrite app_nil_r. auto. }
  pose proof (merge_loop_spec (map Z.of_nat (seq 0 (S (Z.to_nat mx)))) ps ps [] I0) as M.
  destruct (merge_loop _ ps []) as [ps' merged']. destruct M as (A & B & C).
  split.
  - intros p Hp. apply in_app_iff in Hp as [Hp|Hp]; [|apply (mi_merged _ _ _ A); auto].
    left. assert (Hp0 : In p ps) by auto.
    assert (In (p_index p) (map Z.of_nat (seq 0 (S (Z.to_nat mx))))) as X.
    { apply in_map_iff. exists (Z.to_nat (p_index p)). pose proof (Hnn p Hp0).
      assert (p_index p <= mx) by (apply Hmx, in_map; auto). split; [lia|]. apply in_seq. lia. }
    apply C in X. destruct (is_bitfield (p_ty p)) eqn:Bp.
    + exfalso. assert (In p (filter (bitfield_at (p_index p)) ps')) as Y.
      { apply filter_In. split; auto. unfold bitfield_at. rewrite Bp. lia. }
      rewrite X in Y. destruct Y.
    + split; auto. eauto.
  - intros p Hp. apply (mi_cover _ _ _ A); auto.
Qed.

Definition le_index (p q : parameter) : Prop := p_index p <= p_index q.

Lemma insert_param_in : forall p ps q, In q (insert_param p ps) <-> q = p \/ In q ps.
Proof.
  intros p ps q. induction ps as [|x ps IH]; cbn [insert_param]; [cbn; intuition|].
  destruct (p_index p <=? p_index x); cbn [In]; [intuition|]. rewrite IH. intuition.
Qed.

Lemma insert_param_sorted : forall p ps, StronglySorted le_index ps -> StronglySorted le_index (insert_param p ps).
Proof.
  intros p ps H. induction H as [|x ps Hs IH Hx]; cbn [insert_param].
  - repeat constructor.
  - destruct (Z.leb_spec (p_index p) (p_index x)).
    + constructor; [constructor; auto|]. constructor; auto.
      rewrite Forall_forall in *. intros q Hq. specialize (Hx q Hq). unfold le_index in *. lia.
    + constructor; auto. rewrite Forall_forall in *. intros q Hq. apply insert_param_in in Hq as [->|Hq]; auto.
      unfold le_index. lia.
Qed.

Lemma sort_params_in : forall ps q, In q (sort_params ps) <-> In q ps.
Proof.
  induction ps as [|p ps IH]; intro q; cbn [sort_params In]; [tauto|].
  rewrite insert_param_in, IH. intuition.
Qed.

Lemma sort_params_sorted : forall ps, StronglySorted le_index (sort_params ps).
Proof. induction ps; cbn [sort_params]; [constructor|apply insert_param_sorted; auto]. Qed.

Lemma dedup_in : forall ps last q, In q (dedup_params last ps) -> In q ps.
Proof.
  induction ps as [|p ps IH]; intros last q H; cbn [dedup_params] in H; auto.
  destruct last as [i|].
  - destruct (i =? p_index p); cbn; eauto. destruct H as [H|H]; eauto.
  - destruct H as [H|H]; cbn; eauto.
Qed.

Lemma dedup_cover : forall ps last q, In q ps ->
  (exists i, last = Some i /\ p_index q = i) \/ exists r, In r (dedup_params last ps) /\ p_index r = p_index q.
Proof.
  induction ps as [|p ps IH]; intros last q H; [destruct H|]. cbn [dedup_params].
  assert (W : In q (p :: ps) ->
    (exists r, In r (p :: dedup_params (Some (p_index p)) ps) /\ p_index r = p_index q)).
  { intros [->|Hq].
    - exists q; cbn; auto.
    - destruct (IH (Some (p_index p)) q Hq) as [(i & A & B)|(r & A & B)].
      + inversion A; subst. exists p; cbn; auto.
      + exists r; cbn; auto. }
  destruct last as [i|]; [|right; apply W; auto].
  destruct (Z.eqb_spec i (p_index p)); [|right; apply W; auto].
  destruct H as [->|Hq]; [left; eauto|]. destruct (IH (Some i) q Hq) as [?|?]; auto.
Qed.

Lemma dedup_strict : forall ps last, StronglySorted le_index ps ->
  (forall i q, last = Some i -> In q ps -> i <= p_index q) ->
  StronglySorted Z.lt (map p_index (dedup_params last ps)) /\
  (forall i q, last = Some i -> In q (dedup_params last ps) -> i < p_index q).
Proof.
  induction ps as [|p ps IH]; intros last Hs Hl; cbn [dedup_params].
  - split; [constructor|intros ? ? ? []].
  - inversion Hs; subst. rewrite Forall_forall in H2.
    assert (W : forall i q, Some (p_index p) = Some i -> In q ps -> i <= p_index q).
    { intros i q E Hq. inversion E; subst. apply H2; auto. }
    destruct (IH (Some (p_index p)) H1 W) as [A B].
    assert (K : StronglySorted Z.lt (map p_index (p :: dedup_params (Some (p_index p)) ps))).
    { cbn [map]. constructor; auto. rewrite Forall_forall. intros x Hx. apply in_map_iff in Hx as (q & <- & Hq).
      eauto. }
    destruct last as [i|].
    + destruct (Z.eqb_spec i (p_index p)).
      * apply IH; auto. intros j q E Hq. inversion E; subst. apply H2; auto.
      * split; auto. intros j q E Hq. inversion E; subst.
        assert (j < p_index p). { pose proof (Hl j p eq_refl (or_introl eq_refl)). lia. }
        destruct Hq as [->|Hq]; auto. specialize (B _ q eq_refl Hq). lia.
    + split; auto. intros; discriminate.
Qed.

Lemma strict_sorted_seq : forall l n, StronglySorted Z.lt l ->
  (forall x, In x l <-> 0 <= x < Z.of_nat n) -> l = map Z.of_nat (seq 0 n).
Proof.
  intros l n. assert (G : forall l k m, StronglySorted Z.lt l ->
    (forall x, In x l <-> Z.of_nat k <= x < Z.of_nat k + Z.of_nat m) -> l = map Z.of_nat (seq k m)).
  { clear. induction l as [|a l IH]; intros k m Hs H.
    - destruct m; auto. exfalso. apply (proj2 (H (Z.of_nat k))). lia.
    - inversion Hs; subst. rewrite Forall_forall in H3.
      destruct m as [|m]. { exfalso. assert (In a (a :: l)) by (cbn; auto). apply H in H0. lia. }
      cbn [seq map].
      assert (a = Z.of_nat k).
      { assert (A1 : In a (a :: l)) by (cbn; auto). apply H in A1.
        assert (A2 : In (Z.of_nat k) (a :: l)) by (apply H; lia).
        destruct A2 as [A2|A2]; [auto|]. apply H3 in A2. lia. }
      subst a. f_equal. apply IH; auto. intro x. split.
      + intro Hx. assert (In x (Z.of_nat k :: l)) as Y by (cbn; auto). apply H in Y. apply H3 in Hx. lia.
      + intro Hx. assert (In x (Z.of_nat k :: l)) as Y by (apply H; lia). destruct Y as [Y|Y]; [lia|auto]. }
  intros Hs H. apply G; auto.
Qed.

Lemma prepare_spec : forall ps n, parsed_ok ps n ->
  map p_index (prepare_params ps) = map Z.of_nat (seq 0 (Z.to_nat n)) /\
  Forall (fun p => wire_ty ps (p_index p) (p_ty p)) (prepare_params ps).
Proof.
  intros ps n H. unfold prepare_params.
  destruct (merge_bitfields_spec ps) as [M1 M2]. { intros p Hp. apply (po_range _ _ H) in Hp. lia. }
  destruct (dedup_strict (sort_params (merge_bitfields ps)) None (sort_params_sorted _)) as [D1 _].
  { intros i q E; discriminate E. }
  assert (I : forall q, In q (dedup_params None (sort_params (merge_bitfields ps))) -> In q (merge_bitfields ps)).
  { intros q Hq. apply dedup_in in Hq. apply sort_params_in. exact Hq. }
  assert (W : forall q, In q (merge_bitfields ps) -> 0 <= p_index q < n).
  { intros q Hq. apply M1 in Hq. destruct Hq as [(_ & p & A & B & _)|(lo & hi & _ & (p & hi' & A & B & _) & _)];
      rewrite <- B; apply (po_range _ _ H); auto. }
  split.
  - apply strict_sorted_seq; auto. intro x. pose proof (po_nonneg _ _ H). split.
    + intro Hx. apply in_map_iff in Hx as (q & <- & Hq). apply I, W in Hq. lia.
    + intro Hx. destruct (po_dense _ _ H x) as (p & P1 & P2); [lia|].
      destruct (M2 p P1) as (q & Q1 & Q2). rewrite <- sort_params_in in Q1.
      destruct (dedup_cover _ None q Q1) as [(i & A & _)|(r & A & B)]; [discriminate|].
      apply in_map_iff. exists r. split; auto. lia.
  - rewrite Forall_forall. intros p Hp. auto.
Qed.

(** The wire type of an argument is determined. *)
Lemma wire_ty_unique : forall ps n i t1 t2, parsed_ok ps n ->
  wire_ty ps i t1 -> wire_ty ps i t2 -> t1 = t2.
Proof.
  intros ps n i t1 t2 H [(B1 & p1 & I1 & X1 & T1)|(l1 & h1 & -> & (p1 & h1' & I1 & X1 & T1) & (q1 & l1' & J1 & Y1 & U1) & C1)]
    [(B2 & p2 & I2 & X2 & T2)|(l2 & h2 & -> & (p2 & h2' & I2 & X2 & T2) & (q2 & l2' & J2 & Y2 & U2) & C2)].
  - destruct (po_types _ _ H p1 p2 I1 I2) as [E|[E1 E2]]; try congruence.
  - destruct (po_types _ _ H p1 p2 I1 I2) as [E|[E1 E2]]; [congruence| |rewrite T1 in E1; congruence].
    rewrite <- T1, E, T2 in B1. discriminate.
  - destruct (po_types _ _ H p1 p2 I1 I2) as [E|[E1 E2]]; [congruence| |rewrite T2 in E2; congruence].
    rewrite <- T2, <- E, T1 in B2. discriminate.
  - destruct (C1 p2 l2 h2' I2 X2 T2). destruct (C1 q2 l2' h2 J2 Y2 U2).
    destruct (C2 p1 l1 h1' I1 X1 T1). destruct (C2 q1 l1' h1 J1 Y1 U1). f_equal; lia.
Qed.

Lemma wire_ty_valid : forall ps n i t, parsed_ok ps n -> wire_ty ps i t -> ty_valid t.
Proof.
  intros ps n i t H [(B1 & p1 & I1 & X1 & T1)|(l1 & h1 & -> & (p1 & h1' & I1 & X1 & T1) & (q1 & l1' & J1 & Y1 & U1) & C1)].
  - subst. apply (po_valid _ _ H); auto.
  - pose proof (po_valid _ _ H p1 I1) as V1. rewrite T1 in V1.
    pose proof (po_valid _ _ H q1 J1) as V2. rewrite U1 in V2.
    destruct (C1 q1 l1' h1 J1 Y1 U1). cbn in *. lia.
Qed.

Lemma bitfield_size_some : forall lo hi, 0 <= lo -> lo < hi -> hi <= 128 ->
  exists n, bitfield_size lo hi = Some n.
Proof.
  intros lo hi H1 H2 H3. unfold bitfield_size. cbv zeta.
  assert (0 <= (hi - 1) / 8 - lo / 8).
  { assert (lo / 8 <= (hi - 1) / 8) by (apply Z.div_le_mono; lia). lia. }
  assert ((hi - 1) / 8 <= 15). { enough ((hi - 1) / 8 < 16) by lia. apply Z.div_lt_upper_bound; lia. }
  assert (0 <= lo / 8) by (apply Z.div_pos; lia).
  destruct (Z.eqb_spec ((hi - 1) / 8 - lo / 8 + 1) 1); eauto.
  destruct (Z.eqb_spec ((hi - 1) / 8 - lo / 8 + 1) 2); eauto.
  destruct ((3 <=? (hi - 1) / 8 - lo / 8 + 1) && ((hi - 1) / 8 - lo / 8 + 1 <=? 4)) eqn:E1; eauto.
  destruct ((5 <=? (hi - 1) / 8 - lo / 8 + 1) && ((hi - 1) / 8 - lo / 8 + 1 <=? 8)) eqn:E2; eauto.
  destruct ((9 <=? (hi - 1) / 8 - lo / 8 + 1) && ((hi - 1) / 8 - lo / 8 + 1 <=? 16)) eqn:E3; eauto.
  lia.
Qed.
