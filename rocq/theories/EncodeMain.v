(** The round trip, by induction over values (C13, C14). *)
From Verif Require Import Base Utf8 ParserModel ParserProofs ParserMore FormatSpec RenderProofs
  DecoderModel DecoderProofs PrepareProofs Numerals EncodeModel EncodeSpec EncodeProofs DeriveProofs.

Section Main.
  Context (addr : bytes -> Z) (tbl : table).
  Notation linked := (linked addr tbl).
  Notation means := (means addr tbl).
  Notation DT := (DT tbl).
  Notation DF := (DF tbl).
  Notation DTs := (DTs tbl).
  Notation DV := (DV tbl).
  Notation tagged := (fun t v => put_istr addr (format_tag t) ++ format_data addr t v).

  (** ** Format sequences *)
  Definition DS (b : bytes) (args : list arg) : Prop :=
    exists k, forall fuel sf, (k <= fuel)%nat -> (k <= sf)%nat -> forall rest,
      decode_sequence tbl (decode_format tbl fuel) sf (b ++ rest) = Ok (args, rest).

  Lemma read_u_le : forall n x rest, 0 <= x < 256 ^ Z.of_nat n -> read_u n (le_bytes n x ++ rest) = Ok (x, rest).
  Proof. intros n x rest H. destruct (reads_u_exact n x H) as [k K]. apply (K k). lia. Qed.

  Lemma DS_end : DS (le_bytes 2 0) [].
  Proof.
    exists 1%nat. intros fuel [|sf] L1 L2 rest; [lia|]. cbn [decode_sequence]. unfold rbind at 1.
    rewrite read_u_le by (cbn; lia). reflexivity.
  Qed.

  Lemma DS_step : forall s b args b2 args2, linked s -> DF s b args -> DS b2 args2 ->
    DS (put_istr addr s ++ b ++ b2) (AFormat s args :: args2).
  Proof.
    intros s b args b2 args2 [Hs Hl] [k1 K1] [k2 K2]. exists (S (Nat.max k1 k2)).
    intros fuel [|sf] L1 L2 rest; [lia|]. cbn [decode_sequence]. unfold rbind at 1. unfold put_istr.
    rewrite <- !app_assoc, read_u_le by (cbn; lia). cbn [bind fst snd].
    destruct (Z.eqb_spec (addr s) 0); [lia|]. unfold rbind at 1. rewrite Hl. cbn [lift_option ret bind fst snd].
    unfold rbind at 1. rewrite K1 by lia. cbn [bind fst snd]. unfold rbind at 1. rewrite K2 by lia. reflexivity.
  Qed.

  Lemma DT_sequence : forall b args, DS b args -> DT TFormatSequence b (AFormatSequence args).
  Proof.
    intros b args [k K]. unfold EncodeProofs.DT. cbn [decode_ty].
    apply (reads_bind_ret _ _ (fun n => decode_sequence tbl (decode_format tbl n) (S n)) AFormatSequence).
    exists k. intros. apply K; lia.
  Qed.

  (** ** Enums *)
  Lemma DV_variant : forall alts k s w b args,
    (2 <= length alts)%nat -> Forall no_bar alts -> nth_error alts k = Some s ->
    discriminant_width (Z.of_nat (length alts) - 1) = Some w -> Z.of_nat (length alts) <= 256 ^ Z.of_nat w ->
    DF s b args -> DV (join_bar alts) (le_bytes w (Z.of_nat k) ++ b) s args.
  Proof.
    intros alts k s w b args L F N W B H. unfold EncodeProofs.DV. rewrite has_bar_join by auto.
    assert (K : (k < length alts)%nat) by (apply nth_error_Some; congruence).
    eapply (reads_bind _ _ (fun _ => get_variant (join_bar alts)) (fun n v => rbind (decode_format tbl n v) (fun a => ret (v, a)))).
    - unfold get_variant. rewrite has_bar_join by auto. cbn [negb]. cbv zeta.
      assert (E : Z.of_nat (length (filter (fun c => c =? 124) (join_bar alts))) = Z.of_nat (length alts) - 1).
      { rewrite <- (bars_join alts); [lia|intros ->; cbn in L; lia|auto]. }
      rewrite E, W. apply reads_nil.
      eapply (reads_bind _ _ (fun _ => read_u w) (fun _ d => lift_option (nth_variant (join_bar alts) d))).
      + apply reads_u_exact. lia.
      + rewrite (nth_variant_join _ _ _ N F). apply reads_ret.
    - apply (reads_bind_ret _ _ (fun n => decode_format tbl n s) (fun a => (s, a))). exact H.
  Qed.

  (** ** Elements *)
  Definition DE (s : bytes) (n : nat) (b : bytes) (es : list (bytes * list arg)) : Prop :=
    reads (fun fuel => decode_elements (decode_format tbl fuel) n s (has_bar s)) b es.

  Lemma DE_nil : forall s, DE s 0 [] [].
  Proof. intro s. apply reads_ret. Qed.

  Lemma DE_cons : forall s n b1 b2 f a es, DV s b1 f a -> DE s n b2 es -> DE s (S n) (b1 ++ b2) ((f, a) :: es).
  Proof.
    intros s n b1 b2 f a es [k1 K1] [k2 K2]. exists (Nat.max k1 k2). intros fuel L rest.
    cbn [decode_elements]. rewrite <- app_assoc. specialize (K1 fuel ltac:(lia) (b2 ++ rest)).
    apply rbind_ok in K1 as (v & r1 & A1 & A2). apply rbind_ok in A2 as (a' & r2 & A2 & A3).
    injection A3 as -> -> ->. unfold rbind at 1. rewrite A1. cbn [bind fst snd].
    unfold rbind at 1. rewrite A2. cbn [bind fst snd]. unfold rbind at 1. rewrite K2 by lia. reflexivity.
  Qed.

  Lemma DE_slice : forall s n b es, linked s -> DE s n b es ->
    reads (fun fuel => decode_format_slice tbl (decode_format tbl fuel) (Z.of_nat n)) (put_istr addr s ++ b) es.
  Proof.
    intros s n b es Hs H. unfold decode_format_slice. rewrite Nat2Z.id.
    eapply (reads_bind _ _ (fun _ => get_format tbl) (fun fuel f => decode_elements (decode_format tbl fuel) n f (has_bar f)));
      [apply reads_get_format; auto|exact H].
  Qed.

  Lemma DT_array : forall s n b es, linked s -> DE s n b es ->
    DT (TFormatArray (Z.of_nat n)) (put_istr addr s ++ b) (AFormatSlice es).
  Proof.
    intros s n b es Hs H. unfold EncodeProofs.DT. cbn [decode_ty].
    apply (reads_bind_ret _ _ (fun fuel => decode_format_slice tbl (decode_format tbl fuel) (Z.of_nat n)) AFormatSlice).
    apply DE_slice; auto.
  Qed.

  Lemma DT_slice : forall s n b es, linked s -> Z.of_nat n < 2 ^ 32 -> DE s n b es ->
    DT TFormatSlice (le_bytes 4 (Z.of_nat n) ++ put_istr addr s ++ b) (AFormatSlice es).
  Proof.
    intros s n b es Hs L H. unfold EncodeProofs.DT. cbn [decode_ty].
    eapply (reads_bind _ _ (fun _ => read_u 4) (fun fuel n => rbind (decode_format_slice tbl (decode_format tbl fuel) n) _)).
    - apply reads_u_exact. change (256 ^ Z.of_nat 4) with (2 ^ 32). lia.
    - apply (reads_bind_ret _ _ (fun fuel => decode_format_slice tbl (decode_format tbl fuel) (Z.of_nat n)) AFormatSlice).
      apply DE_slice; auto.
  Qed.

  Lemma DTs_single : forall x b a, DT x b a -> DTs [x] b [a].
  Proof. intros x b a H. rewrite <- (app_nil_r b). apply DTs_cons; auto. apply DTs_nil. Qed.

  (** ** Device equations *)
  Definition wire_bytes (x : ty) (av : aval) : bytes := encode_arg addr [MkParameter 0 x None] 0 av.

  Definition field_bytes (f : field) (v : rval) : bytes :=
    let '(_, a, t) := f in
    match a with
    | Some ADebug2 => put_istr addr debug_tag ++ format_data addr RDebug v
    | Some ADisplay2 => put_istr addr display_tag ++ format_data addr RDisplay v
    | None =>
        match as_native t with
        | Some p => put_prim addr p v
        | None => put_istr addr (format_tag t) ++ format_data addr t v
        end
    end.

  Lemma data_ref : forall t v, format_data addr (RRef t) v = format_data addr t v.
  Proof. destruct v; reflexivity. Qed.
  Lemma data_opaque : forall t v, format_data addr (ROpaque t) v = format_data addr t v.
  Proof. destruct v; reflexivity. Qed.
  Lemma data_prim : forall p v, format_data addr (RPrim p) v = put_prim addr p v.
  Proof. destruct v; reflexivity. Qed.
  Lemma data_struct : forall n k fs vs,
    format_data addr (RStruct n k fs) (VList vs) = concat (map2 field_bytes fs vs).
  Proof. reflexivity. Qed.
  Lemma data_enum : forall (variants : list variant) k vs n kd fs, nth_error variants k = Some (n, kd, fs) ->
    format_data addr (REnum variants) (VVar k vs) =
    le_bytes (discriminant_bytes (Z.of_nat (length variants))) (Z.of_nat k) ++ concat (map2 field_bytes fs vs).
  Proof.
    intros variants k vs n kd fs H.
    exact (f_equal (fun o : option variant =>
      le_bytes (discriminant_bytes (Z.of_nat (length variants))) (Z.of_nat k) ++
      concat (map2 field_bytes (match o with Some (_, _, fs) => fs | None => [] end) vs)) H).
  Qed.

  Lemma first_ty_spec : forall ps i, (exists p, In p ps /\ p_index p = i) ->
    exists p, In p ps /\ p_index p = i /\ first_ty ps i = Some (p_ty p).
  Proof.
    induction ps as [|q ps IH]; intros i (p & H & E); cbn in H; [contradiction|].
    cbn [first_ty]. destruct (Z.eqb_spec (p_index q) i) as [Q|Q].
    - exists q. cbn. auto.
    - destruct H as [->|H]; [congruence|]. destruct (IH i) as (p' & A & B & C); eauto. exists p'. cbn. auto.
  Qed.

  (** C17, device side: whatever its position in the list of parameters, argument [i]
      is written according to its wire type. *)
  Lemma encode_arg_wire : forall ps n i x av, parsed_ok ps n -> wire_ty ps i x ->
    encode_arg addr ps i av = wire_bytes x av.
  Proof.
    intros ps n i x av P W. unfold wire_bytes.
    assert (X : exists p, In p ps /\ p_index p = i).
    { destruct W as [(_ & p & A & B & _)|(lo & hi & _ & (p & hi' & A & B & _) & _)]; eauto. }
    destruct (first_ty_spec ps i X) as (p & A & B & C).
    destruct (is_bitfield x) eqn:BX.
    - destruct W as [(BX' & _)|(lo & hi & -> & (p1 & hi1 & I1 & X1 & T1) & (p2 & lo2 & I2 & X2 & T2) & CV)]; [congruence|].
      assert (T : is_bitfield (p_ty p) = true).
      { destruct (po_types _ _ P p p1 A I1) as [E|[E _]]; [congruence| |auto]. rewrite E, T1. reflexivity. }
      destruct (p_ty p) eqn:TP; try discriminate.
      destruct av; cbn [encode_arg]; rewrite C; cbn [first_ty p_index p_ty Z.eqb]; try reflexivity.
      assert (F : Forall (fun p => is_bitfield (p_ty p) = true) (filter (fun p => p_index p =? i) ps)).
      { apply Forall_forall. intros q Hq. apply filter_In in Hq as [Q1 Q2]. apply Z.eqb_eq in Q2.
        destruct (po_types _ _ P q p1 Q1 I1) as [E|[E _]]; [congruence| |auto]. rewrite E, T1. reflexivity. }
      assert (NE : filter (fun p => p_index p =? i) ps <> []).
      { intro E. assert (In p1 []) as []. rewrite <- E. apply filter_In. split; auto. now apply Z.eqb_eq. }
      destruct (max_range_spec _ NE F) as (l & h & G & (q1 & h1 & Q1 & U1) & (q2 & l2 & Q2 & U2) & M).
      rewrite G. apply filter_In in Q1 as [Q1 J1]. apply filter_In in Q2 as [Q2 J2]. apply Z.eqb_eq in J1, J2.
      assert (l = lo /\ h = hi) as [-> ->].
      { destruct (CV _ _ _ Q1 J1 U1). destruct (CV _ _ _ Q2 J2 U2).
        destruct (M p1 lo hi1) as [? ?]; [apply filter_In; split; auto; now apply Z.eqb_eq|auto|].
        destruct (M p2 lo2 hi) as [? ?]; [apply filter_In; split; auto; now apply Z.eqb_eq|auto|]. lia. }
      cbn [filter p_index Z.eqb]. unfold get_max_bitfield_range. cbn. reflexivity.
    - destruct W as [(_ & p1 & I1 & X1 & T1)|(lo & hi & -> & _)]; [|discriminate].
      assert (E : p_ty p = x).
      { destruct (po_types _ _ P p p1 A I1) as [E|[_ E]]; [congruence|congruence|]. congruence. }
      destruct av; cbn [encode_arg]; rewrite C, E; cbn [first_ty p_index p_ty Z.eqb];
        destruct x; try discriminate; reflexivity.
  Qed.

  Lemma mapi_wire : forall ps n tys avs i, parsed_ok ps n -> length avs = length tys ->
    (forall k x, nth_error tys k = Some x -> wire_ty ps (i + Z.of_nat k) x) ->
    mapi (encode_arg addr ps) i avs = map2 wire_bytes tys avs.
  Proof.
    intros ps n. induction tys as [|x tys IH]; intros [|av avs] i P L W; cbn in L; try discriminate; cbn [mapi map2]; auto.
    rewrite (encode_arg_wire ps n i x av P).
    - f_equal. apply IH; auto. intros k y N. replace (i + 1 + Z.of_nat k) with (i + Z.of_nat (S k)) by lia. apply W. exact N.
    - specialize (W O x eq_refl). rewrite Z.add_0_r in W. exact W.
  Qed.

  Lemma encode_args_wire : forall s m tys avs frags, arg_types s m tys -> parse s m = Ok frags ->
    length avs = length tys ->
    encode_args addr (frag_parameters frags) avs = concat (map2 wire_bytes tys avs).
  Proof.
    intros s m tys avs frags (fr & H1 & H2 & H3) H L. assert (fr = frags) by congruence. subst fr.
    destruct (parse_parsed_ok _ _ _ H) as [n P]. rewrite <- frag_parameters_frag in P.
    unfold encode_args. f_equal. apply (mapi_wire _ n); auto.
  Qed.

  Lemma means_args_length : forall tys avs args, means_args addr tbl tys avs args -> length avs = length tys.
  Proof. induction 1; cbn; congruence. Qed.
  Lemma means_elements_length : forall t vs es, means_elements addr tbl t vs es -> length es = length vs.
  Proof. induction 1; cbn; congruence. Qed.

  Lemma DV_single : forall s x b a, arg_types s ForwardsCompatible [x] -> no_bar s -> DT x b a -> DV s b s [a].
  Proof.
    intros s x b a T B H. apply DV_plain; [apply has_bar_false; auto|].
    eapply (DF_intro addr); eauto. apply DTs_single; auto.
  Qed.

  Lemma tag_single : forall x, show_ty_ok x -> is_bitfield x = false -> forall b a s,
    s = lit "{=" ++ show_ty x ++ lit "}" -> no_bar s -> DT x b a -> DV s b s [a].
  Proof. intros x H B b a s -> N D. eapply DV_single; eauto. apply single_arg_types; auto. Qed.

  Lemma write_call_eq : forall s avs frags, parse s Strict = Ok frags ->
    write_call addr (SWrite s avs) = put_istr addr s ++ encode_args addr (frag_parameters frags) avs.
  Proof. intros s avs frags H. cbn [write_call]. rewrite H. reflexivity. Qed.

  Lemma write_splice : forall t ws, strip t = RManual ->
    write_call addr (SDelegate t (VWrites ws)) = concat (map (write_call addr) ws).
  Proof. intros t ws H. cbn [write_call]. rewrite H. reflexivity. Qed.

  Lemma write_delegate : forall t v, strip t <> RManual ->
    write_call addr (SDelegate t v) = put_istr addr (format_tag t) ++ format_data addr t v.
  Proof. intros t v H. cbn [write_call]. destruct (strip t); try reflexivity; congruence. Qed.

  Lemma round_trip :
    (forall t v f a, means t v f a -> DV (format_tag t) (format_data addr t v) f a) /\
    (forall t vs es, means_elements addr tbl t vs es ->
       DE (format_tag t) (length vs) (concat (map (format_data addr t) vs)) es) /\
    (forall ts vs args, means_components addr tbl ts vs args ->
       DTs (repeat TFormat (length ts)) (concat (map2 tagged ts vs)) args) /\
    (forall fs vs args, means_fields addr tbl fs vs args -> Forall field_ok fs ->
       DTs (map field_type fs) (concat (map2 field_bytes fs vs)) args) /\
    (forall ws args, means_writes addr tbl ws args -> forall b2 args2, DS b2 args2 ->
       DS (concat (map (write_call addr) ws) ++ b2) (args ++ args2)) /\
    (forall tys avs args, means_args addr tbl tys avs args ->
       DTs tys (concat (map2 wire_bytes tys avs)) args) /\
    (forall x av a, means_arg addr tbl x av a -> DT x (wire_bytes x av) a).
  Proof.
    apply means_combined.
    - (* prim *) intros p v a H. rewrite data_prim.
      apply (DV_single _ (ty_of_prim p)); [apply prim_arg_types| |].
      + unfold format_tag. cbn [strip]. rewrite !no_bar_app.
        repeat split; try apply prim_name_nobar; apply nobar_b_ok; reflexivity.
      + apply DT_prim with (p := p); auto. apply prim_of_ty_of_prim.
    - intros t v f a _ IH. rewrite data_ref. exact IH.
    - intros t v f a _ IH. rewrite data_opaque. exact IH.
    - (* slice *) intros t vs es Hl L _ IH.
      apply (tag_single TFormatSlice); try exact I; try reflexivity; [apply nobar_b_ok; reflexivity|].
      apply DT_slice; auto.
    - (* array *) intros n t vs es Hl -> L _ IH. unfold format_tag. cbn [strip format_data]. fold (format_tag t).
      destruct (listed_length (Z.of_nat (length vs))) eqn:E.
      + apply (DV_single _ (TFormatArray (Z.of_nat (length vs)))).
        * apply array_arg_types. unfold usize_max. lia.
        * rewrite !no_bar_app. repeat split; try (apply dec_str_nobar; lia); apply nobar_b_ok; reflexivity.
        * apply DT_array; auto.
      + apply (tag_single TFormatSlice); try exact I; try reflexivity; [apply nobar_b_ok; reflexivity|].
        apply DT_slice; auto.
    - (* comp *) intros s ts vs args T B _ IH. apply DV_plain; [apply has_bar_false; auto|].
      eapply (DF_intro addr); eauto.
    - (* libenum *) intros alts k s ts vs args N L1 L2 B T _ IH.
      unfold format_tag. cbn [strip format_data]. rewrite N.
      apply DV_variant.
      + rewrite map_length. lia.
      + rewrite Forall_map. exact B.
      + rewrite (map_nth_error fst k alts N). reflexivity.
      + rewrite map_length. unfold discriminant_width. change (2 ^ 8) with 256.
        destruct (Z.ltb_spec (Z.of_nat (length alts) - 1) 256); [reflexivity|lia].
      + rewrite map_length. cbn. lia.
      + eapply (DF_intro addr); eauto.
    - (* debug *) intros s H. apply (tag_single TDebug); try exact I; try reflexivity; [apply nobar_b_ok; reflexivity|].
      apply DT_text; auto.
    - intros s H. apply (tag_single TDisplay); try exact I; try reflexivity; [apply nobar_b_ok; reflexivity|].
      apply DT_text; auto.
    - (* manual *) intros ws args _ IH.
      apply (tag_single TFormatSequence); try exact I; try reflexivity; [apply nobar_b_ok; reflexivity|].
      apply DT_sequence. cbn [format_data strip]. rewrite <- (app_nil_r args). apply IH. apply DS_end.
    - (* struct *) intros name k fs vs args V L _ IH. rewrite data_struct.
      apply DV_plain; [apply has_bar_false, (variant_nobar (name, k, fs)); auto|].
      apply (DF_intro addr tbl _ (map field_type fs) ForwardsCompatible); [apply variant_arg_types; auto|]. apply IH. destruct V as (_ & _ & V & _). exact V.
    - (* enum *) intros variants j name k fs vs args N V C L _ IH. rewrite (data_enum _ _ _ _ _ _ N).
      assert (VJ : variant_ok (name, k, fs)).
      { rewrite Forall_forall in V. apply V. eapply nth_error_In; eauto. }
      assert (D : DF (name ++ fields_str k fs) (concat (map2 field_bytes fs vs)) args).
      { apply (DF_intro addr tbl _ (map field_type fs) ForwardsCompatible); [apply variant_arg_types; auto|]. apply IH. destruct VJ as (_ & _ & VJ & _). exact VJ. }
      change (format_tag (REnum variants)) with (enum_str variants).
      destruct variants as [|v0 [|v1 variants]].
      + destruct j; discriminate.
      + destruct j as [|[|j]]; cbn in N; try discriminate. injection N as ->.
        cbn [enum_str map join_bar length]. change (discriminant_bytes (Z.of_nat 1)) with O. cbn [le_bytes app].
        apply DV_plain; auto. apply has_bar_false, (variant_nobar (name, k, fs)); auto.
      + unfold enum_str. set (variants' := v0 :: v1 :: variants) in *.
        assert (L2 : (2 <= length variants')%nat) by (cbn; lia).
        destruct (widths_agree (Z.of_nat (length variants'))) as [W1 W2]; [lia|auto|].
        apply DV_variant; rewrite ?map_length; auto.
        * rewrite Forall_map. eapply Forall_impl; [|exact V]. apply variant_nobar.
        * rewrite (map_nth_error variant_str j variants' N). reflexivity.
    - (* flags *) intros w n p d c x F B. change (format_tag (RFlags w n p d c)) with (flags_str w n p d c).
      change (format_data addr (RFlags w n p d c) (VNum x)) with (put_prim addr (PU w) (VNum x)).
      apply (DV_single _ (TU w)); [apply flags_arg_types; auto|apply flags_nobar; auto|].
      apply DT_prim with (p := PU w); [reflexivity|]. apply PM_u; auto.
    - intros t. apply DE_nil.
    - intros t v vs f a es _ IH1 _ IH2. cbn [map concat length]. apply DE_cons; auto.
    - apply DTs_nil.
    - intros t ts v vs f a args Hl _ IH1 _ IH2. cbn [length repeat map2 concat]. apply DTs_cons; auto.
      apply DT_format; auto.
    - intros _. apply DTs_nil.
    - (* debug field *) intros n t fs s vs args H Hl _ IH F. inversion F as [|? ? F0 F2]; subst. destruct F0 as [_ F1].
      cbn [map map2 concat]. apply DTs_cons; auto. unfold field_type, field_ty. rewrite F1 by discriminate.
      cbn [field_bytes]. apply DT_format; auto.
      apply (tag_single TDebug); try exact I; try reflexivity; [apply nobar_b_ok; reflexivity|]. apply DT_text; auto.
    - intros n t fs s vs args H Hl _ IH F. inversion F as [|? ? F0 F2]; subst. destruct F0 as [_ F1].
      cbn [map map2 concat]. apply DTs_cons; auto. unfold field_type, field_ty. rewrite F1 by discriminate.
      cbn [field_bytes]. apply DT_format; auto.
      apply (tag_single TDisplay); try exact I; try reflexivity; [apply nobar_b_ok; reflexivity|]. apply DT_text; auto.
    - intros n t p fs v vs a args N H _ IH F. inversion F; subst.
      cbn [map map2 concat]. apply DTs_cons; auto. unfold field_type, field_ty, field_bytes. rewrite N.
      apply DT_prim with (p := p); auto. apply prim_of_ty_of_prim.
    - intros n t fs v vs f a args N Hl _ IH1 _ IH F. inversion F; subst.
      cbn [map map2 concat]. apply DTs_cons; auto. unfold field_type, field_ty, field_bytes. rewrite N.
      apply DT_format; auto.
    - intros b2 args2 H. exact H.
    - (* write *) intros s tys avs ws a args Hl T MA IH1 _ IH2 b2 args2 H2.
      destruct T as (frags & T). pose proof T as (T1 & _).
      cbn [map concat]. rewrite (write_call_eq _ _ _ T1).
      rewrite (encode_args_wire s Strict tys avs frags); [|exists frags; exact T|auto|eapply means_args_length; eauto].
      rewrite <- !app_assoc. apply DS_step; auto. eapply (DF_intro addr); [exists frags; exact T|exact IH1].
    - (* splice *) intros t ws' ws a args E _ IH1 _ IH2 b2 args2 H2. cbn [map concat].
      rewrite write_splice, <- !app_assoc by auto. apply IH1. auto.
    - (* delegate *) intros t v f ws a args E1 E2 Hl B _ IH1 _ IH2 b2 args2 H2. cbn [map concat].
      rewrite write_delegate, <- !app_assoc by auto.
      apply DV_plain_inv in IH1 as [-> IH1]; [|apply has_bar_false; auto].
      apply DS_step; auto.
    - apply DTs_nil.
    - intros x tys av avs a args _ IH1 _ IH2. cbn [map2 concat]. apply DTs_cons; auto.
    - intros x p v a E H. unfold wire_bytes. cbn [encode_arg first_ty p_index Z.eqb p_ty]. rewrite E.
      pose proof (DT_prim addr tbl x p v a E H). destruct x; auto.
    - intros t v f a Hl _ IH. apply DT_format; auto.
    - intros t vs es Hl L _ IH. apply DT_slice; auto.
    - intros n t vs es Hl -> _ IH. apply DT_array; auto.
    - intros s H. apply DT_text; auto.
    - intros s H. apply DT_text; auto.
    - intros s H L. apply DT_bytes; auto.
    - intros n s H ->. apply DT_byte_array; auto.
    - intros lo hi w x H1 H2 H3 Hx _ _. apply (DT_bits _ lo hi w); auto.
  Qed.
End Main.
