(** Exactly when displaying a decoded frame panics (C38). *)
From Verif Require Import Base Utf8 ParserModel ParserProofs FormatSpec DecoderModel DecoderProofs DecoderPanic PrepareProofs
  Numerals EncodeModel EncodeSpec EncodeProofs DisplayModel DisplayProofs DisplayTotal.

(** The hint of a parameter, or the one around it. *)
Definition hint_at (p : parameter) (outer : option hint) : option hint :=
  match p_hint p with Some h => Some h | None => outer end.

(** [place a p h leaf lp lh]: showing [a] for the parameter [p] under the hint [h] includes showing
    [leaf] for [lp] under [lh].  ASCII around a nested value wins over the hint of its parameter; a
    slice with an element shown with ["{=u8}"] is taken as bytes under ASCII. *)
Inductive place : arg -> parameter -> option hint -> arg -> parameter -> option hint -> Prop :=
| place_here a p h : place a p h a p h
| place_format f args p h leaf lp lh :
    place_in f args (if is_ascii_hint h then h else hint_at p h) leaf lp lh -> place (AFormat f args) p h leaf lp lh
| place_slice es f args p h leaf lp lh : In (f, args) es ->
    ~ (hint_at p h = Some HAscii /\ exists args', In (lit "{=u8}", args') es) ->
    place_in f args (hint_at p h) leaf lp lh -> place (AFormatSlice es) p h leaf lp lh
| place_sequence args a p h leaf lp lh : In a args ->
    place a (MkParameter 0 TFormat None) (hint_at p h) leaf lp lh -> place (AFormatSequence args) p h leaf lp lh
with place_in : bytes -> list arg -> option hint -> arg -> parameter -> option hint -> Prop :=
| place_at f frags args h q a leaf lp lh : parse f ForwardsCompatible = Ok frags -> In (FParam q) frags ->
    nth_error args (Z.to_nat (p_index q)) = Some a -> place a q h leaf lp lh -> place_in f args h leaf lp lh.

Scheme place_mut := Minimality for place Sort Prop
with place_in_mut := Minimality for place_in Sort Prop.
Combined Scheme place_both from place_mut, place_in_mut.

(** What cannot be shown: an unsigned integer as an ISO 8601 instant after the year 999999; an
    [isize] in hexadecimal; a slice under ASCII with an element for ["{=u8}"] and one that is not a byte. *)
Definition unshowable (a : arg) (p : parameter) (h : option hint) : Prop :=
  match a with
  | AUxx x => exists prec, hint_at p h = Some (HIso8601 prec) /\ (forall lo hi, p_ty p <> TBitField lo hi) /\
      31494784780800 <= (x mod 2 ^ 64) / (match prec with Micros => 1000000 | Millis => 1000 | Seconds => 1 end)
  | AIxx _ => p_ty p = TIsize /\ exists alt up w, hint_at p h = Some (HHex alt up w)
  | AFormatSlice es => hint_at p h = Some HAscii /\ (exists args, In (lit "{=u8}", args) es) /\
      exists f args, In (f, args) es /\ forall x, args = [AUxx x] -> ~ 0 <= x < 256
  | _ => False
  end.

Lemma concat_text_none l : concat_text l = None <-> In None l.
Proof.
  induction l as [|[s|] l IH]; cbn [concat_text In].
  - split; [discriminate|tauto].
  - destruct (concat_text l).
    + split; [discriminate|]. intros [H|H]; [discriminate|]. apply IH in H. discriminate.
    + split; [|reflexivity]. intros _. right. apply IH. reflexivity.
  - tauto.
Qed.

Lemma join_texts_none l : join_texts l = None <-> In None l.
Proof.
  induction l as [|s l IH]; [cbn; split; [discriminate|tauto]|].
  destruct l as [|t l].
  - cbn. split; [intros ->; auto|intros [->|[]]; reflexivity].
  - change (join_texts (s :: t :: l)) with
      (match s, join_texts (t :: l) with Some a, Some b => Some (a ++ lit ", " ++ b) | _, _ => None end).
    cbn [In] in *. destruct s as [s|]; [|tauto]. destruct (join_texts (t :: l)).
    + split; [discriminate|]. intros [H|H]; [discriminate|]. apply IH in H. discriminate.
    + split; [|reflexivity]. intros _. right. apply IH. reflexivity.
Qed.

Lemma element_bytes_none es : element_bytes es = None ->
  exists f args, In (f, args) es /\ forall x, args = [AUxx x] -> ~ 0 <= x < 256.
Proof.
  induction es as [|[f args] es IH]; cbn [element_bytes]; [discriminate|].
  intros H.
  assert (D : (exists x, args = [AUxx x] /\ 0 <= x < 256 /\ element_bytes es = None) \/ forall x, args = [AUxx x] -> ~ 0 <= x < 256).
  { destruct args as [|a [|b l]]; try (right; intros; congruence).
    destruct a; try (right; intros; congruence).
    destruct ((0 <=? x) && (x <? 256)) eqn:B.
    - left. exists x. split; auto. apply andb_prop in B. split; [lia|]. destruct (element_bytes es); congruence.
    - right. intros y Y. injection Y as <-. apply andb_false_iff in B. lia. }
  destruct D as [(x & -> & _ & D)|D].
  - destruct (IH D) as (g & as' & I1 & N). exists g, as'. cbn [In]. auto.
  - exists f, args. cbn [In]. auto.
Qed.

Lemma element_bytes_some es s : element_bytes es = Some s ->
  forall f args, In (f, args) es -> exists x, args = [AUxx x] /\ 0 <= x < 256.
Proof.
  revert s. induction es as [|[f args] es IH]; cbn [element_bytes]; intros s E g as' I1; [destruct I1|].
  destruct args as [|a l]; [discriminate|]. destruct a; try discriminate. destruct l; [|discriminate].
  destruct ((0 <=? x) && (x <? 256)) eqn:B; [|discriminate].
  destruct (element_bytes es) as [r|]; [|discriminate].
  destruct I1 as [I1|I1]; [|exact (IH _ eq_refl _ _ I1)].
  injection I1 as <- <-. exists x. apply andb_prop in B. split; auto. lia.
Qed.

Section Exact.
  Context (X : externals) (tbl : table).

  Lemma hint_same p h : or_hint (p_hint p) h = hint_at p h.
  Proof. unfold or_hint, hint_at. destruct (p_hint p); reflexivity. Qed.

  Lemma slice_ascii es h :
    is_ascii_hint h && existsb (fun e : bytes * list arg => beq (fst e) (lit "{=u8}")) es = true <->
    h = Some HAscii /\ exists args, In (lit "{=u8}", args) es.
  Proof.
    rewrite andb_true_iff, existsb_exists. unfold is_ascii_hint. split.
    - intros [H ([f args] & I1 & B)]. cbn [fst] in B. apply beq_true in B. subst f.
      split; [destruct h as [[]|]; congruence|eauto].
    - intros [-> (args & I1)]. split; [reflexivity|]. eexists. split; [exact I1|]. cbn [fst]. apply beq_refl.
  Qed.

  (** An unshowable place anywhere: nothing is shown. *)
  Lemma unshowable_none a p h : unshowable a p h -> show_arg X tbl a p h = None.
  Proof.
    destruct a; cbn [unshowable]; try contradiction; cbn [show_arg]; cbv zeta; rewrite ?hint_same.
    - intros (prec & H & N & L). unfold show_uxx. cbv zeta. rewrite hint_same, H.
      assert (F : format_iso8601 (x mod 2 ^ 64) prec = None).
      { unfold format_iso8601. cbv zeta. replace (max_unix_seconds <? _) with true; [reflexivity|].
        symmetry. apply Z.ltb_lt. apply Z.lt_le_trans with (2 := L). reflexivity. }
      destruct (p_ty p); try exact F. exfalso. eapply N; reflexivity.
    - intros [T (alt & up & w & ->)]. unfold format_i128. rewrite T. reflexivity.
    - intros (H & U & f & args & I1 & N).
      rewrite (proj2 (slice_ascii _ _) (conj H U)).
      destruct (element_bytes elements) as [s|] eqn:E; [|reflexivity].
      destruct (element_bytes_some _ _ E _ _ I1) as (x & Q & B). destruct (N x Q B).
  Qed.

  Lemma show_format_none f args h :
    show_format f (map (show_arg X tbl) args) h = None <->
    (forall frags, parse f ForwardsCompatible <> Ok frags) \/
    exists frags q, parse f ForwardsCompatible = Ok frags /\ In (FParam q) frags /\
      match nth_error args (Z.to_nat (p_index q)) with Some a => show_arg X tbl a q h = None | None => True end.
  Proof.
    unfold show_format. destruct (parse f ForwardsCompatible) as [frags| | |] eqn:E.
    - rewrite concat_text_none. rewrite in_map_iff. split.
      + intros (fr & S0 & I1). right. destruct fr as [s|q]; cbn [show_fragment] in S0; [discriminate|].
        exists frags, q. split; [reflexivity|]. split; [exact I1|].
        rewrite nth_error_map in S0. destruct (nth_error args _); auto.
      + intros [N|(frags' & q & Q & I1 & S0)]; [destruct (N frags eq_refl)|]. injection Q as <-.
        exists (FParam q). split; [|exact I1]. cbn [show_fragment]. rewrite nth_error_map.
        destruct (nth_error args _); auto.
    - split; [left; discriminate|reflexivity].
    - split; [left; discriminate|reflexivity].
    - split; [left; discriminate|reflexivity].
  Qed.

  Lemma place_none :
    (forall a p h leaf lp lh, place a p h leaf lp lh -> unshowable leaf lp lh -> show_arg X tbl a p h = None) /\
    (forall f args h leaf lp lh, place_in f args h leaf lp lh -> unshowable leaf lp lh ->
       show_format f (map (show_arg X tbl) args) h = None).
  Proof.
    apply place_both.
    - intros a p h U. apply unshowable_none, U.
    - intros f args p h leaf lp lh _ IH U. cbn [show_arg]. cbv zeta. rewrite hint_same. apply IH, U.
    - intros es f args p h leaf lp lh I1 N _ IH U. cbn [show_arg]. cbv zeta. rewrite hint_same.
      destruct (is_ascii_hint (hint_at p h) && existsb _ es) eqn:B.
      { apply slice_ascii in B. contradiction. }
      assert (J : join_texts (map (fun e => show_format (fst e) (map (show_arg X tbl) (snd e)) (hint_at p h)) es) = None).
      { apply join_texts_none. apply in_map_iff. exists (f, args). split; [apply IH, U|exact I1]. }
      rewrite J. reflexivity.
    - intros args a p h leaf lp lh I1 _ IH U. cbn [show_arg]. cbv zeta. rewrite hint_same.
      apply concat_text_none, in_map_iff. exists a. split; [|exact I1].
      unfold show_format. rewrite sequence_string. apply concat_text_none. left. cbn. apply IH, U.
    - intros f frags args h q a leaf lp lh E I1 N _ IH U. apply show_format_none. right.
      exists frags, q. rewrite N. auto.
  Qed.

  (** Conversely, a value of the right shape that cannot be shown has such a place. *)
  Context (Q : bytes -> Prop) (NB : Prop).

  Definition finds (a : arg) : Prop := forall t p h, arg_ok Q NB t a -> compatible t (p_ty p) -> ty_valid (p_ty p) ->
    show_arg X tbl a p h = None -> exists leaf lp lh, place a p h leaf lp lh /\ unshowable leaf lp lh.

  Lemma format_finds f args h : format_ok Q NB f args -> Forall finds args ->
    show_format f (map (show_arg X tbl) args) h = None ->
    exists leaf lp lh, place_in f args h leaf lp lh /\ unshowable leaf lp lh.
  Proof.
    intros (frags & E & A) HA S0. apply show_format_none in S0.
    destruct S0 as [N|(frags' & q & E' & I1 & S0)]; [destruct (N frags E)|].
    rewrite E in E'. injection E' as <-.
    destruct (wire_type_at _ _ _ E (params_of_in _ _ I1)) as (t & N & C & V).
    destruct (all2_nth _ _ _ _ _ _ _ A N) as (a & Na & Ha).
    rewrite Na in S0. rewrite Forall_forall in HA.
    destruct (HA a (nth_error_In _ _ Na) t q h Ha C V S0) as (leaf & lp & lh & P & U).
    exists leaf, lp, lh. split; [|exact U]. econstructor; eauto.
  Qed.

  Lemma iso_none x prec : format_iso8601 x prec = None ->
    31494784780800 <= x / (match prec with Micros => 1000000 | Millis => 1000 | Seconds => 1 end).
  Proof.
    unfold format_iso8601. cbv zeta. destruct (max_unix_seconds <? _) eqn:B; [intros _; apply Z.ltb_lt in B; apply (Z.le_succ_l max_unix_seconds), B|].
    destruct (civil _) as [[y m] d]. discriminate.
  Qed.

  Lemma uxx_finds x p h : ty_valid (p_ty p) -> show_uxx X tbl x p h = None -> unshowable (AUxx x) p h.
  Proof.
    intros V S0. unfold show_uxx in S0. cbv zeta in S0. rewrite hint_same in S0. cbn [unshowable].
    assert (D : (exists lo hi, p_ty p = TBitField lo hi) \/
      ((forall lo hi, p_ty p <> TBitField lo hi) /\
       match hint_at p h with
      | Some (HIso8601 prec) => format_iso8601 (x mod 2 ^ 64) prec
      | Some HDebug => Some (format_u128 tbl x h)
      | _ => Some (format_u128 tbl x (hint_at p h))
      end = None)).
    { destruct (p_ty p); try (right; split; [discriminate|exact S0]). left. eauto. }
    destruct D as [(lo & hi & T)|[T D]].
    - rewrite T in *. cbn [ty_valid] in V. destruct (select_bits x lo hi) eqn:B.
      + destruct (hint_at p h) as [[]|]; discriminate.
      + destruct (select_bits_total x lo hi) as []; intuition.
    - destruct (hint_at p h) as [[]|]; try discriminate. eexists. split; [reflexivity|]. split; [exact T|].
      apply iso_none, D.
  Qed.

  Lemma finds_all : forall a, finds a.
  Proof.
    apply arg_induction.
    - intros a. destruct a; try exact I; intros t p h A C V S0; cbn [show_arg] in S0; cbv zeta in S0; try discriminate.
      + eexists _, _, _. split; [apply place_here|]. apply uxx_finds; assumption.
      + rewrite hint_same in S0. unfold format_i128 in S0. eexists _, _, _. split; [apply place_here|]. cbn [unshowable].
        destruct (hint_at p h) as [[]|]; try discriminate.
        split; [|eauto]. cbn [arg_ok] in A. destruct C as [C|[C _]].
        * rewrite <- C in S0 |- *. destruct t; try contradiction; [discriminate|reflexivity].
        * destruct t; try contradiction; discriminate.
    - intros f args HA t p h (_ & Qf & A) C V S0. cbn [show_arg] in S0. cbv zeta in S0. rewrite hint_same in S0.
      destruct (format_finds _ _ _ A HA S0) as (leaf & lp & lh & P & U). exists leaf, lp, lh. split; [|exact U].
      apply place_format, P.
    - intros es HE t p h A C V S0. cbn [show_arg] in S0. cbv zeta in S0. rewrite hint_same in S0. cbn [arg_ok] in A.
      destruct A as (_ & _ & A2). apply allp_forall in A2.
      destruct (is_ascii_hint (hint_at p h) && existsb _ es) eqn:B.
      + apply slice_ascii in B. destruct B as [B1 B2]. destruct (element_bytes es) eqn:EB; [discriminate|].
        eexists _, _, _. split; [apply place_here|]. cbn [unshowable]. split; [exact B1|]. split; [exact B2|].
        apply element_bytes_none, EB.
      + destruct (join_texts (map (fun e => show_format (fst e) (map (show_arg X tbl) (snd e)) (hint_at p h)) es)) eqn:J; [discriminate|].
        apply join_texts_none, in_map_iff in J. destruct J as ([f args] & J & I1). cbn [fst snd] in J.
        rewrite Forall_forall in HE, A2. destruct (A2 _ I1) as [_ F]. cbn [fst snd] in F.
        destruct (format_finds _ _ _ F (HE _ I1) J) as (leaf & lp & lh & P & U). exists leaf, lp, lh. split; [|exact U].
        eapply place_slice; eauto. intros Y. apply slice_ascii in Y. congruence.
    - intros args HA t p h A C V S0. cbn [show_arg] in S0. cbv zeta in S0. rewrite hint_same in S0. cbn [arg_ok] in A.
      destruct A as [_ A]. apply allp_forall in A. apply concat_text_none, in_map_iff in S0. destruct S0 as (a & S0 & I1).
      unfold show_format in S0. rewrite sequence_string in S0. apply concat_text_none in S0. cbn [map] in S0.
      destruct S0 as [S0|[]]. cbn in S0.
      rewrite Forall_forall in HA, A.
      destruct (HA a I1 TFormat display_parameter _ (A a I1) (or_introl eq_refl) Logic.I S0) as (leaf & lp & lh & P & U).
      exists leaf, lp, lh. split; [|exact U]. eapply place_sequence; eauto.
  Qed.
End Exact.

(** A decoded frame. *)
Definition message_place (fr : frame) (a : arg) (p : parameter) (h : option hint) : Prop :=
  place_in (f_format fr) (f_args fr) None a p h.
Definition timestamp_place (fr : frame) (a : arg) (p : parameter) (h : option hint) : Prop :=
  exists f, f_timestamp_format fr = Some f /\ place_in f (f_timestamp_args fr) None a p h.

Lemma message_exact X tbl b fr n : bytes_ok b -> decode tbl b = Ok (fr, n) ->
  display_message X tbl fr = None <-> exists a p h, message_place fr a p h /\ unshowable a p h.
Proof.
  intros Hb E. destruct (decode_shape tbl b fr n Hb E) as (_ & F & _). unfold display_message, format_args, message_place. split.
  - intros S0. eapply format_finds; eauto. apply Forall_forall. intros a _. apply finds_all.
  - intros (a & p & h & P & U). eapply place_none; eauto.
Qed.

Lemma timestamp_exact X tbl b fr n : bytes_ok b -> decode tbl b = Ok (fr, n) ->
  display_timestamp X tbl fr = Some None <-> exists a p h, timestamp_place fr a p h /\ unshowable a p h.
Proof.
  intros Hb E. destruct (decode_shape tbl b fr n Hb E) as (_ & _ & F). unfold display_timestamp, format_args, timestamp_place.
  destruct (f_timestamp_format fr) as [f|].
  - destruct F as [_ F]. split.
    + intros S0. assert (S1 : show_format f (map (show_arg X tbl) (f_timestamp_args fr)) None = None) by congruence.
      assert (G : Forall (finds X tbl (table_string tbl) (no_u8_variant tbl)) (f_timestamp_args fr)).
      { apply Forall_forall. intros a _. apply finds_all. }
      destruct (format_finds X tbl _ _ f _ _ F G S1) as (a & p & h & P & U).
      exists a, p, h. split; [|exact U]. exists f. auto.
    + intros (a & p & h & (f' & Q & P) & U). injection Q as <-. f_equal. eapply place_none; eauto.
  - split; [discriminate|]. intros (a & p & h & (f' & Q & P) & U). discriminate.
Qed.

Lemma frame_exact X tbl b fr n colored : bytes_ok b -> decode tbl b = Ok (fr, n) ->
  display_frame X tbl colored fr = None <->
  exists a p h, (message_place fr a p h \/ timestamp_place fr a p h) /\ unshowable a p h.
Proof.
  intros Hb E. pose proof (message_exact X tbl b fr n Hb E) as M. pose proof (timestamp_exact X tbl b fr n Hb E) as T.
  assert (D : display_frame X tbl colored fr = None <-> display_message X tbl fr = None \/ display_timestamp X tbl fr = Some None).
  { unfold display_frame, display_timestamp. cbv zeta. rewrite concat_text_none. cbn [In].
    destruct (f_timestamp_format fr) as [f|].
    - destruct (format_args X tbl f (f_timestamp_args fr) None); intuition (try discriminate; auto).
    - intuition (try discriminate; auto). }
  rewrite D, M, T. split.
  - intros [(a & p & h & P & U)|(a & p & h & P & U)]; exists a, p, h; auto.
  - intros (a & p & h & [P|P] & U); [left|right]; exists a, p, h; auto.
Qed.
