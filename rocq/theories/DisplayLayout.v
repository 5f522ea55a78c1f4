(** Layout of displayed frames (C37) and inheritance of display hints (C39). *)
From Verif Require Import Base Utf8 ParserModel ParserProofs FormatSpec DecoderModel
  Numerals EncodeTop DisplayModel DisplayProofs DisplayTotal.

Section Layout.
  Context (X : externals) (tbl : table).

  (** The text of one fragment. *)
  Inductive piece (args : list arg) (parent : option hint) : fragment -> bytes -> Prop :=
  | piece_literal s : piece args parent (FLit s) s
  | piece_argument p a s : nth_error args (Z.to_nat (p_index p)) = Some a ->
      show_arg X tbl a p parent = Some s -> piece args parent (FParam p) s.

  Lemma fragment_piece : forall args parent f s,
    show_fragment (map (show_arg X tbl) args) parent f = Some s <-> piece args parent f s.
  Proof.
    intros args parent [l|p] s; cbn [show_fragment]; split; intros H.
    - injection H as <-. constructor.
    - inversion H; subst. reflexivity.
    - destruct (nth_error (map _ args) _) as [g|] eqn:N; [|discriminate].
      apply nth_error_map_inv in N as (a & N & <-). econstructor; eauto.
    - inversion H; subst. erewrite map_nth_error by eauto. auto.
  Qed.

  Lemma args_layout : forall f args parent s,
    format_args X tbl f args parent = Some s <->
    exists frags pieces, parse f ForwardsCompatible = Ok frags /\ Forall2 (piece args parent) frags pieces /\ s = concat pieces.
  Proof.
    intros f args parent s. unfold format_args, show_format.
    destruct (parse f ForwardsCompatible) as [frags|e| |];
      try (split; [discriminate|intros (? & ? & ? & _); discriminate]).
    rewrite concat_text_some. split.
    - intros (ps & E & ->). exists frags, ps. repeat split; auto.
      revert ps E. induction frags as [|f1 frags IH]; intros [|q ps] E; try discriminate; constructor.
      + cbn [map] in E. injection E as E1 E2. apply fragment_piece. exact E1.
      + cbn [map] in E. injection E as E1 E2. apply IH. exact E2.
    - intros (fr & ps & E & F & ->). injection E as <-. exists ps. split; auto.
      induction F as [|f1 q frags ps F1 F2 IH]; [reflexivity|]. cbn [map]. f_equal; [|exact IH].
      apply fragment_piece. exact F1.
  Qed.

  (** Uncoloured display: timestamp, level and message. *)
  Lemma frame_layout : forall fr s,
    display_frame X tbl false fr = Some s <->
    exists ts msg,
      match f_timestamp_format fr with
      | Some f => exists t, format_args X tbl f (f_timestamp_args fr) None = Some t /\ ts = t ++ lit " "
      | None => ts = []
      end /\
      display_message X tbl fr = Some msg /\
      s = ts ++ match f_level fr with Some l => level_name l ++ lit " " | None => [] end ++ msg.
  Proof.
    intros fr s. unfold display_frame. cbv zeta. rewrite concat_text_some. split.
    - intros (ps & E & ->). destruct ps as [|a [|b [|c [|]]]]; try discriminate. cbn [map] in E.
      injection E as E1 E2 E3. exists a, c. split; [|split; [exact E3|]].
      + destruct (f_timestamp_format fr) as [f|]; [|now injection E1 as <-].
        destruct (format_args X tbl f (f_timestamp_args fr) None) as [t|]; [|discriminate].
        injection E1 as <-. eauto.
      + subst b. cbn [concat]. now rewrite app_nil_r.
    - intros (ts & msg & T & M & ->).
      exists [ts; match f_level fr with Some l => level_name l ++ lit " " | None => [] end; msg].
      rewrite M. split; [|cbn [concat]; now rewrite app_nil_r]. cbn [map]. f_equal.
      destruct (f_timestamp_format fr) as [f|]; [|now subst]. destruct T as (t & -> & ->). reflexivity.
  Qed.

  (* ---------------------------------------------------------------- *)
  (** * Hints *)

  (** The innermost hint on a path of parameters (outermost first), starting from the
      hint in force outside. *)
  Fixpoint innermost (outer : option hint) (path : list (option hint)) : option hint :=
    match path with
    | [] => outer
    | Some h :: path' => innermost (Some h) path'
    | None :: path' => innermost outer path'
    end.

  (** [inside a p path leaf q]: in the argument [a] of parameter [p], the argument
      [leaf] of parameter [q] is shown; [path] are the hints of the parameters passed,
      [p] first, [q] excluded. *)
  Inductive inside : arg -> parameter -> list (option hint) -> arg -> parameter -> Prop :=
  | inside_here a p : inside a p [] a p
  | inside_format f frags args p q a path leaf lp :
      parse f ForwardsCompatible = Ok frags -> In (FParam q) frags ->
      nth_error args (Z.to_nat (p_index q)) = Some a ->
      inside a q path leaf lp ->
      inside (AFormat f args) p (p_hint p :: path) leaf lp
  | inside_slice es f frags args p q a path leaf lp :
      In (f, args) es ->
      parse f ForwardsCompatible = Ok frags -> In (FParam q) frags ->
      nth_error args (Z.to_nat (p_index q)) = Some a ->
      inside a q path leaf lp ->
      inside (AFormatSlice es) p (p_hint p :: path) leaf lp
  | inside_sequence args a p path leaf lp :
      In a args -> inside a (MkParameter 0 TFormat None) path leaf lp ->
      inside (AFormatSequence args) p (p_hint p :: path) leaf lp.

  Definition part (s' s : bytes) : Prop := exists u v, s = u ++ s' ++ v.

  Lemma part_trans : forall a b c, part a b -> part b c -> part a c.
  Proof.
    intros a b c (u & v & ->) (u' & v' & ->). exists (u' ++ u), (v ++ v'). now rewrite <- !app_assoc.
  Qed.

  Lemma part_refl : forall a, part a a.
  Proof. intros a. exists [], []. now rewrite app_nil_r. Qed.

  Lemma concat_part : forall l t s, concat_text l = Some s -> In t l -> exists s', t = Some s' /\ part s' s.
  Proof.
    intros l t s E I. apply concat_text_some in E as (ps & -> & ->). apply in_map_iff in I as (s' & <- & I).
    exists s'. split; auto. apply in_split in I as (l1 & l2 & ->). exists (concat l1), (concat l2).
    rewrite concat_app. reflexivity.
  Qed.

  Lemma join_part : forall l t s, join_texts l = Some s -> In t l -> exists s', t = Some s' /\ part s' s.
  Proof.
    induction l as [|a l IH]; intros t s E I; [contradiction|]. cbn [join_texts] in E.
    destruct l as [|b l].
    - destruct I as [<-|[]]. exists s. split; auto. apply part_refl.
    - destruct a as [a|]; [|discriminate]. destruct (join_texts (b :: l)) as [r|] eqn:J; [|discriminate].
      injection E as <-. destruct I as [<-|I].
      + exists a. split; auto. exists [], (lit ", " ++ r). reflexivity.
      + destruct (IH t r eq_refl I) as (s' & -> & P). exists s'. split; auto. eapply part_trans; [exact P|].
        exists (a ++ lit ", "), []. now rewrite app_nil_r, <- app_assoc.
  Qed.

  Lemma format_part : forall f frags args parent s q a, parse f ForwardsCompatible = Ok frags -> In (FParam q) frags ->
    nth_error args (Z.to_nat (p_index q)) = Some a -> show_format f (map (show_arg X tbl) args) parent = Some s ->
    exists s', show_arg X tbl a q parent = Some s' /\ part s' s.
  Proof.
    intros f frags args parent s q a E I N S. unfold show_format in S. rewrite E in S.
    apply (concat_part _ (show_fragment (map (show_arg X tbl) args) parent (FParam q))) in S.
    - cbn [show_fragment] in S. erewrite map_nth_error in S by eauto. exact S.
    - now apply in_map.
  Qed.

  (** Nested arguments are shown with the innermost hint on the way (as long as [:a],
      which wins over inner hints, is not among them). *)
  Theorem hints_inherited : forall a p path leaf lp, inside a p path leaf lp ->
    Forall (fun h => h <> Some HAscii) path -> forall outer s, outer <> Some HAscii ->
    show_arg X tbl a p outer = Some s ->
    exists s', show_arg X tbl leaf lp (innermost outer path) = Some s' /\ part s' s.
  Proof.
    assert (O : forall outer o, innermost outer [o] = or_hint o outer) by (intros ? []; reflexivity).
    assert (OI : forall outer o path, innermost outer (o :: path) = innermost (or_hint o outer) path) by (intros ? [] ?; reflexivity).
    assert (NA : forall outer o, outer <> Some HAscii -> o <> Some HAscii -> is_ascii_hint (or_hint o outer) = false).
    { intros outer [[]|] H1 H2; cbn; auto; try congruence. destruct outer as [[]|]; cbn; auto. congruence. }
    assert (NB : forall h, is_ascii_hint h = false <-> h <> Some HAscii).
    { intros [[]|]; cbn; split; congruence. }
    induction 1 as [a p|f frags args p q a path leaf lp E I N _ IH|es f frags args p q a path leaf lp IE E I N _ IH
      |args a p path leaf lp I _ IH]; intros F outer s HO S.
    - exists s. split; auto. apply part_refl.
    - inversion F as [|? ? F1 F2]; subst. cbn [show_arg] in S. cbv zeta in S. rewrite OI.
      rewrite (proj2 (NB outer) HO) in S.
      destruct (format_part _ _ _ _ _ _ _ E I N S) as (s1 & S1 & P1).
      destruct (IH F2 (or_hint (p_hint p) outer) s1) as (s' & S' & P'); auto. { apply NB, NA; auto. }
      exists s'. split; auto. eapply part_trans; eauto.
    - inversion F as [|? ? F1 F2]; subst. cbn [show_arg] in S. cbv zeta in S. rewrite OI.
      rewrite (NA outer (p_hint p)) in S by auto. cbn [andb] in S.
      destruct (join_texts _) as [r|] eqn:J; [|discriminate]. injection S as <-.
      apply (join_part _ (show_format f (map (show_arg X tbl) args) (or_hint (p_hint p) outer))) in J.
      2:{ apply in_map_iff. exists (f, args). auto. }
      destruct J as (r1 & J & P0).
      destruct (format_part _ _ _ _ _ _ _ E I N J) as (s1 & S1 & P1).
      destruct (IH F2 (or_hint (p_hint p) outer) s1) as (s' & S' & P'); auto. { apply NB, NA; auto. }
      exists s'. split; auto. eapply part_trans; [exact P'|]. eapply part_trans; [exact P1|].
      eapply part_trans; [exact P0|]. exists (lit "["), (lit "]"). reflexivity.
    - inversion F as [|? ? F1 F2]; subst. cbn [show_arg] in S. cbv zeta in S. rewrite OI.
      apply (concat_part _ (show_format (lit "{=?}") [show_arg X tbl a] (or_hint (p_hint p) outer))) in S.
      2:{ apply in_map_iff. exists a. auto. }
      destruct S as (s1 & S1 & P1). unfold show_format in S1. rewrite sequence_string in S1.
      cbn [map show_fragment display_parameter p_index nth_error Z.to_nat concat_text] in S1.
      destruct (show_arg X tbl a display_parameter (or_hint (p_hint p) outer)) as [s2|] eqn:S2; [|discriminate].
      injection S1 as <-. rewrite app_nil_r in P1.
      destruct (IH F2 (or_hint (p_hint p) outer) s2) as (s' & S' & P'); auto. { apply NB, NA; auto. }
      exists s'. split; auto. eapply part_trans; eauto.
  Qed.

  Definition is_leaf (a : arg) : bool :=
    match a with AFormat _ _ | AFormatSlice _ | AFormatSequence _ => false | _ => true end.

  (** A value without a hint of its own is shown like one that has the outer hint; a
      hint of its own, other than [:?], wins over the outer hint. *)
  Lemma leaf_hint : forall a i t own outer, is_leaf a = true ->
    (forall h, show_arg X tbl a (MkParameter i t None) (Some h) = show_arg X tbl a (MkParameter i t (Some h)) (Some h)) /\
    (own <> HDebug -> show_arg X tbl a (MkParameter i t (Some own)) outer = show_arg X tbl a (MkParameter i t (Some own)) None).
  Proof.
    intros a i t own outer L. split.
    - intros h. destruct a; try discriminate; reflexivity.
    - intros H. destruct a; try discriminate; try reflexivity. cbn [show_arg]. unfold show_uxx. cbn.
      destruct t; try reflexivity; destruct own; try reflexivity; congruence.
  Qed.

  (** A hint of its own wins for composite values, too, unless the outer hint is [:a]
      and the value is not a slice. *)
  Lemma own_hint : forall a i t own outer, is_leaf a = false -> outer <> Some HAscii ->
    show_arg X tbl a (MkParameter i t (Some own)) outer = show_arg X tbl a (MkParameter i t (Some own)) None.
  Proof.
    intros a i t own outer L H. destruct a; try discriminate; try reflexivity. cbn [show_arg p_hint or_hint].
    cbv zeta. destruct outer as [[]|]; try reflexivity. congruence.
  Qed.
End Layout.
