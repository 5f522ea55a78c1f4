(** Which hint a nested value is shown with, on every path to it, [:a] included. *)
From Verif Require Import Base Utf8 ParserModel ParserProofs FormatSpec DecoderModel Numerals EncodeTop DisplayModel DisplayProofs DisplayTotal DisplayLayout.

Section Hints.
  Context (X : externals) (tbl : table).

  (** The hint of the parameter, if it has one, else the one from outside. *)
  Inductive prefers : option hint -> option hint -> option hint -> Prop :=
  | P_own h outer : prefers (Some h) outer (Some h)
  | P_outer outer : prefers None outer outer.

  (** The value [leaf] of parameter [q] is shown in the value [a] of parameter [p] and the hint that reaches it from
      outside is [h], where that for [a] is [outer].  A single value hands on [:a] even if it has a hint of its own; lists, and
      values written by hand, do not.  The elements of a list shown as text, because of [:a], are not shown. *)
  Inductive under : option hint -> arg -> parameter -> option hint -> arg -> parameter -> Prop :=
  | U_here outer a p : under outer a p outer a p
  | U_ascii f frags args p q a leaf lp h :
      parse f ForwardsCompatible = Ok frags -> In (FParam q) frags -> nth_error args (Z.to_nat (p_index q)) = Some a ->
      under (Some HAscii) a q h leaf lp -> under (Some HAscii) (AFormat f args) p h leaf lp
  | U_value outer f frags args p q a next leaf lp h :
      outer <> Some HAscii -> prefers (p_hint p) outer next ->
      parse f ForwardsCompatible = Ok frags -> In (FParam q) frags -> nth_error args (Z.to_nat (p_index q)) = Some a ->
      under next a q h leaf lp -> under outer (AFormat f args) p h leaf lp
  | U_list outer es f frags args p q a next leaf lp h :
      prefers (p_hint p) outer next -> (next = Some HAscii -> forall e, In e es -> fst e <> lit "{=u8}") ->
      In (f, args) es -> parse f ForwardsCompatible = Ok frags -> In (FParam q) frags -> nth_error args (Z.to_nat (p_index q)) = Some a ->
      under next a q h leaf lp -> under outer (AFormatSlice es) p h leaf lp
  | U_parts outer args a p next leaf lp h :
      prefers (p_hint p) outer next -> In a args -> under next a (MkParameter 0 TFormat None) h leaf lp ->
      under outer (AFormatSequence args) p h leaf lp.

  Lemma prefers_or : forall own outer next, prefers own outer next <-> next = or_hint own outer.
  Proof. intros own outer next. split; [intros []; reflexivity|]. intros ->. destruct own; constructor. Qed.

  Lemma ascii_iff : forall h, is_ascii_hint h = true <-> h = Some HAscii.
  Proof. intros [[]|]; cbn; split; congruence. Qed.

  Theorem hints_everywhere : forall outer a p h leaf lp, under outer a p h leaf lp -> forall s, show_arg X tbl a p outer = Some s ->
    exists s', show_arg X tbl leaf lp h = Some s' /\ part s' s.
  Proof.
    induction 1 as [outer a p|f frags args p q a leaf lp h E I0 N _ IH|outer f frags args p q a next leaf lp h HO Pr E I0 N _ IH
      |outer es f frags args p q a next leaf lp h Pr NB IE E I0 N _ IH|outer args a p next leaf lp h Pr I0 _ IH]; intros s S0.
    - exists s. split; [exact S0|apply part_refl].
    - cbn [show_arg] in S0. cbv zeta in S0. change (is_ascii_hint (Some HAscii)) with true in S0. cbn iota in S0.
      destruct (format_part X tbl _ _ _ _ _ _ _ E I0 N S0) as (s1 & S1 & P1). destruct (IH s1 S1) as (s' & S' & P').
      exists s'. split; [exact S'|]. eapply part_trans; eauto.
    - apply prefers_or in Pr. subst next. cbn [show_arg] in S0. cbv zeta in S0.
      assert (A : is_ascii_hint outer = false) by (destruct (is_ascii_hint outer) eqn:A; [apply ascii_iff in A; contradiction|reflexivity]). rewrite A in S0.
      destruct (format_part X tbl _ _ _ _ _ _ _ E I0 N S0) as (s1 & S1 & P1). destruct (IH s1 S1) as (s' & S' & P').
      exists s'. split; [exact S'|]. eapply part_trans; eauto.
    - apply prefers_or in Pr. subst next. cbn [show_arg] in S0. cbv zeta in S0.
      assert (A : is_ascii_hint (or_hint (p_hint p) outer) && existsb (fun e => beq (fst e) (lit "{=u8}")) es = false).
      { destruct (is_ascii_hint (or_hint (p_hint p) outer)) eqn:A; [|reflexivity]. apply ascii_iff in A. specialize (NB A). cbn [andb].
        destruct (existsb (fun e => beq (fst e) (lit "{=u8}")) es) eqn:B; [|reflexivity]. apply existsb_exists in B as (e & J & B). apply beq_true in B. now destruct (NB e J). }
      rewrite A in S0. destruct (join_texts _) as [r|] eqn:J; [|discriminate]. injection S0 as <-.
      apply (join_part _ (show_format f (map (show_arg X tbl) args) (or_hint (p_hint p) outer))) in J.
      2:{ apply in_map_iff. exists (f, args). auto. }
      destruct J as (r1 & J & P0).
      destruct (format_part X tbl _ _ _ _ _ _ _ E I0 N J) as (s1 & S1 & P1). destruct (IH s1 S1) as (s' & S' & P').
      exists s'. split; [exact S'|]. eapply part_trans; [exact P'|]. eapply part_trans; [exact P1|].
      eapply part_trans; [exact P0|]. exists (lit "["), (lit "]"). reflexivity.
    - apply prefers_or in Pr. subst next. cbn [show_arg] in S0. cbv zeta in S0.
      apply (concat_part (map (fun a' => show_format (lit "{=?}") [show_arg X tbl a'] (or_hint (p_hint p) outer)) args)
        (show_format (lit "{=?}") [show_arg X tbl a] (or_hint (p_hint p) outer))) in S0.
      2:{ apply in_map_iff. exists a. auto. }
      destruct S0 as (s1 & S1 & P1). unfold show_format in S1. rewrite sequence_string in S1.
      cbn [map show_fragment display_parameter p_index nth_error Z.to_nat concat_text] in S1.
      destruct (show_arg X tbl a display_parameter (or_hint (p_hint p) outer)) as [s2|] eqn:S2; [|discriminate].
      injection S1 as <-. rewrite app_nil_r in P1. destruct (IH s2 S2) as (s' & S' & P').
      exists s'. split; [exact S'|]. eapply part_trans; eauto.
  Qed.

  Lemma element_bytes_iff : forall es bs, element_bytes es = Some bs <-> Forall2 (fun (e : bytes * list arg) b => snd e = [AUxx b] /\ 0 <= b < 256) es bs.
  Proof.
    induction es as [|[f args] es IH]; intros bs; cbn [element_bytes].
    - split; [intros H; injection H as <-; constructor|]. intros H. now inversion H.
    - split.
      + intros H. destruct args as [|a [|? ?]]; try discriminate; destruct a as [| | |v| | | | | | | | |]; try discriminate.
        destruct ((0 <=? v) && (v <? 256)) eqn:V; [|discriminate]. destruct (element_bytes es) as [r|] eqn:R; [|discriminate]. injection H as <-.
        constructor; [cbn; split; [reflexivity|lia]|now apply IH].
      + intros H. inversion H as [|? b ? r [E V] F]. subst. cbn [snd] in E. subst args. replace ((0 <=? b) && (b <? 256)) with true by lia.
        apply IH in F. now rewrite F.
  Qed.

  (** A list with an element [{=u8}] under [:a] is shown as a text, if all its elements are bytes. *)
  Theorem list_as_text : forall es p outer s, prefers (p_hint p) outer (Some HAscii) -> (exists e, In e es /\ fst e = lit "{=u8}") ->
    (show_arg X tbl (AFormatSlice es) p outer = Some s <->
     exists bs, Forall2 (fun (e : bytes * list arg) b => snd e = [AUxx b] /\ 0 <= b < 256) es bs /\ s = format_bytes X tbl bs (Some HAscii)).
  Proof.
    intros es p outer s Pr (e & J & E). apply prefers_or in Pr. cbn [show_arg]. cbv zeta. rewrite <- Pr. change (is_ascii_hint (Some HAscii)) with true. cbn [andb].
    assert (B : existsb (fun e => beq (fst e) (lit "{=u8}")) es = true) by (apply existsb_exists; exists e; split; [exact J|rewrite E; apply beq_refl]). rewrite B.
    destruct (element_bytes es) as [bs|] eqn:R; split.
    - intros H. injection H as <-. exists bs. split; [now apply element_bytes_iff|reflexivity].
    - intros (bs' & F & ->). apply element_bytes_iff in F. congruence.
    - discriminate.
    - intros (bs & F & _). apply element_bytes_iff in F. congruence.
  Qed.
End Hints.
