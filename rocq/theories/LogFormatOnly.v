(** What an accepted log format consists of. *)
From Verif Require Import Base Utf8 ParserModel ParserProofs Numerals EnvFilterModel EnvFilterProofs LogFormatModel LogFormatSpec LogFormatProofs LogFormatAccept LogFormatShow LogFormatMain LogFormatText.

(** Styles are written once; a fill character and an alignment come with a width. *)
Definition one_format (f : log_format) : Prop :=
  match f_style f with Some l => l <> [] /\ NoDup l | None => True end /\
  match f_width f with Some w => w <= usize_max /\ f_pad f <> None | None => f_pad f = None /\ f_align f = None end.

Inductive made : segment -> Prop :=
| Made_text p : plain_text p -> made (MkSegment (MString p) no_format)
| Made_data m f : shows_data m -> one_format f -> made (MkSegment m f)
| Made_group l f : Forall made l -> (exists m g, In (MkSegment m g) l /\ shows_data m) -> one_format f -> made (MkSegment (MNested l) f).

Definition item_made (it : item) : Prop :=
  match it with IMeta m => shows_data m | INested s => made s | IWidth w _ _ => w <= usize_max | _ => True end.

Definition gathered_made (g : gathered) : Prop :=
  (forall m, g_meta g = Some m -> shows_data m) /\ (forall l, g_style g = Some l -> l <> [] /\ NoDup l) /\
  (forall w p a, g_width g = Some (w, p, a) -> w <= usize_max) /\ Forall made (opt_list (g_nested g)).

Lemma style_eqb_eq : forall a b, style_eqb a b = true <-> a = b.
Proof. intros [] []; cbn; split; congruence. Qed.

Lemma NoDup_snoc : forall A (l : list A) x, NoDup l -> ~ In x l -> NoDup (l ++ [x]).
Proof.
  induction l as [|y l IH]; intros x N H; cbn [app]; [constructor; [intros []|constructor]|]. inversion N; subst. constructor.
  - rewrite in_app_iff. intros [Q|[Q|[]]]; [auto|]. subst. apply H. now left.
  - apply IH; auto. intros Q. apply H. now right.
Qed.

Lemma gather_made : forall l g g', Forall item_made l -> gathered_made g -> gather l g = Some g' -> gathered_made g'.
Proof.
  induction l as [|it l IH]; intros [m c s w n] g' F G H; cbn [gather] in H; [injection H as <-; auto|]. inversion F; subst. destruct G as (G1 & G2 & G3 & G4).
  cbn [g_meta g_style g_width g_nested] in *. destruct it as [m'|w' p a|c'|s'|s'].
  - destruct m; [discriminate|]. eapply IH in H; eauto. split; cbn; [intros x E; injection E as <-; auto|auto].
  - destruct w; [discriminate|]. eapply IH in H; eauto. split; cbn; auto. split; auto. split; auto. intros x y z E. injection E as <- <- <-. auto.
  - destruct c; [discriminate|]. eapply IH in H; eauto. split; cbn; auto.
  - destruct (existsb _ _) eqn:E; [discriminate|]. eapply IH in H; eauto. split; cbn; auto. split; auto. intros x Q. injection Q as <-. split; [now destruct (opt_list s)|].
    apply NoDup_snoc.
    + destruct s as [l0|]; cbn [opt_list]; [apply G2; reflexivity|constructor].
    + intros Q. assert (existsb (style_eqb s') (opt_list s) = true) by (apply existsb_exists; exists s'; split; [auto|now apply style_eqb_eq]). congruence.
  - eapply IH in H; eauto. split; cbn; auto. split; auto. split; auto. apply Forall_app. auto.
Qed.

Lemma none_made : gathered_made gather_none.
Proof. repeat split; try discriminate. constructor. Qed.

Lemma make_format : forall m g, gathered_made g -> exists f, make_segment m g = MkSegment m f /\ one_format f.
Proof.
  intros m [gm gc gs gw gn] (G1 & G2 & G3 & G4). unfold make_segment. cbn [g_width g_color g_style] in *. eexists. split; [reflexivity|].
  destruct gw as [[[w p] a]|]; unfold one_format; cbn [f_style f_width f_pad f_align].
  - split; [destruct gs; auto|]. split; [eapply G3; eauto|discriminate].
  - split; [destruct gs; auto|]. auto.
Qed.

Lemma build_made : forall nest l s, Forall item_made l -> build nest l = Some s -> made s.
Proof.
  intros nest l s F H. unfold build in H. destruct (gather l gather_none) as [g|] eqn:E; [|discriminate]. pose proof (gather_made _ _ _ F none_made E) as G. pose proof G as (G1 & G2 & G3 & G4).
  destruct nest.
  - destruct (g_nested g) as [segs|] eqn:N; [|discriminate]. destruct (existsb _ _) eqn:Q; [|discriminate]. injection H as <-. destruct (make_format (MNested segs) g G) as (f & -> & Of).
    apply Made_group; auto. apply existsb_exists in Q as ([m f'] & Q1 & Q2). exists m, f'. split; auto. destruct m; try exact Logic.I; discriminate.
  - destruct (g_meta g) as [m|]; destruct (g_nested g) as [[|x [|y z]]|]; try discriminate; injection H as <-.
    + destruct (make_format m g G) as (f & -> & Of). apply Made_data; auto.
    + inversion G4; auto.
Qed.

Lemma many0_forall : forall A (P : A -> Prop) p, (forall j q a, p j = Ok (q, a) -> P a) -> forall fuel i q l, many0 p fuel i = Ok (q, l) -> Forall P l.
Proof.
  intros A P p H. induction fuel as [|fuel IH]; intros i q l E; cbn [many0] in E; [discriminate|]. destruct (p i) as [[i1 a]|[]| |] eqn:Q; try discriminate.
  - destruct (length i1 =? length i)%nat; [discriminate|]. destruct (many0 p fuel i1) as [[r l']|e| |] eqn:M; cbn [bind] in E; try discriminate. injection E as <- <-. constructor; eauto.
  - injection E as <- <-. constructor.
Qed.

Section Only.
  Context (X : external).

  Lemma metadata_made : forall j q a, parse_metadata X j = Ok (q, a) -> item_made a.
  Proof.
    intros j q a H. unfold parse_metadata, on_word in H. destruct (word X j) as [w r]. destruct (meta_of w) eqn:E; [|discriminate]. injection H as <- <-. cbn [item_made].
    unfold meta_of in E. repeat match type of E with (if ?b then _ else _) = _ => destruct b; [injection E as <-; exact Logic.I|] end.
    destruct w; [discriminate|]. destruct (forallb _ _); [injection E as <-; exact Logic.I|discriminate].
  Qed.
  Lemma format_item_made : forall b j q a, parse_format X b j = Ok (q, a) -> item_made a.
  Proof.
    intros b j q a H. unfold parse_format in H.
    destruct (p_or (parse_color X j) (p_or (parse_style X j) (parse_width j))) as [[q' a']|e| |] eqn:E; try discriminate. injection H as <- <-.
    assert (K : forall A (f : bytes -> option A) g r z, on_word X f g j = Ok (r, z) -> exists w, z = g w).
    { intros A f g r z H. unfold on_word in H. destruct (word X j) as [w x]. destruct (f w); [|discriminate]. injection H as <- <-. eauto. }
    unfold p_or in E. destruct (parse_color X j) as [[r z]|[]| |] eqn:E1; try discriminate.
    - injection E as <- <-. destruct (K _ _ _ _ _ E1) as [w ->]. exact Logic.I.
    - destruct (parse_style X j) as [[r z]|[]| |] eqn:E2; try discriminate.
      + injection E as <- <-. destruct (K _ _ _ _ _ E2) as [w ->]. exact Logic.I.
      + unfold parse_width in E. destruct (match j with [] => _ | _ => _ end) as [al i1]. destruct (span is_digit i1) as [d r]. destruct d; [discriminate|]. destruct (parse_digits _ _) as [w|] eqn:D; [|discriminate].
        injection E as <- <-. cbn [item_made]. apply parse_digits_some in D. tauto.
  Qed.
  Lemma or_made : forall (a b : pres item), (forall q x, a = Ok (q, x) -> item_made x) -> (forall q x, b = Ok (q, x) -> item_made x) -> forall q x, p_or a b = Ok (q, x) -> item_made x.
  Proof. intros a b A B q x H. destruct a as [|[]| |]; cbn [p_or] in H; eauto. Qed.

  Lemma string_made : forall j q s, parse_string j = Ok (q, s) -> made s.
  Proof.
    intros j q s H. unfold parse_string in H. pose proof (span_app (fun b => negb ((b =? 123) || (b =? 37))) j) as S. destruct (span _ j) as [a b]. destruct S as (E & F & _).
    destruct a as [|x a]; [discriminate|]. injection H as -> <-. apply Made_text. split; [discriminate|].
    rewrite Forall_forall in F. split; intros Q; specialize (F _ Q); cbn in F; discriminate.
  Qed.

  Lemma nested_made : forall arg, (forall j q s, arg j = Ok (q, s) -> made s) -> forall j q a, parse_nested X arg j = Ok (q, a) -> item_made a.
  Proof.
    intros arg Ha j q a H. unfold parse_nested, nested_item, built in H. destruct (many0 _ _ _) as [[i l]|e| |] eqn:M; cbn [bind] in H; try discriminate.
    destruct (build true l) eqn:E; cbn [bind] in H; [|discriminate]. injection H as <- <-. cbn [item_made]. eapply build_made; [|exact E].
    eapply many0_forall; [|exact M]. intros j0. apply or_made; [|apply or_made].
    - intros q' x K. destruct (arg j0) as [[r s']|e| |] eqn:A; cbn [bind] in K; try discriminate. injection K as <- <-. cbn [item_made]. eauto.
    - intros q' x K. destruct (parse_string j0) as [[r s']|e| |] eqn:A; cbn [bind] in K; try discriminate. injection K as <- <-. cbn [item_made]. eapply string_made; eauto.
    - intros q' x K. destruct j0 as [|b r]; [discriminate|]. destruct (b =? 37); [|discriminate]. eapply format_item_made; eauto.
  Qed.

  Lemma segment_made : forall arg, (forall n j q s, arg n j = Ok (q, s) -> made s) -> forall nest i q s, parse_log_segment X arg nest i = Ok (q, s) -> made s.
  Proof.
    intros arg Ha nest i q s H. unfold parse_log_segment, built in H. destruct nest.
    - destruct (sep_list1 37 _ i) as [[r l]|e| |] eqn:E; cbn [bind] in H; try discriminate. destruct (build false l) eqn:B; [|discriminate]. injection H as <- <-.
      eapply build_made; [|exact B]. eapply sep_list1_forall; [|exact E]. intros j. apply or_made; [|apply or_made; [apply format_item_made|apply nested_made; eauto]].
      intros q' x K. unfold nested_log_segment in K. destruct (sep_list1 58 _ j) as [[r' l']|e| |] eqn:E'; cbn [bind] in K; try discriminate.
      destruct (build false l') eqn:B'; [|discriminate]. injection K as <- <-. cbn [item_made]. eapply build_made; [|exact B']. eapply sep_list1_forall; [|exact E'].
      intros j'. apply or_made; [apply metadata_made|apply format_item_made].
    - destruct (sep_list1 58 _ i) as [[r l]|e| |] eqn:E; cbn [bind] in H; try discriminate. destruct (build false l) eqn:B; [|discriminate]. injection H as <- <-.
      eapply build_made; [|exact B]. eapply sep_list1_forall; [|exact E]. intros j. apply or_made; [apply metadata_made|apply or_made; [apply format_item_made|apply nested_made; eauto]].
  Qed.

  Lemma argument_made : forall fuel nest i q s, parse_argument X fuel nest i = Ok (q, s) -> made s.
  Proof.
    induction fuel as [|fuel IH]; intros nest i q s H; cbn [parse_argument] in H; [discriminate|]. destruct i as [|b i]; [discriminate|]. destruct (b =? 123); [|discriminate].
    destruct (until_unbalanced 0 i) as [[rest content]|e| |] eqn:E; cbn [bind] in H; try discriminate. destruct rest as [|c rest]; [discriminate|]. destruct (Z.eq_dec c 125) as [->|Hc].
    2:{ exfalso. destruct c as [|c|c]; try discriminate. repeat (destruct c as [c|c|]; try discriminate). congruence. }
    destruct (parse_log_segment X (parse_argument X fuel) nest content) as [[x s']|e| |] eqn:P; cbn [bind] in H; try discriminate. injection H as -> ->.
    eapply segment_made; [|exact P]. intros n j q' s'. apply IH.
  Qed.

  Theorem format_made : forall text segs, parse_log_format X text = Ok segs -> Forall made segs.
  Proof.
    intros text segs H. unfold parse_log_format in H. destruct (many0 _ _ text) as [[q l']|e| |] eqn:M; try discriminate. destruct (existsb has_log l'); [|discriminate]. injection H as <-.
    eapply many0_forall; [|exact M]. intros j q' s K. unfold p_or in K. destruct (parse_argument X (S (length j)) false j) as [[r s']|[]| |] eqn:A; try discriminate.
    - injection K as <- <-. eapply argument_made; eauto.
    - eapply string_made; eauto.
  Qed.
End Only.
