(** The messages of the panicking macros and [dbg!]. *)
From Verif Require Import Base Utf8 ParserModel ParserProofs ParserMore FormatSpec RenderProofs PrepareProofs
  DecoderModel EncodeModel EncodeSpec DeriveProofs EncodeMain EncodeTop EncodeExamples DisplayModel TextSpec TextProofs
  TextMain MacroModel MacroSpec MacroParse.

Section Lines.
  Context (X : externals) (addr : bytes -> Z) (tbl : table).

  Notation line := (says_line X tbl None).
  Notation reads := (reads X addr tbl).

  (* ---------------------------------------------------------------- *)
  (** * Texts of composed fragments *)

  Lemma line_app : forall f1 f2 args s1 s2, line f1 args s1 -> line f2 args s2 -> line (f1 ++ f2) args (s1 ++ s2).
  Proof.
    induction f1 as [|[l|p] f1 IH]; intros f2 args s1 s2 H1 H2; inversion H1; subst; clear H1; cbn [app].
    - exact H2.
    - rewrite <- app_assoc. constructor. auto.
    - rewrite <- app_assoc. econstructor; eauto.
  Qed.

  Lemma line_app_inv : forall f1 f2 args s, line (f1 ++ f2) args s -> exists s1 s2, s = s1 ++ s2 /\ line f1 args s1 /\ line f2 args s2.
  Proof.
    induction f1 as [|[l|p] f1 IH]; intros f2 args s H; cbn [app] in H.
    - exists [], s. repeat split; auto. constructor.
    - inversion H as [|? ? ? ? s' H'|]; subst. apply IH in H' as (s1 & s2 & -> & A & B).
      exists (l ++ s1), s2. rewrite app_assoc. repeat split; auto. constructor. exact A.
    - inversion H as [| |? ? ? ? ? sa s' N G H']; subst. apply IH in H' as (s1 & s2 & -> & A & B).
      exists (sa ++ s1), s2. rewrite app_assoc. repeat split; auto. econstructor; eauto.
  Qed.

  Lemma line_more : forall fs args more s, line fs args s -> line fs (args ++ more) s.
  Proof.
    induction fs as [|[l|p] fs IH]; intros args more s H; inversion H; subst; econstructor; eauto.
    rewrite nth_error_app1; [assumption|]. apply nth_error_Some. congruence.
  Qed.

  Lemma line_before : forall a fs args s, line fs args s -> line (preceded a fs) args (a ++ s).
  Proof.
    intros a [|[l|p] fs] args s H; cbn [preceded].
    - constructor. exact H.
    - inversion H; subst. rewrite app_assoc. constructor. assumption.
    - constructor. exact H.
  Qed.

  Lemma line_after : forall fs b fs' args s, followed fs b fs' -> line fs args s -> line fs' args (s ++ b).
  Proof.
    assert (L : forall (b : bytes) args, line [FLit b] args b).
    { intros b args. rewrite <- (app_nil_r b) at 2. constructor. constructor. }
    intros fs b fs' args s [->|(fs0 & l & -> & ->)] H.
    - apply line_app; auto.
    - apply line_app_inv in H as (s1 & s2 & -> & A & B). inversion B as [|? ? ? ? s' B'|]; subst. inversion B'; subst.
      rewrite app_nil_r, <- app_assoc. apply line_app; auto.
  Qed.

  (* ---------------------------------------------------------------- *)
  (** * Statements *)

  Lemma arg_types_params : forall f1 f2 m tys frags1 frags2, arg_types f1 m tys -> parse f1 m = Ok frags1 ->
    parse f2 m = Ok frags2 -> frag_params frags2 = frag_params frags1 -> arg_types f2 m tys.
  Proof.
    intros f1 f2 m tys frags1 frags2 (fr & E & A & B) E1 E2 P. rewrite E1 in E. injection E as <-.
    exists frags2. rewrite frag_parameters_frag in *. rewrite P. auto.
  Qed.

  Lemma expected_count : forall f m tys frags, arg_types f m tys -> parse f m = Ok frags ->
    expected_arg_count frags = Z.of_nat (length tys).
  Proof.
    intros f m tys frags (fr & E & A & B) E1. rewrite E1 in E. injection E as <-. rewrite frag_parameters_frag in *.
    assert (U : forall n, 0 <= n -> (forall p, In p (frag_params frags) -> p_index p < n) -> expected_arg_count frags <= n).
    { clear. intros n Hn. unfold expected_arg_count. induction frags as [|[l|p] fs IH]; intros H; cbn [fold_right frag_params] in *; [lia|auto|].
      assert (p_index p < n) by (apply H; cbn; auto). specialize (IH (fun q Hq => H q (or_intror Hq))). lia. }
    assert (L : forall p, In p (frag_params frags) -> p_index p + 1 <= expected_arg_count frags).
    { clear. unfold expected_arg_count. induction frags as [|[l|q] fs IH]; intros p H; cbn [fold_right frag_params In] in *; [contradiction|auto|].
      destruct H as [->|H]; [lia|]. apply IH in H. lia. }
    assert (Z0 : 0 <= expected_arg_count frags).
    { clear. unfold expected_arg_count. induction frags as [|[l|q] fs IH]; cbn [fold_right]; lia. }
    apply Z.le_antisymm; [apply U; [lia|exact A]|].
    destruct (Nat.eq_dec (length tys) 0) as [->|N]; [exact Z0|].
    destruct (nth_error tys (length tys - 1)) as [t|] eqn:Et; [|apply nth_error_None in Et; lia].
    specialize (B _ _ Et). destruct B as [(_ & p & Hp & Ei & _)|(lo & hi & _ & (p & hi' & Hp & Ei & _) & _)];
      apply L in Hp; lia.
  Qed.

  Lemma reads_compiles : forall enabled l f es en s, reads f (values en es) s ->
    exists log, expand_parsed enabled l (MkLogArgs f es) = Some log /\
      forall en, log en = if enabled l then [(l, f, values en es)] else [].
  Proof.
    intros enabled l f es en s (frags & tys & a & E & A & M & _). unfold expand_parsed. cbn [la_format la_exprs].
    rewrite E, (expected_count _ _ _ _ A E).
    pose proof (means_args_length addr tbl _ _ _ M) as L. unfold values in L. rewrite map_length in L.
    unfold expr in *. rewrite L, Z.eqb_refl. eexists. split; [reflexivity|]. intros en'. reflexivity.
  Qed.

  (** A message between texts without braces. *)
  Lemma reads_between : forall f args s a b, reads f args s -> no_braces a -> a <> [] -> no_braces b -> b <> [] ->
    reads (a ++ f ++ b) args (a ++ s ++ b).
  Proof.
    intros f args s a b (frags & tys & ar & E & A & M & S) Ha An Hb Bn.
    destruct (parse_lexes _ _ _ E) as (n & Lx & C).
    destruct (lexes_after _ _ _ _ _ Lx Hb Bn) as (fs' & Lx' & F).
    pose proof (lexes_before _ _ _ _ _ Lx' Ha An) as Lx2.
    assert (P : frag_params (preceded a fs') = frag_params frags) by (rewrite preceded_params; eapply followed_params; eauto).
    assert (E2 : parse (a ++ f ++ b) Strict = Ok (preceded a fs')).
    { eapply lexes_parse; eauto. eapply checks_params; [symmetry; exact P|exact C]. }
    exists (preceded a fs'), tys, ar. split; [exact E2|]. split; [eapply arg_types_params; eauto|]. split; [exact M|].
    apply line_before. eapply line_after; eauto.
  Qed.

  (** A text. *)
  Lemma reads_text : forall t, reads (escape t) [] t.
  Proof.
    intros t. exists (match t with [] => [] | _ => [FLit t] end), [], [].
    split; [apply parse_escape|]. split.
    - eexists. split; [apply parse_escape|]. split.
      + intros p H. rewrite frag_parameters_frag in H. destruct t; destruct H.
      + intros [|i] x H; discriminate.
    - split; [constructor|]. destruct t as [|c t]; [constructor|]. rewrite <- (app_nil_r (c :: t)) at 2. repeat constructor.
  Qed.

  (* ---------------------------------------------------------------- *)
  (** * Parameters added after a message *)

  (** Like [reads], for strings whose parameters have no index. *)
  Definition begins (f : bytes) (args : list aval) (s : bytes) : Prop :=
    exists frags n a, lexes Strict f frags n /\ numbered frags n /\
      means_args addr tbl (map p_ty (frag_params frags)) args a /\ line frags args s.

  Lemma numbered_nth : forall frags n i p, numbered frags n -> nth_error (frag_params frags) i = Some p -> p_index p = Z.of_nat i.
  Proof.
    intros frags n i p [_ N] H. assert (i < length (frag_params frags))%nat by (apply nth_error_Some; congruence).
    pose proof (map_nth_error p_index _ _ H) as J. rewrite N in J.
    rewrite (map_nth_error Z.of_nat i (seq 0 (length (frag_params frags))) (d := i)) in J; [congruence|].
    rewrite (nth_error_nth' _ 0%nat) by (rewrite seq_length; auto). rewrite seq_nth; auto.
  Qed.

  Lemma numbered_types : forall f frags n, parse f Strict = Ok frags -> numbered frags n ->
    arg_types f Strict (map p_ty (frag_params frags)).
  Proof.
    intros f frags n E N. exists frags. split; [exact E|]. rewrite frag_parameters_frag, map_length. split.
    - intros p Hp. apply In_nth_error in Hp as (i & Hi). rewrite (numbered_nth _ _ _ _ N Hi).
      assert (i < length (frag_params frags))%nat by (apply nth_error_Some; congruence). lia.
    - intros i t Ht. apply nth_error_map_inv in Ht as (p & Hp & <-). pose proof (numbered_nth _ _ _ _ N Hp) as Ei.
      assert (U : forall q, In q (frag_params frags) -> p_index q = Z.of_nat i -> q = p).
      { intros q Hq Eq. apply In_nth_error in Hq as (j & Hj). pose proof (numbered_nth _ _ _ _ N Hj) as Ej.
        assert (j = i) by lia. subst j. congruence. }
      assert (Ip : In p (frag_params frags)) by (eapply nth_error_In; eauto).
      destruct (is_bitfield (p_ty p)) eqn:B; [right|left; split; eauto].
      destruct (p_ty p) as [lo hi| | | | | | | | |len| | | | | | | | |len] eqn:Et; try discriminate B.
      exists lo, hi. split; [reflexivity|]. split; [eauto|]. split; [eauto|].
      intros q lo' hi' Hq Eq Eb. apply U in Hq; [|exact Eq]. subst q. rewrite Et in Eb. injection Eb as <- <-. lia.
  Qed.

  Lemma reads_begins : forall f args s, reads f args s -> no_index f -> begins f args s.
  Proof.
    intros f args s (frags & tys & a & E & A & M & L) NI. destruct (parse_lexes _ _ _ E) as (n & Lx & _).
    pose proof (lexes_numbered _ _ _ _ NI Lx) as N. exists frags, n, a. repeat split; auto; try apply N.
    rewrite (arg_types_unique _ _ _ _ (numbered_types _ _ _ E N) A). exact M.
  Qed.

  Lemma begins_reads : forall f args s, begins f args s -> Z.of_nat (length args) < usize_max -> reads f args s.
  Proof.
    intros f args s (frags & n & a & Lx & N & M & L) U.
    assert (E : parse f Strict = Ok frags).
    { eapply lexes_parse; eauto. eapply numbered_checks; eauto. pose proof (means_args_length addr tbl _ _ _ M) as Q.
      rewrite map_length in Q. destruct N as [-> _]. lia. }
    exists frags, (map p_ty (frag_params frags)), a. split; [exact E|]. split; [eapply numbered_types; eauto|]. auto.
  Qed.

  Lemma begins_after : forall f args s b, begins f args s -> no_braces b -> b <> [] -> begins (f ++ b) args (s ++ b).
  Proof.
    intros f args s b (frags & n & a & Lx & N & M & L) B Bn. destruct (lexes_after _ _ _ _ _ Lx B Bn) as (fs' & Lx' & F).
    exists fs', n, a. unfold numbered. rewrite (followed_params _ _ _ F). repeat split; auto; try apply N.
    eapply line_after; eauto.
  Qed.

  Lemma begins_before : forall f args s b, begins f args s -> no_braces b -> b <> [] -> begins (b ++ f) args (b ++ s).
  Proof.
    intros f args s b (frags & n & a & Lx & N & M & L) B Bn. exists (preceded b frags), n, a.
    unfold numbered. rewrite preceded_params. repeat split; auto; try apply N.
    - apply lexes_before; auto.
    - apply line_before; auto.
  Qed.

  Lemma means_args_snoc : forall tys args a x v y, means_args addr tbl tys args a -> means_arg addr tbl x v y ->
    means_args addr tbl (tys ++ [x]) (args ++ [v]) (a ++ [y]).
  Proof.
    induction tys as [|t tys IH]; intros args a x v y M G; inversion M; subst; cbn [app].
    - constructor; [exact G|constructor].
    - constructor; auto.
  Qed.

  Lemma begins_arg : forall f args s body ty h v y sv, begins f args s -> no_braces body ->
    parse_param body Strict = Ok (Param None ty h) -> means_arg addr tbl ty v y ->
    (forall n, says_arg X tbl (MkParameter n ty h) None v sv) ->
    begins (f ++ 123 :: body ++ [125]) (args ++ [v]) (s ++ sv).
  Proof.
    intros f args s body ty h v y sv (frags & n & a & Lx & N & M & L) B Q Mv Sv.
    exists (frags ++ [FParam (MkParameter n ty h)]), (n + 1), (a ++ [y]).
    pose proof (means_args_length addr tbl _ _ _ M) as Len. rewrite map_length in Len.
    split; [apply lexes_param; auto|]. destruct N as [-> N]. split; [|split].
    - unfold numbered. rewrite frag_params_app, map_app, app_length. cbn [frag_params length map p_index].
      split; [lia|]. rewrite seq_app, map_app, N. reflexivity.
    - rewrite frag_params_app, map_app. cbn [frag_params map p_ty]. apply means_args_snoc; [exact M|exact Mv].
    - apply line_app; [apply line_more; exact L|]. rewrite <- (app_nil_r sv). eapply TL_param; [| |constructor].
      + cbn [p_index]. rewrite Nat2Z.id, <- Len. rewrite nth_error_app2, Nat.sub_diag by lia. reflexivity.
      + apply Sv.
  Qed.

  Lemma begins_param : forall f args s body h t v sv, begins f args s -> no_braces body ->
    parse_param body Strict = Ok (Param None TFormat h) -> printable X addr tbl h t v sv ->
    begins (f ++ 123 :: body ++ [125]) (args ++ [AvFmt t v]) (s ++ sv).
  Proof.
    intros f args s body h t v sv H B Q (Lk & (g & b & Mv) & Sv).
    eapply begins_arg; [exact H|exact B|exact Q|constructor; eauto|].
    intros n. apply TG_format; [reflexivity|]. cbn [p_hint]. destruct h; exact Sv.
  Qed.

  Lemma begins_text : forall t, begins (escape t) [] t.
  Proof.
    intros t. destruct (parse_lexes _ _ _ (parse_escape Strict t)) as (n & Lx & _).
    exists (match t with [] => [] | _ => [FLit t] end), 0, [].
    assert (N : n = 0).
    { destruct Lx as (fs0 & e & H & _). pose proof (scan_escape Strict (escape t) t [] 0 ([], 0%nat, 0)) as K.
      rewrite app_nil_r in K. rewrite K in H. cbn [scan] in H. congruence. }
    subst n. split; [exact Lx|]. destruct t as [|c t]; (split; [split; reflexivity|]); (split; [constructor|]).
    - constructor.
    - rewrite <- (app_nil_r (c :: t)) at 2. repeat constructor.
  Qed.

  (* ---------------------------------------------------------------- *)
  (** * What is printed *)

  Lemma reads_shown : forall f args s, reads f args s ->
    forall index level rest, 0 <= index < 65536 -> get_with_level tbl index = Some (level, f) -> t_timestamp tbl = None ->
    exists fr n, decode tbl (encode_frame addr index None [] f args ++ rest) = Ok (fr, n) /\
      f_level fr = level /\ display_message X tbl fr = Some s.
  Proof.
    intros f args s (frags & tys & a & E & A & M & S) index level rest I G T.
    set (fr := MkFrame level index None [] f a).
    assert (F : frame_means addr tbl index [] args fr).
    { split; [exact I|]. split; [reflexivity|]. split; [exact G|]. rewrite T. split; [|split; reflexivity].
      exists tys. split; [exact A|exact M]. }
    destruct (message_text X addr tbl index [] args fr rest F) as (frags' & E' & D & W).
    cbv zeta in D. rewrite T in D. cbn [option_map f_format fr] in D, E'. rewrite E in E'. injection E' as <-.
    exists fr, (length (encode_frame addr index None [] f args)). split; [exact D|]. split; [reflexivity|]. apply W. exact S.
  Qed.

  Lemma reads_unique : forall f args s1 s2, reads f args s1 -> reads f args s2 -> s1 = s2.
  Proof.
    intros f args s1 s2 (frags & tys & a & E & A & M & S1) (frags' & _ & _ & E' & _ & _ & S2).
    rewrite E in E'. injection E' as <-.
    apply (line_shown X tbl f Strict tys frags args a None s1 A E) in S1; [|apply (values_shown X addr tbl); exact M].
    apply (line_shown X tbl f Strict tys frags args a None s2 A E) in S2; [|apply (values_shown X addr tbl); exact M].
    congruence.
  Qed.

  (* ---------------------------------------------------------------- *)
  (** * The macros *)
  Context (enabled : level -> bool).
  Notation stops := (stops X addr tbl enabled).

  Lemma escaped_escape : forall s, escaped_expr_string s = escape s.
  Proof.
    unfold escaped_expr_string. induction s as [|c s IH]; [reflexivity|]. cbn [replace_char escape].
    destruct (Z.eqb_spec c 123) as [->|].
    - cbn [replace_char]. change (123 =? 125) with false. cbn iota. rewrite IH. reflexivity.
    - cbn [replace_char]. rewrite IH. destruct (Z.eqb_spec c 125) as [->|]; reflexivity.
  Qed.

  Lemma escape_app : forall a b, escape (a ++ b) = escape a ++ escape b.
  Proof.
    induction a as [|c a IH]; intros b; [reflexivity|]. cbn [app escape]. rewrite IH.
    destruct (c =? 123); [reflexivity|]. destruct (c =? 125); reflexivity.
  Qed.

  Lemma escape_plain : forall a, no_braces a -> escape a = a.
  Proof.
    induction a as [|c a IH]; intros [H1 H2]; [reflexivity|]. cbn [escape].
    destruct (Z.eqb_spec c 123); [exfalso; apply H1; cbn; auto|]. destruct (Z.eqb_spec c 125); [exfalso; apply H2; cbn; auto|].
    rewrite IH; [reflexivity|]. split; intro; [apply H1|apply H2]; cbn; auto.
  Qed.

  Ltac nb := split; vm_compute; intuition discriminate.

  Lemma accepted_compiles : forall l f1 a b args, accepted (MkLogArgs f1 args) -> no_braces a -> a <> [] -> no_braces b -> b <> [] ->
    exists log, expand_parsed enabled l (MkLogArgs (a ++ f1 ++ b) args) = Some log.
  Proof.
    intros l f1 a b args (frags & E & C) Ha An Hb Bn. cbn [la_format la_exprs] in *.
    destruct (parse_lexes _ _ _ E) as (n & Lx & Ck).
    destruct (lexes_after _ _ _ _ _ Lx Hb Bn) as (fs' & Lx' & F).
    pose proof (lexes_before _ _ _ _ _ Lx' Ha An) as Lx2.
    assert (P : frag_params (preceded a fs') = frag_params frags) by (rewrite preceded_params; eapply followed_params; eauto).
    assert (E2 : parse (a ++ f1 ++ b) Strict = Ok (preceded a fs')).
    { eapply lexes_parse; eauto. eapply checks_params; [symmetry; exact P|exact Ck]. }
    unfold expand_parsed. cbn [la_format la_exprs]. rewrite E2.
    pose proof (arg_types_exist _ _ _ E) as T. pose proof (expected_count _ _ _ _ T E) as X1.
    rewrite (expected_count _ _ _ _ (arg_types_params _ _ _ _ _ _ T E E2 P) E2). rewrite X1 in C.
    rewrite C, Z.eqb_refl. eauto.
  Qed.

  Lemma panic_like_message : forall z pre args en s, reads (la_format args) (values en (la_exprs args)) s ->
    no_braces pre -> pre <> [] ->
    stops (panic_like enabled z (fun f => pre ++ f ++ lit "'") (Some args)) en (pre ++ s ++ lit "'").
  Proof.
    intros z pre [f es] en s R P Pn. cbn [la_format la_exprs] in *.
    assert (Q : reads (pre ++ f ++ lit "'") (values en es) (pre ++ s ++ lit "'")) by (apply reads_between; auto; [nb|discriminate]).
    destruct (reads_compiles enabled LError _ es en _ Q) as (log & E & L).
    exists (fun en => (log en, None)), (pre ++ f ++ lit "'"), (values en es).
    split; [|split; [exact Q|rewrite L; reflexivity]].
    unfold panic_like. cbn [la_format la_exprs]. rewrite E. reflexivity.
  Qed.

  Lemma panic_like_default : forall z tr en, no_braces z -> stops (panic_like enabled z tr None) en z.
  Proof.
    intros z tr en Z0. assert (Q : reads z (values en []) z).
    { pose proof (reads_text z) as R. rewrite escape_plain in R by auto. exact R. }
    destruct (reads_compiles enabled LError _ [] en _ Q) as (log & E & L).
    exists (fun en => (log en, None)), z, []. split; [|split; [exact Q|rewrite L; reflexivity]].
    unfold panic_like. rewrite E. reflexivity.
  Qed.

  Theorem panics_stop : forall en,
    stops (panic_macro enabled None) en (quoted (lit "explicit panic")) /\
    stops (todo_macro enabled None) en (quoted (lit "not yet implemented")) /\
    stops (unreachable_macro enabled None) en (quoted (lit "internal error: entered unreachable code")) /\
    forall args s, reads (la_format args) (values en (la_exprs args)) s ->
    stops (panic_macro enabled (Some args)) en (quoted s) /\
    stops (todo_macro enabled (Some args)) en (quoted (lit "not yet implemented: " ++ s)) /\
    stops (unreachable_macro enabled (Some args)) en (quoted (lit "internal error: entered unreachable code: " ++ s)).
  Proof.
    intros en. split; [apply panic_like_default; nb|]. split; [apply panic_like_default; nb|]. split; [apply panic_like_default; nb|].
    intros args s R. unfold quoted. split; [|split].
    - apply panic_like_message; [exact R|nb|discriminate].
    - pose proof (panic_like_message (lit "panicked at 'not yet implemented'") (lit "panicked at 'not yet implemented: ") args en s R
        ltac:(nb) ltac:(discriminate)) as H. rewrite <- app_assoc. exact H.
    - pose proof (panic_like_message (lit "panicked at 'internal error: entered unreachable code'") (lit "panicked at 'internal error: entered unreachable code: ") args en s R
        ltac:(nb) ltac:(discriminate)) as H. rewrite <- app_assoc. exact H.
  Qed.

  Lemma reads_accepted : forall f es en s, reads f (values en es) s -> accepted (MkLogArgs f es).
  Proof.
    intros f es en s (frags & tys & a & E & A & M & _). exists frags. split; [exact E|]. cbn [la_exprs].
    rewrite (expected_count _ _ _ _ A E). pose proof (means_args_length addr tbl _ _ _ M) as L. unfold values in L.
    rewrite map_length in L. unfold expr in *. lia.
  Qed.

  Theorem assert_stops : forall text cond en,
    (cond en = true -> passes (assert_macro enabled text cond None) en tt) /\
    (cond en = false -> stops (assert_macro enabled text cond None) en (quoted (lit "assertion failed: " ++ text))) /\
    forall args,
    (cond en = true -> accepted args -> passes (assert_macro enabled text cond (Some args)) en tt) /\
    (cond en = false -> forall s, reads (la_format args) (values en (la_exprs args)) s ->
      stops (assert_macro enabled text cond (Some args)) en (quoted s)).
  Proof.
    intros text cond en.
    assert (Q : reads (lit "panicked at 'assertion failed: " ++ escaped_expr_string text ++ lit "'") (values en [])
                  (quoted (lit "assertion failed: " ++ text))).
    { pose proof (reads_text (quoted (lit "assertion failed: " ++ text))) as R.
      unfold quoted in *. rewrite !escape_app in R. rewrite escaped_escape. cbn [values map].
      rewrite (escape_plain (lit "panicked at '")), (escape_plain (lit "assertion failed: ")), (escape_plain (lit "'")) in R by nb.
      rewrite <- app_assoc in R. exact R. }
    destruct (reads_compiles enabled LError _ [] en _ Q) as (log & E & L).
    split; [|split].
    - intros C. eexists. split; [unfold assert_macro; rewrite E; reflexivity|]. cbn beta. rewrite C. reflexivity.
    - intros C. do 3 eexists. split; [unfold assert_macro; rewrite E; reflexivity|]. split; [exact Q|]. cbn beta. rewrite C, L. reflexivity.
    - intros [f es]. cbn [la_format la_exprs]. split.
      + intros C A. destruct (accepted_compiles LError f (lit "panicked at '") (lit "'") es A ltac:(nb) ltac:(discriminate) ltac:(nb) ltac:(discriminate)) as (log' & E').
        eexists. split; [unfold assert_macro; cbn [la_format la_exprs]; rewrite E'; reflexivity|]. cbn beta. rewrite C. reflexivity.
      + intros C s R. assert (Q' : reads (lit "panicked at '" ++ f ++ lit "'") (values en es) (quoted s))
          by (apply reads_between; auto; [nb|discriminate|nb|discriminate]).
        destruct (reads_compiles enabled LError _ es en _ Q') as (log' & E' & L').
        do 3 eexists. split; [unfold assert_macro; cbn [la_format la_exprs]; rewrite E'; reflexivity|]. split; [exact Q'|].
        cbn beta. rewrite C, L'. reflexivity.
  Qed.

  (* ---------------------------------------------------------------- *)
  (** ** unwrap! *)

  Lemma values_independent : forall names es en en', independent names es ->
    (forall n, ~ In n names -> en' n = en n) -> values en' es = values en es.
  Proof.
    intros names es en en' I H. unfold values. apply map_ext_in. intros e He. apply (I en' en e He H).
  Qed.

  Lemma binds_other : forall en n v m, m <> n -> binds en n v m = en m.
  Proof. intros en n v m H. unfold binds. destruct (beq n m) eqn:E; [apply beq_true in E; congruence|reflexivity]. Qed.

  Lemma binds_same : forall en n v, binds en n v n = Some v.
  Proof. intros en n v. unfold binds. rewrite beq_refl. reflexivity. Qed.

  Lemma debug_param : parse_param (lit ":?") Strict = Ok (Param None TFormat (Some HDebug)).
  Proof. vm_compute. reflexivity. Qed.

  Lemma display_param : parse_param [] Strict = Ok (Param None TFormat None).
  Proof. vm_compute. reflexivity. Qed.

  Lemma none_error_printable : forall h, linked addr tbl none_error -> printable X addr tbl h none_error_ty (VList []) none_error.
  Proof.
    intros h L. assert (E : parse none_error ForwardsCompatible = Ok [FLit none_error]) by (vm_compute; reflexivity).
    split; [exact L|]. split.
    - exists none_error, []. apply M_comp.
      + eapply arg_types_check; [exact E|]. reflexivity.
      + vm_compute. intuition discriminate.
      + constructor.
    - eapply T_comp; [exact E|]. cbn [map2]. rewrite <- (app_nil_r none_error) at 2. repeat constructor.
  Qed.

  Lemma unwrap_default_reads : forall text t v se, printable X addr tbl (Some HDebug) t v se ->
    reads (lit "panicked at 'unwrap failed: " ++ escaped_expr_string text ++ lit "'" ++ [10] ++ lit "error: `{:?}`")
      [AvFmt t v] (unwrap_text text se).
  Proof.
    intros text t v se P.
    pose proof (begins_text (quoted (lit "unwrap failed: " ++ text) ++ [10] ++ lit "error: `")) as B.
    apply (begins_param _ _ _ (lit ":?") (Some HDebug) t v se) in B; [|nb|exact debug_param|exact P].
    apply (begins_after _ _ _ (lit "`")) in B; [|nb|discriminate].
    apply begins_reads in B; [|reflexivity].
    unfold quoted in B. rewrite !escape_app in B. rewrite escaped_escape.
    rewrite (escape_plain (lit "panicked at '")), (escape_plain (lit "unwrap failed: ")), (escape_plain (lit "'")),
      (escape_plain [10]), (escape_plain (lit "error: `")) in B by nb.
    unfold unwrap_text, quoted. rewrite <- ?app_assoc in *. exact B.
  Qed.

  Theorem unwrap_stops : forall A text (value : expr (unwrapped A)) en,
    (forall r, value en = UOk r \/ value en = USome r -> passes (unwrap_macro enabled text value None) en r) /\
    (forall t v se, value en = UErr t v -> printable X addr tbl (Some HDebug) t v se ->
      stops (unwrap_macro enabled text value None) en (unwrap_text text se)) /\
    (value en = UNone -> linked addr tbl none_error ->
      stops (unwrap_macro enabled text value None) en (unwrap_text text none_error)) /\
    forall args, independent [unwrap_err] (la_exprs args) ->
    (forall r, value en = UOk r \/ value en = USome r -> accepted args -> passes (unwrap_macro enabled text value (Some args)) en r) /\
    ((exists t v, value en = UErr t v) \/ value en = UNone ->
      forall s, reads (la_format args) (values en (la_exprs args)) s ->
      stops (unwrap_macro enabled text value (Some args)) en (quoted s)).
  Proof.
    intros A text value en.
    set (f := lit "panicked at 'unwrap failed: " ++ escaped_expr_string text ++ lit "'" ++ [10] ++ lit "error: `{:?}`").
    assert (Ac : exists log, expand_parsed enabled LError (MkLogArgs f [bound unwrap_err]) = Some log /\
      forall en, log en = if enabled LError then [(LError, f, values en [bound unwrap_err])] else []).
    { assert (E : exists frags, parse f Strict = Ok frags /\ expected_arg_count frags = 1).
      { pose proof (parse_show_items Strict [ILit (quoted (lit "unwrap failed: " ++ text) ++ [10] ++ lit "error: `");
          IParam None None (Some HDebug); ILit (lit "`")]) as H.
        eexists. split; [|shelve]. etransitivity; [|apply H].
        - f_equal. unfold show_items. cbn [map show_item List.concat]. rewrite app_nil_r. unfold f, quoted.
          rewrite !escape_app, escaped_escape.
          rewrite (escape_plain (lit "panicked at '")), (escape_plain (lit "unwrap failed: ")), (escape_plain (lit "'")),
            (escape_plain [10]), (escape_plain (lit "error: `")), (escape_plain (lit "`")) by nb.
          rewrite <- !app_assoc. reflexivity.
        - cbn [items_ok item_ok]. repeat split; auto; discriminate.
        - exists 1. split; [lia|]. cbn [meaning frag_params]. split; [|split].
          + intros p [<-|[]]. cbn. lia.
          + intros i Hi. eexists. split; [left; reflexivity|]. cbn. lia.
          + intros p q [<-|[]] [<-|[]] _. auto.
        - intros p [<-|[]]. cbn. unfold usize_max. lia.
        Unshelve. reflexivity. }
      destruct E as (frags & E & C). unfold expand_parsed. cbn [la_format la_exprs]. rewrite E, C. cbn [length].
      change (1 =? Z.of_nat 1) with true. cbn iota. eexists. split; reflexivity. }
    destruct Ac as (log & E & L).
    assert (St : forall t v se, into_result (value en) = inr (t, v) -> printable X addr tbl (Some HDebug) t v se ->
      stops (unwrap_macro enabled text value None) en (unwrap_text text se)).
    { intros t v se V P. do 3 eexists. split; [unfold unwrap_macro; fold f; rewrite E; reflexivity|].
      split; [apply (unwrap_default_reads text t v se P)|]. cbn beta. rewrite V, L. unfold values. cbn [map].
      unfold bound. rewrite binds_same. reflexivity. }
    split; [|split; [|split]].
    - intros r V. eexists. split; [unfold unwrap_macro; fold f; rewrite E; reflexivity|]. cbn beta. destruct V as [-> | ->]; reflexivity.
    - intros t v se V P. apply (St t v se); [rewrite V; reflexivity|exact P].
    - intros V K. apply (St none_error_ty (VList []) none_error); [rewrite V; reflexivity|]. apply none_error_printable. exact K.
    - intros [g es]. cbn [la_format la_exprs]. intros Ind. split.
      + intros r V Ac. destruct (accepted_compiles LError g (lit "panicked at '") (lit "'") es Ac ltac:(nb) ltac:(discriminate) ltac:(nb) ltac:(discriminate)) as (log' & E').
        eexists. split; [unfold unwrap_macro; cbn [la_format la_exprs]; rewrite E'; reflexivity|]. cbn beta. destruct V as [-> | ->]; reflexivity.
      + intros V s R. assert (Q' : reads (lit "panicked at '" ++ g ++ lit "'") (values en es) (quoted s))
          by (apply reads_between; auto; [nb|discriminate|nb|discriminate]).
        destruct (reads_compiles enabled LError _ es en _ Q') as (log' & E' & L').
        do 3 eexists. split; [unfold unwrap_macro; cbn [la_format la_exprs]; rewrite E'; reflexivity|]. split; [exact Q'|].
        assert (Vs : forall w, values (binds en unwrap_err w) es = values en es).
        { intros w. apply (values_independent [unwrap_err]); [exact Ind|]. intros n Hn. apply binds_other. intros ->. apply Hn. cbn. auto. }
        cbn beta. destruct V as [(t & v & V)|V]; rewrite V; cbn [into_result]; rewrite L', Vs; reflexivity.
  Qed.

  (* ---------------------------------------------------------------- *)
  (** ** assert_eq! and assert_ne! *)

  Definition compared (en : scope) (tl tr : rty) (l r : rval) : scope :=
    binds (binds en left_val (AvFmt (RRef tl) l)) right_val (AvFmt (RRef tr) r).

  Lemma compared_names : forall en tl tr l r,
    bound left_val (compared en tl tr l r) = AvFmt (RRef tl) l /\ bound right_val (compared en tl tr l r) = AvFmt (RRef tr) r.
  Proof.
    intros en tl tr l r. unfold bound, compared. rewrite binds_same. rewrite binds_other, binds_same by (vm_compute; discriminate). auto.
  Qed.

  Lemma compared_other : forall en tl tr l r n, ~ In n [left_val; right_val] -> compared en tl tr l r n = en n.
  Proof.
    intros en tl tr l r n H. unfold compared. rewrite !binds_other; [reflexivity| |]; intros ->; apply H; cbn; auto.
  Qed.

  (** The composed message. *)
  Lemma comparison_begins : forall op args en tl tr l r sl sr (msg : option bytes),
    match args, msg with
    | Some a, Some s => begins (la_format a) (values (compared en tl tr l r) (la_exprs a)) s
    | None, None => True
    | _, _ => False
    end ->
    printable X addr tbl (Some HDebug) tl l sl -> printable X addr tbl (Some HDebug) tr r sr ->
    begins (la_format (binop_args op args)) (values (compared en tl tr l r) (la_exprs (binop_args op args)))
      (comparison_text op msg sl sr).
  Proof.
    intros op args en tl tr l r sl sr msg H Pl Pr.
    apply printable_ref in Pl. apply printable_ref in Pr.
    destruct (compared_names en tl tr l r) as [Nl Nr]. set (en' := compared en tl tr l r) in *.
    set (pre := match op with Eq => lit "panicked at 'assertion failed: `(left == right)`" | Ne => lit "panicked at 'assertion failed: `(left != right)`" end).
    set (mt := match msg with Some s => lit ": " ++ s | None => [] end).
    set (mf := match args with Some a => lit ": " ++ la_format a | None => [] end).
    set (es := match args with Some a => la_exprs a | None => [] end).
    assert (B : begins (pre ++ mf) (values en' es) (pre ++ mt)).
    { destruct args as [a|], msg as [s|]; try contradiction; unfold mf, mt, es.
      - apply begins_before; [|unfold pre; destruct op; nb|unfold pre; destruct op; discriminate].
        apply begins_before; [exact H|nb|discriminate].
      - rewrite app_nil_r. cbn [values map]. rewrite <- (escape_plain pre) at 1 by (unfold pre; destruct op; nb). apply begins_text. }
    assert (V : forall more, values en' (es ++ more) = values en' es ++ values en' more) by (intros; apply map_app).
    destruct op.
    - change (la_exprs (binop_args Eq args)) with (es ++ [bound left_val; bound right_val]).
      change (la_format (binop_args Eq args)) with (pre ++ mf ++ lit "'" ++ [10] ++ lit " left: `{:?}`" ++ [10] ++ lit "right: `{:?}`").
      change (comparison_text Eq msg sl sr) with (quoted (lit "assertion failed: `(left == right)`" ++ mt) ++ [10] ++
            lit " left: `" ++ sl ++ lit "`" ++ [10] ++ lit "right: `" ++ sr ++ lit "`").
      rewrite V. unfold values at 2. cbn [map]. rewrite Nl, Nr. clearbody mf mt es.
      apply (begins_after _ _ _ (lit "'" ++ [10] ++ lit " left: `")) in B; [|nb|discriminate].
      apply (begins_param _ _ _ (lit ":?") (Some HDebug) _ _ _) with (4 := Pl) in B; [|nb|exact debug_param].
      apply (begins_after _ _ _ (lit "`" ++ [10] ++ lit "right: `")) in B; [|nb|discriminate].
      apply (begins_param _ _ _ (lit ":?") (Some HDebug) _ _ _) with (4 := Pr) in B; [|nb|exact debug_param].
      apply (begins_after _ _ _ (lit "`")) in B; [|nb|discriminate].
      unfold quoted. rewrite <- ?app_assoc in *. exact B.
    - change (la_exprs (binop_args Ne args)) with (es ++ [bound left_val]).
      change (la_format (binop_args Ne args)) with (pre ++ mf ++ lit "'" ++ [10] ++ lit "left/right: `{:?}`").
      change (comparison_text Ne msg sl sr) with (quoted (lit "assertion failed: `(left != right)`" ++ mt) ++ [10] ++
            lit "left/right: `" ++ sl ++ lit "`").
      rewrite V. unfold values at 2. cbn [map]. rewrite Nl. clearbody mf mt es.
      apply (begins_after _ _ _ (lit "'" ++ [10] ++ lit "left/right: `")) in B; [|nb|discriminate].
      apply (begins_param _ _ _ (lit ":?") (Some HDebug) _ _ _) with (4 := Pl) in B; [|nb|exact debug_param].
      apply (begins_after _ _ _ (lit "`")) in B; [|nb|discriminate].
      unfold quoted. rewrite <- ?app_assoc in *. exact B.
  Qed.

  Definition added (op : binop) (n : Z) : list Z := match op with Eq => [n; n + 1] | Ne => [n] end.

  Lemma comparison_lexes : forall op args frags n,
    match args with Some a => lexes Strict (la_format a) frags n | None => frags = [] /\ n = 0 end ->
    exists fs, lexes Strict (la_format (binop_args op args)) fs (n + Z.of_nat (length (added op n))) /\
      frag_params fs = frag_params frags ++ map (fun i => MkParameter i TFormat (Some HDebug)) (added op n).
  Proof.
    intros op args frags n H.
    set (pre := match op with Eq => lit "panicked at 'assertion failed: `(left == right)`" | Ne => lit "panicked at 'assertion failed: `(left != right)`" end).
    set (mf := match args with Some a => lit ": " ++ la_format a | None => [] end).
    assert (B : exists fs, lexes Strict (pre ++ mf) fs n /\ frag_params fs = frag_params frags).
    { assert (Np : no_braces pre /\ pre <> []) by (unfold pre; destruct op; (split; [nb|discriminate])). destruct Np as [Np Nn].
      destruct args as [a|]; unfold mf.
      - exists (preceded pre (preceded (lit ": ") frags)). split; [|rewrite !preceded_params; reflexivity].
        apply lexes_before; auto. apply lexes_before; auto; [nb|discriminate].
      - destruct H as [-> ->]. exists [FLit pre]. split; [|reflexivity].
        rewrite app_nil_r. rewrite <- (app_nil_r pre) at 1. apply (lexes_before _ _ _ _ pre (lexes_empty Strict)); auto. }
    destruct B as (f0 & B & P0).
    destruct op; cbn [added length map].
    - change (la_format (binop_args Eq args)) with (pre ++ mf ++ lit "'" ++ [10] ++ lit " left: `{:?}`" ++ [10] ++ lit "right: `{:?}`").
      clearbody mf.
      destruct (lexes_after _ _ _ _ (lit "'" ++ [10] ++ lit " left: `") B ltac:(nb) ltac:(discriminate)) as (f1 & B1 & F1).
      pose proof (lexes_param _ _ _ _ (lit ":?") _ _ B1 ltac:(nb) debug_param) as B2.
      destruct (lexes_after _ _ _ _ (lit "`" ++ [10] ++ lit "right: `") B2 ltac:(nb) ltac:(discriminate)) as (f3 & B3 & F3).
      pose proof (lexes_param _ _ _ _ (lit ":?") _ _ B3 ltac:(nb) debug_param) as B4.
      destruct (lexes_after _ _ _ _ (lit "`") B4 ltac:(nb) ltac:(discriminate)) as (f5 & B5 & F5).
      exists f5. rewrite <- ?app_assoc in B5. replace (n + 1 + 1) with (n + Z.of_nat 2) in B5 by lia. split; [exact B5|].
      apply followed_params in F1, F3, F5. rewrite F5, frag_params_app, F3, frag_params_app, F1, P0. cbn [frag_params].
      rewrite <- app_assoc. reflexivity.
    - change (la_format (binop_args Ne args)) with (pre ++ mf ++ lit "'" ++ [10] ++ lit "left/right: `{:?}`").
      clearbody mf.
      destruct (lexes_after _ _ _ _ (lit "'" ++ [10] ++ lit "left/right: `") B ltac:(nb) ltac:(discriminate)) as (f1 & B1 & F1).
      pose proof (lexes_param _ _ _ _ (lit ":?") _ _ B1 ltac:(nb) debug_param) as B2.
      destruct (lexes_after _ _ _ _ (lit "`") B2 ltac:(nb) ltac:(discriminate)) as (f5 & B5 & F5).
      exists f5. rewrite <- ?app_assoc in B5. split; [exact B5|].
      apply followed_params in F1, F5. rewrite F5, frag_params_app, F1, P0. reflexivity.
  Qed.

  Lemma expected_app : forall fs1 ps fs2, frag_params fs2 = frag_params fs1 ++ ps ->
    expected_arg_count fs2 = Z.max (expected_arg_count fs1) (fold_right (fun p n => Z.max (p_index p + 1) n) 0 ps).
  Proof.
    assert (P : forall fs, expected_arg_count fs = fold_right (fun p n => Z.max (p_index p + 1) n) 0 (frag_params fs)).
    { unfold expected_arg_count. induction fs as [|[l|p] fs IH]; cbn [fold_right frag_params]; [reflexivity|exact IH|]. rewrite IH. reflexivity. }
    intros fs1 ps fs2 H. rewrite !P, H. clear.
    assert (N : 0 <= fold_right (fun p n => Z.max (p_index p + 1) n) 0 ps) by (induction ps; cbn [fold_right]; lia).
    induction (frag_params fs1) as [|p l IH]; cbn [fold_right app]; lia.
  Qed.

  Lemma numbered_count : forall fs n, numbered fs n -> expected_arg_count fs = n.
  Proof.
    intros fs n [-> N]. assert (G : forall ps k, map p_index ps = map Z.of_nat (seq k (length ps)) ->
      fold_right (fun p n => Z.max (p_index p + 1) n) 0 ps = if (length ps =? 0)%nat then 0 else Z.of_nat (k + length ps)).
    { induction ps as [|p ps IH]; intros k H; [reflexivity|]. cbn [map length seq] in H. injection H as H1 H2.
      cbn [fold_right length Nat.eqb]. rewrite (IH _ H2), H1. destruct (Nat.eqb_spec (length ps) 0); lia. }
    pose proof (expected_app [] (frag_params fs) fs eq_refl) as E. change (expected_arg_count []) with 0 in E.
    rewrite E, (G _ _ N). destruct (Nat.eqb_spec (length (frag_params fs)) 0); lia.
  Qed.

  Lemma comparison_compiles : forall op args, simple_message args ->
    exists log, expand_parsed enabled LError (binop_args op args) = Some log /\
      forall en, log en = if enabled LError then [(LError, la_format (binop_args op args), values en (la_exprs (binop_args op args)))] else [].
  Proof.
    intros op args H.
    assert (B : exists frags n, match args with Some a => lexes Strict (la_format a) frags n | None => frags = [] /\ n = 0 end /\
      numbered frags n /\ n < 2 ^ 32 /\ n = Z.of_nat (length (match args with Some a => la_exprs a | None => [] end))).
    { destruct args as [a|]; [|exists [], 0; repeat split; lia].
      destruct H as ((frags & E & C) & NI & L & _). destruct (parse_lexes _ _ _ E) as (n & Lx & _).
      pose proof (lexes_numbered _ _ _ _ NI Lx) as N. exists frags, n. split; [exact Lx|]. split; [exact N|].
      rewrite (numbered_count _ _ N) in C. split; lia. }
    destruct B as (frags & n & Lx & [En N] & U & L).
    destruct (comparison_lexes op args frags n Lx) as (fs & Lx' & P).
    assert (N' : numbered fs (n + Z.of_nat (length (added op n)))).
    { unfold numbered. rewrite P, app_length, !map_app, map_map, seq_app, map_app, N. cbn [p_index].
      rewrite map_length. split; [lia|]. f_equal. rewrite En. destruct op; cbn [added length map seq Nat.add]; repeat f_equal; lia. }
    assert (E : parse (la_format (binop_args op args)) Strict = Ok fs).
    { eapply lexes_parse; eauto. eapply numbered_checks; eauto. unfold usize_max. destruct op; cbn [added length]; lia. }
    unfold expand_parsed. rewrite E. rewrite (numbered_count _ _ N').
    assert (Q : (n + Z.of_nat (length (added op n)) =? Z.of_nat (length (la_exprs (binop_args op args)))) = true).
    { apply Z.eqb_eq. destruct op; cbn [binop_args la_exprs added]; rewrite app_length; cbn [length]; lia. }
    rewrite Q. eexists. split; reflexivity.
  Qed.

  Theorem comparison_stops : forall op tl tr left right eq args en, simple_message args ->
    let l := left en in let r := right en in
    let st := binop_macro enabled op tl tr left right eq args in
    (comparison_holds op (eq l r) = true -> passes st en tt) /\
    (comparison_holds op (eq l r) = false -> forall sl sr msg,
      printable X addr tbl (Some HDebug) tl l sl -> printable X addr tbl (Some HDebug) tr r sr ->
      match args, msg with
      | Some a, Some s => reads (la_format a) (values en (la_exprs a)) s
      | None, None => True
      | _, _ => False
      end -> stops st en (comparison_text op msg sl sr)).
  Proof.
    intros op tl tr left right eq args en H l r st.
    destruct (comparison_compiles op args H) as (log & E & L). split.
    - intros C. eexists. split; [unfold st, binop_macro; rewrite E; reflexivity|]. cbv beta zeta. fold l r.
      destruct op; cbn [comparison_holds] in C; [rewrite C; reflexivity|]. destruct (eq l r); [discriminate|reflexivity].
    - intros C sl sr msg Pl Pr M.
      assert (B : begins (la_format (binop_args op args)) (values (compared en tl tr l r) (la_exprs (binop_args op args))) (comparison_text op msg sl sr)).
      { apply comparison_begins; auto. destruct args as [a|], msg as [s|]; auto. destruct H as (_ & NI & _ & I).
        rewrite (values_independent _ _ en (compared en tl tr l r) I (compared_other en tl tr l r)).
        apply reads_begins; auto. }
      apply begins_reads in B.
      + do 3 eexists. split; [unfold st, binop_macro; rewrite E; reflexivity|]. split; [exact B|].
        cbv beta zeta. fold l r. fold (compared en tl tr l r). rewrite L.
        destruct op; cbn [comparison_holds] in C; destruct (eq l r); try discriminate; reflexivity.
      + unfold values. rewrite map_length. unfold usize_max. destruct args as [a|].
        * destruct H as (_ & _ & U & _). destruct op; cbn [binop_args la_exprs]; rewrite app_length; cbn [length]; lia.
        * destruct op; cbn [binop_args la_exprs app length]; lia.
  Qed.

  (** Messages in which every parameter has an index are rejected. *)
  Theorem comparison_indexed : forall op tl tr left right eq a, accepted a -> all_indexed (la_format a) -> la_exprs a <> [] ->
    binop_macro enabled op tl tr left right eq (Some a) = None.
  Proof.
    intros op tl tr left right eq a (frags & E & C) AI Ne. destruct (parse_lexes _ _ _ E) as (n & Lx & _).
    pose proof (lexes_explicit _ _ _ _ AI Lx) as ->.
    destruct (comparison_lexes op (Some a) frags 0 Lx) as (fs & Lx' & P).
    unfold binop_macro, expand_parsed.
    destruct (parse (la_format (binop_args op (Some a))) Strict) as [fs'| | |] eqn:E'; try reflexivity.
    destruct (parse_lexes _ _ _ E') as (n' & Lx2 & _). destruct (lexes_unique _ _ _ _ _ _ Lx' Lx2) as [<- _].
    rewrite (expected_app _ _ _ P), C.
    assert (L : (0 < length (la_exprs a))%nat) by (destruct (la_exprs a); [congruence|cbn; lia]).
    assert (Q : (Z.max (Z.of_nat (length (la_exprs a))) (fold_right (fun p n => Z.max (p_index p + 1) n) 0
      (map (fun i => MkParameter i TFormat (Some HDebug)) (added op 0))) =? Z.of_nat (length (la_exprs (binop_args op (Some a))))) = false).
    { apply Z.eqb_neq. destruct op; cbn [binop_args la_exprs added map fold_right p_index]; rewrite app_length; cbn [length]; lia. }
    rewrite Q. reflexivity.
  Qed.

  (* ---------------------------------------------------------------- *)
  (** ** dbg! *)

  Lemma dbg_reads : forall text t v s, printable X addr tbl None t v s ->
    reads (escaped_expr_string text ++ lit " = {}") [AvFmt t v] (text ++ lit " = " ++ s).
  Proof.
    intros text t v s P. pose proof (begins_text (text ++ lit " = ")) as B.
    apply (begins_param _ _ _ [] None t v s) in B; [|nb|exact display_param|exact P].
    apply begins_reads in B; [|reflexivity]. rewrite escape_app, (escape_plain (lit " = ")) in B by nb.
    rewrite escaped_escape. rewrite <- ?app_assoc in B. exact B.
  Qed.

  Lemma dbg_compiles : forall text, exists log,
    expand_parsed enabled LTrace (MkLogArgs (escaped_expr_string text ++ lit " = {}") [bound tmp]) = Some log /\
    forall en, log en = if enabled LTrace then [(LTrace, escaped_expr_string text ++ lit " = {}", values en [bound tmp])] else [].
  Proof.
    intros text.
    destruct (parse_lexes _ _ _ (parse_escape Strict (text ++ lit " = "))) as (n & Lx & _).
    assert (N : n = 0).
    { destruct Lx as (fs0 & e & H & _). pose proof (scan_escape Strict (escape (text ++ lit " = ")) (text ++ lit " = ") [] 0 ([], 0%nat, 0)) as K.
      rewrite app_nil_r in K. rewrite K in H. cbn [scan] in H. congruence. }
    subst n. apply (lexes_param _ _ _ _ [] TFormat None) in Lx; [|nb|exact display_param].
    match type of Lx with lexes _ _ ?f _ => assert (P : frag_params f = [MkParameter 0 TFormat None]) end.
    { rewrite frag_params_app. destruct (text ++ lit " = "); reflexivity. }
    rewrite escape_app, (escape_plain (lit " = ")), <- app_assoc, <- escaped_escape in Lx by nb.
    assert (E := lexes_parse _ _ _ _ Lx). unfold expand_parsed. cbn [la_format la_exprs].
    match type of Lx with lexes _ _ ?f _ => set (fs := f) in * end.
    assert (Nb : numbered fs (0 + 1)) by (unfold numbered; rewrite P; split; reflexivity).
    change (lit " = {}") with (lit " = " ++ 123 :: [] ++ [125]). rewrite E by (eapply numbered_checks; [exact Nb|unfold usize_max; lia]).
    rewrite (numbered_count _ _ Nb). cbn [length]. change (0 + 1 =? Z.of_nat 1) with true. cbn iota.
    eexists. split; reflexivity.
  Qed.

  Theorem dbg_logs : forall es en, exists run ls, dbg_macro enabled es = Some run /\
    run en = (ls, Some (map (fun x => snd x en) es)) /\
    (enabled LTrace = false -> ls = []) /\
    (enabled LTrace = true -> match es with [] => exists f, ls = [(LTrace, f, [])] /\ reads f [] [] | _ => debugged X addr tbl en es ls end).
  Proof.
    intros es en.
    assert (G : exists run ls, dbg_all enabled es = Some run /\ run en = (ls, Some (map (fun x => snd x en) es)) /\
      (enabled LTrace = false -> ls = []) /\ (enabled LTrace = true -> debugged X addr tbl en es ls)).
    { induction es as [|[[text t] e] es (run & ls & E & R & F & T)].
      - exists (fun _ => ([], Some [])), []. repeat split; auto. constructor.
      - destruct (dbg_compiles text) as (log & E1 & L1). cbn [dbg_all]. unfold dbg_one. rewrite E1, E.
        eexists. exists (log (binds en tmp (AvFmt t (e en))) ++ ls). split; [reflexivity|]. split; [|split].
        + cbn beta zeta. rewrite R. cbn [map snd]. reflexivity.
        + intros D. rewrite L1, D. cbn [app]. auto.
        + intros D. rewrite L1, D. cbn [app]. constructor; [|auto]. intros s P. unfold values. cbn [map]. unfold bound.
          rewrite binds_same. apply dbg_reads. exact P. }
    destruct es as [|x es]; [|exact G].
    assert (Q : reads [] (values en []) []) by (exact (reads_text [])).
    destruct (reads_compiles enabled LTrace _ [] en _ Q) as (log & E & L).
    exists (fun en => (log en, Some [])), (log en). cbn [dbg_macro]. rewrite E. split; [reflexivity|]. split; [reflexivity|].
    rewrite L. split; [intros ->; reflexivity|]. intros ->. eexists. split; [reflexivity|exact Q].
  Qed.
End Lines.

(** The [debug_] variants. *)
Theorem debug_stops : forall X addr tbl enabled st en,
  (forall s, stops X addr tbl enabled st en s -> stops X addr tbl enabled (debug_only true st) en s) /\
  (passes st en tt -> passes (debug_only true st) en tt) /\
  (st <> None -> passes (debug_only false st) en tt).
Proof.
  intros X addr tbl enabled st en. destruct st as [run|]; cbn [debug_only]; (split; [auto|split; [auto|]]); [intros _|congruence].
  unfold passes. eexists. split; reflexivity.
Qed.
