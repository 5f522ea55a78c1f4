(** Messages of [assert_eq!] and [assert_ne!]: exactly which ones compile, and what they say, indices or not. *)
From Verif Require ParserExamples.
From Verif Require Import Base Utf8 ParserModel ParserProofs ParserMore FormatSpec RenderProofs PrepareProofs
  DecoderModel EncodeModel EncodeSpec DeriveProofs EncodeMain EncodeTop EncodeExamples DisplayModel TextSpec TextProofs
  TextMain MacroModel MacroSpec MacroParse MacroProofs.

(** The number of parameters without an index. *)
Fixpoint unindexed (s : bytes) : Z :=
  match s with
  | [] => 0
  | c :: t =>
      if c =? 123 then
        match t with
        | d :: r => if d =? 123 then unindexed r else (if is_digit d then 0 else 1) + unindexed t
        | [] => 0
        end
      else unindexed t
  end.

Lemma scan_unindexed : forall m s k rest pos fs e n fs' e' n', (length rest <= k)%nat ->
  scan m s rest pos (fs, e, n) = Ok (fs', e', n') -> n' = n + unindexed rest.
Proof.
  intros m s. induction k as [|k IH]; intros rest pos fs e n fs' e' n' Lk H.
  - destruct rest; cbn [length] in *; [|lia]. cbn [scan unindexed] in *. injection H as _ _ <-. lia.
  - destruct rest as [|c rest1]; [cbn [scan unindexed] in *; injection H as _ _ <-; lia|]. cbn [length] in Lk. cbn [scan] in H. cbn [unindexed].
    destruct (Z.eqb_spec c 123) as [Ec|]; cbn [negb] in H; [|eapply IH; [|exact H]; lia].
    destruct rest1 as [|d rest2].
    { apply bind_ok in H as ([[fs1 e1] n1] & H1 & H2). apply at_param_inv in H1 as (len & p & fsl & _ & P2 & _). discriminate P2. }
    cbn [length] in Lk. destruct (d =? 123) eqn:Ed.
    { eapply IH; [|exact H]. lia. }
    apply bind_ok in H as ([[fs1 e1] n1] & H1 & H2). apply IH in H2; [|cbn [length]; lia]. rewrite H2.
    apply at_param_inv in H1 as (len & p & fsl & P1 & P2 & P3 & -> & -> & ->).
    destruct (is_digit d) eqn:D.
    + assert (P4 : pr_index p <> None).
      { destruct len as [|len].
        - cbn [position] in P2. destruct (Z.eqb_spec d 125) as [->|]; [discriminate|]. destruct (position _ rest2); discriminate.
        - cbn [firstn] in P3. eapply parse_param_explicit; eauto. }
      destruct (pr_index p); [lia|congruence].
    + assert (P4 : pr_index p = None).
      { apply (parse_param_implicit _ _ _) with (2 := P3). destruct len; [exact I|]. cbn [firstn]. exact D. }
      rewrite P4. lia.
Qed.

Lemma lexes_unindexed : forall m s fs n, lexes m s fs n -> n = unindexed s.
Proof.
  intros m s fs n (fs0 & e & H1 & _ & _). apply (scan_unindexed m s _ s 0%nat [] 0%nat 0 fs0 e n (le_n _)) in H1. lia.
Qed.

(** What the parser demands of parameters for arguments of the types [tys]. *)
Definition consistent (ps : list parameter) (tys : list ty) : Prop :=
  (forall p, In p ps -> 0 <= p_index p < Z.of_nat (length tys)) /\
  (forall p q, In p ps -> In q ps -> p_index p = p_index q -> p_ty p = p_ty q \/ (is_bitfield (p_ty p) = true /\ is_bitfield (p_ty q) = true)) /\
  (forall i t, nth_error tys i = Some t -> wire_ty ps (Z.of_nat i) t).

Lemma wire_ty_param : forall ps i t, wire_ty ps i t -> exists p, In p ps /\ p_index p = i.
Proof. intros ps i t [(_ & p & Hp & E & _)|(lo & hi & _ & (p & hi' & Hp & E & _) & _)]; eauto. Qed.

Lemma consistent_typed : forall ps tys, consistent ps tys -> well_typed ps.
Proof.
  intros ps tys (A & B & C). exists (Z.of_nat (length tys)). split; [lia|]. split; [exact A|]. split; [|exact B].
  intros i Hi. destruct (nth_error tys (Z.to_nat i)) as [t|] eqn:E; [|apply nth_error_None in E; lia].
  apply C in E. rewrite Z2Nat.id in E by lia. eapply wire_ty_param; eauto.
Qed.

Lemma wire_ty_snoc : forall ps i t q, p_index q <> i -> wire_ty ps i t -> wire_ty (ps ++ [q]) i t.
Proof.
  assert (L : forall ps (q p : parameter), In p ps -> In p (ps ++ [q])) by (intros; apply in_app_iff; auto).
  intros ps i t q N [(B & p & Hp & E & T)|(lo & hi & -> & (p & hi' & Hp & Ep & Tp) & (r & lo' & Hr & Er & Tr) & M)].
  - left. split; [exact B|]. exists p. auto.
  - right. exists lo, hi. split; [reflexivity|]. split; [exists p, hi'; auto|]. split; [exists r, lo'; auto|].
    intros x a b Hx Ex Tx. apply in_app_iff in Hx as [Hx|[<-|[]]]; [eapply M; eauto|congruence].
Qed.

Lemma consistent_snoc : forall ps tys t h, consistent ps tys -> is_bitfield t = false ->
  consistent (ps ++ [MkParameter (Z.of_nat (length tys)) t h]) (tys ++ [t]).
Proof.
  intros ps tys t h (A & B & C) Nb. split; [|split].
  - intros p Hp. rewrite app_length. cbn [length]. apply in_app_iff in Hp as [Hp|[<-|[]]]; [apply A in Hp; lia|cbn [p_index]; lia].
  - intros p q Hp Hq E. apply in_app_iff in Hp as [Hp|[<-|[]]], Hq as [Hq|[<-|[]]]; cbn [p_index p_ty] in *; auto.
    + apply A in Hp. lia.
    + apply A in Hq. lia.
  - intros i x Hx. destruct (Nat.lt_ge_cases i (length tys)) as [Lt|Ge].
    + rewrite nth_error_app1 in Hx by exact Lt. apply wire_ty_snoc; [cbn [p_index]; lia|]. apply C. exact Hx.
    + rewrite nth_error_app2 in Hx by exact Ge. destruct (i - length tys)%nat as [|k] eqn:K; [|destruct k; discriminate].
      injection Hx as <-. left. split; [exact Nb|]. eexists. split; [apply in_app_iff; right; left; reflexivity|]. cbn [p_index p_ty]. split; [lia|reflexivity].
Qed.

Section Messages.
  Context (X : externals) (addr : bytes -> Z) (tbl : table).
  Notation line := (says_line X tbl None).
  Notation reads := (reads X addr tbl).

  (** Like [reads], for strings in which as many parameters as there are arguments have no index. *)
  Definition opens (f : bytes) (args : list aval) (s : bytes) : Prop :=
    exists frags tys a, lexes Strict f frags (Z.of_nat (length tys)) /\ consistent (frag_params frags) tys /\
      means_args addr tbl tys args a /\ line frags args s.

  Lemma reads_opens : forall f args s, reads f args s -> unindexed f = Z.of_nat (length args) -> opens f args s.
  Proof.
    intros f args s (frags & tys & a & E & A & M & L) U. destruct (parse_lexes _ _ _ E) as (n & Lx & _).
    pose proof (lexes_unindexed _ _ _ _ Lx) as ->. pose proof (means_args_length addr tbl _ _ _ M) as Len.
    exists frags, tys, a. split; [replace (Z.of_nat (length tys)) with (unindexed f) by lia; exact Lx|].
    split; [|split; assumption]. destruct A as (fr & E' & A & B). rewrite E in E'. injection E' as <-. rewrite frag_parameters_frag in *.
    destruct (ParserExamples.C18_lemma f Strict frags E) as ((n & Hn & W1 & W2 & W3) & _).
    split; [|split; [exact W3|exact B]]. intros p Hp. split; [apply (W1 p Hp)|apply (A p Hp)].
  Qed.

  Lemma opens_reads : forall f args s, opens f args s -> Z.of_nat (length args) < usize_max -> reads f args s.
  Proof.
    intros f args s (frags & tys & a & Lx & C & M & L) U. pose proof (means_args_length addr tbl _ _ _ M) as Len.
    assert (E : parse f Strict = Ok frags).
    { eapply lexes_parse; [exact Lx|]. apply checks_ok; [eapply consistent_typed; eauto|]. intros p Hp. apply (proj1 C) in Hp. lia. }
    exists frags, tys, a. split; [exact E|]. split; [|auto]. exists frags. split; [exact E|]. rewrite frag_parameters_frag.
    destruct C as (A & _ & B). split; [intros p Hp; apply (A p Hp)|exact B].
  Qed.

  Lemma opens_after : forall f args s b, opens f args s -> no_braces b -> b <> [] -> opens (f ++ b) args (s ++ b).
  Proof.
    intros f args s b (frags & tys & a & Lx & C & M & L) B Bn. destruct (lexes_after _ _ _ _ _ Lx B Bn) as (fs' & Lx' & F).
    exists fs', tys, a. rewrite (followed_params _ _ _ F). split; [exact Lx'|]. split; [exact C|]. split; [exact M|]. eapply line_after; eauto.
  Qed.

  Lemma opens_before : forall f args s b, opens f args s -> no_braces b -> b <> [] -> opens (b ++ f) args (b ++ s).
  Proof.
    intros f args s b (frags & tys & a & Lx & C & M & L) B Bn. exists (preceded b frags), tys, a.
    rewrite preceded_params. split; [apply lexes_before; auto|]. split; [exact C|]. split; [exact M|]. apply line_before; auto.
  Qed.

  Lemma opens_param : forall f args s body h t v sv, opens f args s -> no_braces body ->
    parse_param body Strict = Ok (Param None TFormat h) -> printable X addr tbl h t v sv ->
    opens (f ++ 123 :: body ++ [125]) (args ++ [AvFmt t v]) (s ++ sv).
  Proof.
    intros f args s body h t v sv (frags & tys & a & Lx & C & M & L) B Q (Lk & (g & b & Mv) & Sv).
    pose proof (means_args_length addr tbl _ _ _ M) as Len.
    assert (M' : exists y, means_arg addr tbl TFormat (AvFmt t v) y) by (eexists; constructor; eauto). destruct M' as (y & M').
    exists (frags ++ [FParam (MkParameter (Z.of_nat (length tys)) TFormat h)]), (tys ++ [TFormat]), (a ++ [y]).
    split; [rewrite app_length; cbn [length]; rewrite Nat2Z.inj_add; apply lexes_param; auto|].
    rewrite frag_params_app. cbn [frag_params]. split; [apply consistent_snoc; auto|]. split; [apply means_args_snoc; assumption|].
    apply line_app; [apply line_more; exact L|]. rewrite <- (app_nil_r sv). eapply TL_param; [| |constructor].
    - cbn [p_index]. rewrite Nat2Z.id, <- Len. rewrite nth_error_app2, Nat.sub_diag by lia. reflexivity.
    - apply TG_format; [reflexivity|]. cbn [p_hint]. destruct h; exact Sv.
  Qed.

  Lemma opens_text : forall t, opens (escape t) [] t.
  Proof.
    intros t. destruct (begins_text X addr tbl t) as (frags & n & a & Lx & N & M & L). exists frags, (map p_ty (frag_params frags)), a.
    pose proof (means_args_length addr tbl _ _ _ M) as Len. destruct N as [-> _]. split; [rewrite map_length; exact Lx|]. split; [|split; assumption].
    destruct (frag_params frags); [|discriminate Len]. split; [intros p []|]. split; [intros p q []|]. intros [|i] x H; discriminate H.
  Qed.

  Ltac nb := split; vm_compute; intuition discriminate.

  (** The composed message. *)
  Lemma comparison_opens : forall op a en tl tr l r sl sr s,
    opens (la_format a) (values (compared en tl tr l r) (la_exprs a)) s ->
    printable X addr tbl (Some HDebug) tl l sl -> printable X addr tbl (Some HDebug) tr r sr ->
    opens (la_format (binop_args op (Some a))) (values (compared en tl tr l r) (la_exprs (binop_args op (Some a))))
      (comparison_text op (Some s) sl sr).
  Proof.
    intros op a en tl tr l r sl sr s H Pl Pr. apply printable_ref in Pl. apply printable_ref in Pr.
    destruct (compared_names en tl tr l r) as [Nl Nr]. set (en' := compared en tl tr l r) in *.
    set (pre := match op with Eq => lit "panicked at 'assertion failed: `(left == right)`" | Ne => lit "panicked at 'assertion failed: `(left != right)`" end).
    set (mt := lit ": " ++ s). set (mf := lit ": " ++ la_format a). set (es := la_exprs a) in *.
    assert (B : opens (pre ++ mf) (values en' es) (pre ++ mt)).
    { apply opens_before; [|unfold pre; destruct op; nb|unfold pre; destruct op; discriminate]. apply opens_before; [exact H|nb|discriminate]. }
    assert (V : forall more, values en' (es ++ more) = values en' es ++ values en' more) by (intros; apply map_app).
    destruct op.
    - change (la_exprs (binop_args Eq (Some a))) with (es ++ [bound left_val; bound right_val]).
      change (la_format (binop_args Eq (Some a))) with (pre ++ mf ++ lit "'" ++ [10] ++ lit " left: `{:?}`" ++ [10] ++ lit "right: `{:?}`").
      change (comparison_text Eq (Some s) sl sr) with (quoted (lit "assertion failed: `(left == right)`" ++ mt) ++ [10] ++
            lit " left: `" ++ sl ++ lit "`" ++ [10] ++ lit "right: `" ++ sr ++ lit "`").
      rewrite V. unfold values at 2. cbn [map]. rewrite Nl, Nr. clearbody mf mt es.
      apply (opens_after _ _ _ (lit "'" ++ [10] ++ lit " left: `")) in B; [|nb|discriminate].
      apply (opens_param _ _ _ (lit ":?") (Some HDebug) _ _ _) with (4 := Pl) in B; [|nb|exact debug_param].
      apply (opens_after _ _ _ (lit "`" ++ [10] ++ lit "right: `")) in B; [|nb|discriminate].
      apply (opens_param _ _ _ (lit ":?") (Some HDebug) _ _ _) with (4 := Pr) in B; [|nb|exact debug_param].
      apply (opens_after _ _ _ (lit "`")) in B; [|nb|discriminate].
      unfold quoted. rewrite <- ?app_assoc in *. exact B.
    - change (la_exprs (binop_args Ne (Some a))) with (es ++ [bound left_val]).
      change (la_format (binop_args Ne (Some a))) with (pre ++ mf ++ lit "'" ++ [10] ++ lit "left/right: `{:?}`").
      change (comparison_text Ne (Some s) sl sr) with (quoted (lit "assertion failed: `(left != right)`" ++ mt) ++ [10] ++
            lit "left/right: `" ++ sl ++ lit "`").
      rewrite V. unfold values at 2. cbn [map]. rewrite Nl. clearbody mf mt es.
      apply (opens_after _ _ _ (lit "'" ++ [10] ++ lit "left/right: `")) in B; [|nb|discriminate].
      apply (opens_param _ _ _ (lit ":?") (Some HDebug) _ _ _) with (4 := Pl) in B; [|nb|exact debug_param].
      apply (opens_after _ _ _ (lit "`")) in B; [|nb|discriminate].
      unfold quoted. rewrite <- ?app_assoc in *. exact B.
  Qed.

  Context (enabled : level -> bool).

  Lemma binop_expected : forall op a frags, parse (la_format a) Strict = Ok frags ->
    expected_arg_count frags = Z.of_nat (length (la_exprs a)) -> Z.of_nat (length (la_exprs a)) < 2 ^ 32 ->
    (unindexed (la_format a) <> Z.of_nat (length (la_exprs a)) -> expand_parsed enabled LError (binop_args op (Some a)) = None) /\
    (unindexed (la_format a) = Z.of_nat (length (la_exprs a)) -> exists log, expand_parsed enabled LError (binop_args op (Some a)) = Some log /\
      forall en, log en = if enabled LError then [(LError, la_format (binop_args op (Some a)), values en (la_exprs (binop_args op (Some a))))] else []).
  Proof.
    intros op a frags E C U. destruct (parse_lexes _ _ _ E) as (n & Lx & _). pose proof (lexes_unindexed _ _ _ _ Lx) as ->.
    destruct (comparison_lexes addr op (Some a) frags _ Lx) as (fs & Lx' & P). set (n := unindexed (la_format a)) in *.
    set (N := Z.of_nat (length (la_exprs a))) in *.
    assert (EC : expected_arg_count fs = Z.max N (n + Z.of_nat (length (added op n)))).
    { rewrite (expected_app _ _ _ P), C. destruct op; cbn [added map fold_right p_index length]; unfold N; lia. }
    assert (LN : Z.of_nat (length (la_exprs (binop_args op (Some a)))) = N + Z.of_nat (length (added op n))).
    { unfold N. destruct op; cbn [binop_args la_exprs added]; rewrite app_length; cbn [length]; lia. }
    unfold expand_parsed. split.
    - intros D. destruct (parse (la_format (binop_args op (Some a))) Strict) as [fs'| | |] eqn:E'; try reflexivity.
      destruct (parse_lexes _ _ _ E') as (n' & Lx2 & _). destruct (lexes_unique _ _ _ _ _ _ Lx' Lx2) as [<- _].
      rewrite EC, LN. assert (Q : (Z.max N (n + Z.of_nat (length (added op n))) =? N + Z.of_nat (length (added op n))) = false).
      { apply Z.eqb_neq. destruct op; cbn [added length]; lia. }
      rewrite Q. reflexivity.
    - intros D. destruct (ParserExamples.C18_lemma (la_format a) Strict frags E) as ((k & Hk & W1 & W2 & W3) & EA).
      assert (Kn : forall p, In p (frag_params frags) -> p_index p < N).
      { intros p Hp. assert (G : forall l, In p (frag_params l) -> p_index p + 1 <= expected_arg_count l).
        { unfold expected_arg_count. induction l as [|[x|q] l IH]; intros J; cbn [fold_right frag_params In] in *; [contradiction|auto|].
          destruct J as [->|J]; [lia|]. apply IH in J. lia. }
        apply G in Hp. lia. }
      assert (T : well_typed (frag_params fs)).
      { exists (N + Z.of_nat (length (added op n))). split; [unfold N; lia|]. rewrite P. split; [|split].
        - intros p Hp. apply in_app_iff in Hp as [Hp|Hp].
          + split; [apply (W1 p Hp)|]. apply Kn in Hp. lia.
          + apply in_map_iff in Hp as (i & <- & Hi). cbn [p_index]. destruct op; cbn [added In length] in *; lia.
        - intros i Hi. destruct (Z_lt_ge_dec i N) as [Lt|Ge].
          + destruct (Z_lt_ge_dec i k) as [Lk|Gk]; [destruct (W2 i ltac:(lia)) as (p & Hp & Ep); exists p; split; [apply in_app_iff; auto|exact Ep]|].
            exfalso. assert (expected_arg_count frags <= k); [|lia]. clear - W1 Hk. unfold expected_arg_count.
            induction frags as [|[x|q] l IH]; cbn [fold_right frag_params] in *; [lia|auto|].
            assert (p_index q < k) by (apply W1; left; reflexivity). assert (fold_right (fun f m => match f with FLit _ => m | FParam p => Z.max (p_index p + 1) m end) 0 l <= k) by (apply IH; intros p Hp; apply W1; right; exact Hp). lia.
          + exists (MkParameter i TFormat (Some HDebug)). split; [|reflexivity]. apply in_app_iff. right. apply in_map_iff. exists i. split; [reflexivity|].
            destruct op; cbn [added In length] in *; lia.
        - intros p q Hp Hq Epq. apply in_app_iff in Hp as [Hp|Hp], Hq as [Hq|Hq]; [auto| | |];
            try (apply in_map_iff in Hp as (i & <- & Hi)); try (apply in_map_iff in Hq as (j & <- & Hj)); cbn [p_index p_ty] in *; [| |auto].
          + apply Kn in Hp. destruct op; cbn [added In] in *; lia.
          + apply Kn in Hq. destruct op; cbn [added In] in *; lia. }
      assert (E' : parse (la_format (binop_args op (Some a))) Strict = Ok fs).
      { eapply lexes_parse; [exact Lx'|]. apply checks_ok; [exact T|]. intros p Hp. rewrite P in Hp. apply in_app_iff in Hp as [Hp|Hp].
        - apply Kn in Hp. unfold usize_max. lia.
        - apply in_map_iff in Hp as (i & <- & Hi). cbn [p_index]. unfold usize_max. destruct op; cbn [added In] in *; lia. }
      rewrite E', EC, LN. assert (Q : (Z.max N (n + Z.of_nat (length (added op n))) =? N + Z.of_nat (length (added op n))) = true) by (apply Z.eqb_eq; lia).
      rewrite Q. eexists. split; reflexivity.
  Qed.

  Theorem comparison_exact : forall op tl tr left right eq a en, accepted a -> Z.of_nat (length (la_exprs a)) < 2 ^ 32 ->
    let l := left en in let r := right en in
    let st := binop_macro enabled op tl tr left right eq (Some a) in
    (unindexed (la_format a) <> Z.of_nat (length (la_exprs a)) -> st = None) /\
    (unindexed (la_format a) = Z.of_nat (length (la_exprs a)) ->
      (comparison_holds op (eq l r) = true -> passes st en tt) /\
      (comparison_holds op (eq l r) = false -> independent [left_val; right_val] (la_exprs a) -> forall sl sr s,
        printable X addr tbl (Some HDebug) tl l sl -> printable X addr tbl (Some HDebug) tr r sr ->
        reads (la_format a) (values en (la_exprs a)) s -> stops X addr tbl enabled st en (comparison_text op (Some s) sl sr))).
  Proof.
    intros op tl tr left right eq a en (frags & E & C) U l r st. destruct (binop_expected op a frags E C U) as [No Yes]. split.
    - intros D. unfold st, binop_macro. rewrite (No D). reflexivity.
    - intros D. destruct (Yes D) as (log & Eq' & L). split.
      + intros Hc. eexists. split; [unfold st, binop_macro; rewrite Eq'; reflexivity|]. cbv beta zeta. fold l r.
        destruct op; cbn [comparison_holds] in Hc; [rewrite Hc; reflexivity|]. destruct (eq l r); [discriminate|reflexivity].
      + intros Hc Ind sl sr s Pl Pr M.
        assert (B : opens (la_format (binop_args op (Some a))) (values (compared en tl tr l r) (la_exprs (binop_args op (Some a)))) (comparison_text op (Some s) sl sr)).
        { apply comparison_opens; auto. rewrite (values_independent _ _ en (compared en tl tr l r) Ind (compared_other en tl tr l r)).
          apply reads_opens; [exact M|]. unfold values. rewrite map_length. exact D. }
        apply opens_reads in B.
        * do 3 eexists. split; [unfold st, binop_macro; rewrite Eq'; reflexivity|]. split; [exact B|].
          cbv beta zeta. fold l r. fold (compared en tl tr l r). rewrite L.
          destruct op; cbn [comparison_holds] in Hc; destruct (eq l r); try discriminate; reflexivity.
        * unfold values. rewrite map_length. unfold usize_max. destruct op; cbn [binop_args la_exprs]; rewrite app_length; cbn [length]; lia.
  Qed.
End Messages.
