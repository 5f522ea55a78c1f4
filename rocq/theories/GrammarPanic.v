(** Exactly at which strings the parser panics. *)
From Verif Require Import Base ParserModel ParserProofs FormatSpec GrammarSpec Numerals ParserMore RenderProofs
  GrammarProofs GrammarMain.

Lemma bad_param_iff : forall s, bad_param s <-> panicking_param s.
Proof.
  intro s. split.
  - intros [a i ds n r h IP N L F U C H]. exists a, ds, r, h.
    assert (A : all_digits a) by (destruct IP; [constructor|eapply number_digits; eauto]).
    split; [change (lit "=") with [61]; cbn [app]; rewrite <- app_assoc; reflexivity|].
    split; auto. split.
    { destruct IP as [|a k Na Lk]; [cbn; unfold usize_max; lia|]. apply number_iff in Na as (_ & _ & <-). exact Lk. }
    split; [eapply number_digits; eauto|]. split; [eapply number_not_nil; eauto|].
    split; [apply number_iff in N as (_ & _ & <-); exact L|].
    split. { destruct r as [|c r]; cbn; auto. destruct (is_digit c) eqn:E; auto. apply is_digit_iff in E. contradiction. }
    split; auto.
  - intros (ix & ds & r & tail & -> & A & V & A2 & NE & V2 & B & C & NC & T).
    replace (ix ++ lit "=" ++ (ds ++ r) ++ tail) with (ix ++ 61 :: ds ++ r ++ tail)
      by (change (lit "=") with [61]; cbn [app]; rewrite <- app_assoc; reflexivity).
    assert (IP : exists i, index_part ix i).
    { destruct ix as [|c ix]; [eexists; constructor|]. exists (Some (dec_value 0 (c :: ix))). constructor; auto.
      apply number_iff. repeat split; auto. discriminate. }
    destruct IP as (i & IP). apply BP with (i := i) (n := dec_value 0 ds); auto.
    + apply number_iff. auto.
    + destruct r as [|c r]; auto. intro D. apply is_digit_iff in D. cbn in B. congruence.
Qed.

Lemma parse_param_bad : forall s m, parse_param s m = Panic <-> bad_param s.
Proof. intros s m. rewrite bad_param_iff. apply parse_param_panic. Qed.

Lemma nested_scan_panic : forall m s r n body, (length body <= n)%nat -> ~ In 125 body ->
  forall pos frags e next,
  e = (pos + length body + 1)%nat ->
  (scan m s (body ++ 125 :: r) pos (frags, e, next) = Panic <->
   nested_bad m body \/
   exists ps next', nested m next body ps next' /\ scan m s r e (frags ++ map FParam ps, e, next') = Panic).
Proof.
  intros m s r. induction n as [|n IH]; intros body L N pos frags e next E.
  all: destruct body as [|c body].
  1,3: cbn [app length] in *; cbn [scan];
    change (125 =? 123) with false; cbn [negb]; replace (S pos) with e by lia; split;
    [intro H; right; exists [], next; split; [constructor|]; cbn [map]; rewrite app_nil_r; exact H
    |intros [H|(ps & next' & H1 & H2)]; [inversion H|];
     inversion H1; subst; cbn [map] in H2; rewrite app_nil_r in H2; exact H2].
  { cbn [length] in L. lia. }
  cbn [length] in L, E. assert (N' : ~ In 125 body) by (intro X; apply N; right; exact X).
  cbn [app scan]. destruct (Z.eqb_spec c 123) as [->|Nc]; cbn [negb].
  - assert (K : ~ starts_with 123 body ->
      ((st' <- at_param m s pos (body ++ 125 :: r) (frags, e, next) ;; scan m s (body ++ 125 :: r) (S pos) st') = Panic <->
       nested_bad m (123 :: body) \/
       exists ps next', nested m next (123 :: body) ps next' /\ scan m s r e (frags ++ map FParam ps, e, next') = Panic)).
    { intro B. rewrite at_param_body by (auto; lia). replace (pos + 1 + length body + 1)%nat with e by lia. split.
      - intro H. apply bind_panic in H as [H|(st1 & H1 & H)].
        + apply bind_panic in H as [H|(p & _ & H)]; [|discriminate]. apply parse_param_bad in H. left. apply EB_here; auto.
        + apply bind_ok in H1 as (p & H1 & X). inversion X; subst st1. apply parse_param_iff in H1.
          apply IH in H as [H|(ps & next' & H2 & H3)]; auto; try lia.
          * left. eapply EB_open; eauto.
          * right. exists (placed next p :: ps), next'. split; [eapply E_open; eauto|].
            rewrite <- app_assoc in H3. exact H3.
      - intros [H|(ps & next' & H1 & H2)].
        + inversion H as [|? X|? B1 BP1|? p B1 PT1 H3]; subst; try congruence.
          * apply (parse_param_bad body m) in BP1. rewrite BP1. reflexivity.
          * apply parse_param_iff in PT1. rewrite PT1. cbn [bind]. apply IH; auto; lia.
        + inversion H1 as [| |? ? ? ? X|? ? p ps1 ? B1 PT1 H3]; subst; try congruence.
          apply parse_param_iff in PT1. rewrite PT1. cbn [bind]. apply IH; auto; try lia.
          right. exists ps1, next'. split; auto. rewrite <- app_assoc. exact H2. }
    destruct body as [|c2 body].
    + cbn [app] in *. change (125 =? 123) with false. cbv iota. apply K. cbn. auto.
    + cbn [app]. destruct (Z.eqb_spec c2 123) as [->|Nc2].
      * cbn [length] in L, E.
        rewrite (IH body) by (try lia; intro X; apply N'; right; exact X). split.
        -- intros [H|(ps & next' & H1 & H2)]; [left; apply EB_pair; auto|].
           right. exists ps, next'. split; auto. apply E_pair. exact H1.
        -- intros [H|(ps & next' & H1 & H2)].
           ++ left. inversion H as [| |? B1|? ? B1]; subst; try congruence; exfalso; apply B1; reflexivity.
           ++ right. exists ps, next'. split; auto.
              inversion H1 as [| |? ? ? ? X|? ? p ps1 ? B1 PT1 H3]; subst; try congruence.
      * apply K. exact Nc2.
  - rewrite IH by (auto; lia). split.
    + intros [H|(ps & next' & H1 & H2)]; [left; apply EB_char; auto|].
      right. exists ps, next'. split; auto. apply E_char; auto.
    + intros [H|(ps & next' & H1 & H2)].
      * left. inversion H; subst; try congruence.
      * right. exists ps, next'. split; auto. inversion H1; subst; try congruence.
Qed.

Lemma bad_end : forall m next, ~ bad_format m next [].
Proof.
  intros m next H. remember (@nil Z) as w eqn:W.
  destruct H as [next text v s NE Li B F| | |]; try discriminate. destruct text; [congruence|discriminate].
Qed.

Lemma bad_literal : forall m next a s, paired a -> at_brace s ->
  (bad_format m next (a ++ s) <-> (a = [] \/ exists v, literal false a v) /\ bad_format m next s).
Proof.
  intros m next a s Pa B. destruct a as [|x a].
  { cbn [app]. split; [auto|intros (_ & H); exact H]. }
  split.
  - intro H. remember ((x :: a) ++ s) as w eqn:W.
    assert (NB : forall body t, w = 123 :: body ++ 125 :: t -> ~ starts_with 123 body -> False).
    { intros body t Eb Nb. rewrite W in Eb. cbn [app] in Eb. inversion Eb as [[X1 X2]].
      inversion Pa as [|? ? N P|a' P]; subst; [congruence|].
      cbn [app] in X2. destruct body; cbn [app] in *; [discriminate|]. inversion X2; subst. apply Nb. reflexivity. }
    destruct H as [next text v s1 NE Li B1 F| | |]; try (exfalso; eapply NB; eauto; fail).
    destruct (literal_sound _ _ _ Li) as (Pt & _).
    assert (text = x :: a /\ s1 = s) as (-> & ->).
    { destruct B as [->|(r & -> & R)].
      - rewrite app_nil_r in W. destruct (paired_whole text Pt (x :: a) s1) as (-> & ->); auto. right. exact B1.
      - destruct (paired_unique text Pt (x :: a) s1 r) as (-> & ->); auto. right. exact B1. }
    split; eauto.
  - intros ([X|(v & Li)] & F); [discriminate|]. apply B_literal with (v := v); auto; [discriminate|].
    destruct B as [->|B]; auto. apply bad_end in F. contradiction.
Qed.

Lemma bad_param_inv : forall m next r, ~ starts_with 123 r -> bad_format m next (123 :: r) ->
  exists body s, r = body ++ 125 :: s /\ ~ In 125 body /\
    (bad_param body \/ exists p, param_text m body p /\
      (nested_bad m body \/ exists ps next', nested m (next_after next p) body ps next' /\ bad_format m next' s)).
Proof.
  intros m next r R H. remember (123 :: r) as w eqn:W.
  destruct H as [next text v s1 NE Li B1 F|next body s NB N BP1|next body p s NB N PT1 NB1|next body p ps next' s NB N PT1 NS F].
  - exfalso. destruct (literal_sound _ _ _ Li) as (Pt & _).
    destruct Pt as [|c t Nc P|t P]; [congruence| |]; cbn [app] in W; inversion W; subst; try congruence.
  - inversion W; subst r. exists body, s. auto.
  - inversion W; subst r. exists body, s. repeat split; auto. right. eauto.
  - inversion W; subst r. exists body, s. repeat split; auto. right. exists p. eauto 6.
Qed.

Lemma before_panic : forall frags acc, before frags acc <> Panic.
Proof.
  intros frags acc. destruct acc as [|x acc]; [discriminate|]. cbn [before].
  destruct (push_literal_shape frags (x :: acc)) as [(f & ->)|(e & ->)]; discriminate.
Qed.

Lemma scan_bad : forall m s n rest, (length rest <= n)%nat -> forall pre acc frags next,
  s = pre ++ acc ++ rest -> paired acc ->
  (scan m s rest (length pre + length acc) (frags, length pre, next) = Panic <-> bad_format m next (acc ++ rest)).
Proof.
  intros m s. induction n as [|n IH]; intros rest L pre acc frags next E P;
    (destruct rest as [|c rest]; [|cbn [length] in L]).
  1,3: cbn [scan]; rewrite bad_literal by (auto; left; reflexivity);
    split; [discriminate|intros (_ & H); apply bad_end in H; contradiction].
  { lia. }
  cbn [scan]. destruct (Z.eqb_spec c 123) as [->|Nc]; cbn [negb].
  2: { replace (S (length pre + length acc)) with (length pre + length (acc ++ [c]))%nat
         by (rewrite app_length; cbn [length]; lia).
       rewrite (IH rest); [|lia|rewrite E, <- !app_assoc; reflexivity
         |apply paired_app; auto; apply P_char; auto; constructor].
       rewrite <- app_assoc. reflexivity. }
  assert (K : ~ starts_with 123 rest ->
    ((st' <- at_param m s (length pre + length acc) rest (frags, length pre, next) ;;
      scan m s rest (S (length pre + length acc)) st') = Panic <->
     bad_format m next (acc ++ 123 :: rest))).
  { intro R.
    assert (AB : at_brace (123 :: rest)) by (right; exists rest; auto).
    rewrite (at_param_before m s pre acc rest) by exact E. rewrite bad_literal by auto.
    assert (Bf : (exists f, before frags acc = Ok f) <-> (acc = [] \/ exists v, literal false acc v)).
    { split.
      - intros (f & H). apply before_iff in H; auto. destruct acc; auto. destruct H as (v & H & _). eauto.
      - intros H. destruct acc as [|x acc]; [eexists; reflexivity|]. destruct H as [H|(v & H)]; [discriminate|].
        exists (frags ++ [FLit v]). apply before_iff; auto. exists v. auto. }
    rewrite <- Bf. clear Bf.
    destruct (in_dec Z.eq_dec 125 rest) as [I125|N125].
    2: { assert (position (fun c => c =? 125) rest = None) as ->.
         { apply position_none. rewrite Forall_forall. intros c Hc. destruct (Z.eqb_spec c 125); auto. subst. contradiction. }
         split.
         - intro H. exfalso. destruct (before frags acc) eqn:Be; cbn [bind] in H; try discriminate.
           apply before_panic in Be. contradiction.
         - intros (_ & F). exfalso.
           apply bad_param_inv in F as (body & r & X & _); auto.
           apply N125. rewrite X. apply in_or_app. right. left. reflexivity. }
    destruct (split_close rest I125) as (body & r & -> & NB).
    rewrite position_close by auto. rewrite firstn_app_exact.
    assert (NS123 : ~ starts_with 123 body) by (intro X; apply R; destruct body; [contradiction|exact X]).
    assert (IH' : forall frags next,
      scan m s r (length pre + length acc + 1 + length body + 1)
          (frags, (length pre + length acc + 1 + length body + 1)%nat, next) = Panic <-> bad_format m next r).
    { intros fr nx.
      assert (Lr : (length r <= n)%nat) by (rewrite app_length in L; cbn [length] in L; lia).
      specialize (IH r Lr (pre ++ acc ++ 123 :: body ++ [125]) [] fr nx).
      assert (Lp : length (pre ++ acc ++ 123 :: body ++ [125]) = (length pre + length acc + 1 + length body + 1)%nat)
        by (rewrite !app_length; cbn [length]; rewrite app_length; cbn [length]; lia).
      rewrite Lp in IH. cbn [length] in IH. rewrite Nat.add_0_r in IH.
      apply IH; [|constructor]. rewrite E. cbn [app]. rewrite <- !app_assoc. cbn [app]. rewrite <- app_assoc. reflexivity. }
    assert (NP : forall f p, scan m s (body ++ 125 :: r) (S (length pre + length acc))
        (f ++ [FParam (placed next p)], (length pre + length acc + 1 + length body + 1)%nat, next_after next p) = Panic <->
      nested_bad m body \/ exists ps next', nested m (next_after next p) body ps next' /\ bad_format m next' r).
    { intros f p. rewrite (nested_scan_panic m s r (length body) body) by (auto; lia).
      split; (intros [H|(ps & next' & H1 & H2)]; [auto|right; exists ps, next'; split; auto; apply IH' in H2 || apply IH'; auto]). }
    split.
    - intro H. apply bind_panic in H as [H|(st1 & H & Sc)].
      + apply bind_panic in H as [H|(f1 & Be & H)]; [apply before_panic in H; contradiction|].
        apply bind_panic in H as [H|(p & _ & H)]; [|discriminate]. apply parse_param_bad in H.
        split; eauto. apply B_here; auto.
      + apply bind_ok in H as (f1 & Be & H). apply bind_ok in H as (p & PP & X). inversion X; subst st1. clear X.
        apply parse_param_iff in PP. split; eauto. apply NP in Sc as [Sc|(ps & next' & NS & Sc)].
        * eapply B_nested; eauto.
        * eapply B_later; eauto.
    - intros ((f1 & Be) & F). rewrite Be. cbn [bind].
      apply bad_param_inv in F as (b2 & r2 & X & N2 & F); auto. apply close_unique in X as (<- & <-); auto.
      destruct F as [F|(p & PP & F)].
      + apply (parse_param_bad body m) in F. rewrite F. reflexivity.
      + apply parse_param_iff in PP. rewrite PP. cbn [bind]. apply NP. exact F. }
  destruct rest as [|c2 rest].
  - apply K. cbn. auto.
  - destruct (Z.eqb_spec c2 123) as [->|Nc2].
    + cbn [length] in L. replace (S (S (length pre + length acc))) with (length pre + length (acc ++ [123; 123]%Z))%nat
         by (rewrite app_length; cbn [length]; lia).
       rewrite (IH rest); [|lia|rewrite E, <- !app_assoc; reflexivity
         |apply paired_app; auto; apply P_pair; constructor].
       rewrite <- app_assoc. reflexivity.
    + apply K. exact Nc2.
Qed.

(* ------------------------------------------------------------------ *)
(** * Index overflow *)

Lemma frag_params_flat : forall fs, frag_params fs = flat_map (fun f => match f with FParam p => [p] | FLit _ => [] end) fs.
Proof. induction fs as [|[s|p] fs IH]; cbn [frag_params flat_map app]; congruence. Qed.

Lemma bitfield_iff : forall t, is_bitfield t = true <-> exists a b, t = TBitField a b.
Proof. intro t. split; [destruct t; try discriminate; eauto|intros (a & b & ->); reflexivity]. Qed.

Lemma compatible_iff : forall s t, compatible s t <-> s = t \/ exists a b c d, s = TBitField a b /\ t = TBitField c d.
Proof.
  intros s t. unfold compatible. rewrite !bitfield_iff. split.
  - intros [H|((a & b & ->) & (c & d & ->))]; eauto 10.
  - intros [H|(a & b & c & d & -> & ->)]; eauto 10.
Qed.

Lemma check_types_panic : forall fs seen args len, 0 <= len <= usize_max -> types_inv seen args len ->
  Forall (fun p => 0 <= p_index p <= usize_max) (frag_params fs) ->
  (forall q q', In q seen -> In q' seen -> p_index q <> usize_max /\ (p_index q = p_index q' -> compatible (p_ty q) (p_ty q'))) ->
  (check_types fs args len = Panic <->
   exists ps1 p ps2, frag_params fs = ps1 ++ p :: ps2 /\ p_index p = usize_max /\
    forall q q', In q (seen ++ ps1) -> In q' (seen ++ ps1) -> p_index q <> usize_max /\
      (p_index q = p_index q' -> compatible (p_ty q) (p_ty q'))).
Proof.
  induction fs as [|[s|p] fs IH]; intros seen args len L T F C; cbn [check_types frag_params] in *.
  - split; [discriminate|]. intros (ps1 & p & ps2 & X & _). destruct ps1; discriminate.
  - apply IH; auto.
  - inversion F as [|? ? F1 F2]; subst.
    destruct ((len <=? p_index p) && (p_index p =? usize_max)) eqn:B.
    { split; auto. intros _. exists [], p, (frag_params fs). rewrite app_nil_r. repeat split; auto; try lia; apply (C q q'); auto. }
    cbv zeta.
    assert (Np : p_index p <> usize_max).
    { intro X. destruct (Z.leb_spec len (p_index p)); lia. }
    set (len1 := if len <=? p_index p then p_index p + 1 else len).
    assert (L1 : 0 <= len1 <= usize_max) by (unfold len1; destruct (Z.leb_spec len (p_index p)); lia).
    destruct T as [T1 T2 T3 T4].
    assert (Step : forall args1, (forall q, In q (seen ++ [p]) -> compatible (p_ty q) (p_ty p) \/ p_index q <> p_index p) ->
      types_inv (seen ++ [p]) args1 len1 ->
      (check_types fs args1 len1 = Panic <->
       exists ps1 p0 ps2, p :: frag_params fs = ps1 ++ p0 :: ps2 /\ p_index p0 = usize_max /\
        forall q q', In q (seen ++ ps1) -> In q' (seen ++ ps1) -> p_index q <> usize_max /\
          (p_index q = p_index q' -> compatible (p_ty q) (p_ty q')))).
    { intros args1 Cp T1'.
      assert (C1 : forall q q', In q (seen ++ [p]) -> In q' (seen ++ [p]) ->
        p_index q <> usize_max /\ (p_index q = p_index q' -> compatible (p_ty q) (p_ty q'))).
      { intros q q' Hq Hq'. split.
        - apply in_app_iff in Hq as [Hq|[<-|[]]]; auto. apply (C q q Hq Hq).
        - intro Eq. assert (X := Cp q Hq). assert (Y := Cp q' Hq').
          apply in_app_iff in Hq' as [Hq'|[<-|[]]].
          + apply in_app_iff in Hq as [Hq|[<-|[]]].
            * apply (C q q'); auto.
            * destruct Y as [Y|Y]; [|congruence]. apply compatible_sym, Y.
          + destruct X as [X|X]; [exact X|congruence]. }
      rewrite (IH (seen ++ [p]) args1 len1 L1 T1' F2 C1). split.
      - intros (ps1 & p0 & ps2 & -> & E0 & H). exists (p :: ps1), p0, ps2. split; auto. split; auto.
        rewrite <- app_assoc in H. exact H.
      - intros (ps1 & p0 & ps2 & Eq & E0 & H). destruct ps1 as [|p1 ps1]; cbn [app] in Eq; inversion Eq; subst.
        + congruence.
        + exists ps1, p0, ps2. rewrite <- app_assoc. auto. }
    assert (TI : forall args1 len1', check_types [FParam p] args len = Ok (args1, len1') -> types_inv (seen ++ [p]) args1 len1').
    { intros args1 len1' H. apply (check_types_inv [FParam p] seen args len); auto.
      - constructor; [lia|constructor].
      - constructor; auto. }
    cbn [check_types] in TI. rewrite B in TI. cbv zeta in TI. fold len1 in TI.
    destruct (lookup_arg (p_index p) args) as [other|] eqn:EL.
    + destruct (T2 _ _ EL) as (q0 & Q1 & Q2 & Q3).
      destruct (is_bitfield other && is_bitfield (p_ty p)) eqn:EB.
      * apply Step; [|apply TI; auto]. intros q Hq. apply in_app_iff in Hq as [Hq|[<-|[]]]; [|left; left; auto].
        destruct (Z.eq_dec (p_index q) (p_index p)); auto. left.
        apply compatible_trans with other; [rewrite <- Q3; apply (C q q0); auto; congruence|].
        apply andb_prop in EB. right. exact EB.
      * destruct (negb (ty_eqb other (p_ty p))) eqn:EN.
        -- split; [discriminate|]. intros (ps1 & p0 & ps2 & Eq & E0 & H). exfalso.
           destruct ps1 as [|p1 ps1]; cbn [app] in Eq; inversion Eq; subst p0 || subst p1.
           { congruence. }
           destruct (H q0 p) as (_ & X).
           { apply in_app_iff. auto. }
           { apply in_app_iff. right. left. reflexivity. }
           specialize (X ltac:(congruence)). rewrite Q3 in X. destruct X as [X|(X1 & X2)].
           ++ apply negb_true_iff in EN. apply ty_eqb_eq in X. congruence.
           ++ rewrite X1, X2 in EB. discriminate.
        -- apply Step; [|apply TI; auto]. apply negb_false_iff, ty_eqb_eq in EN.
           intros q Hq. apply in_app_iff in Hq as [Hq|[<-|[]]]; [|left; left; auto].
           destruct (Z.eq_dec (p_index q) (p_index p)); auto. left.
           rewrite <- EN, <- Q3. apply (C q q0); auto. congruence.
    + apply Step; [|apply TI; auto]. intros q Hq. apply in_app_iff in Hq as [Hq|[<-|[]]]; [|left; left; auto].
      right. intro X. destruct (T1 q Hq) as (t & Y & _). congruence.
Qed.

Theorem parse_panic_iff : forall s m, Z.of_nat (length s) <= usize_max ->
  (parse s m = Panic <-> bad_format m 0 s \/ exists fs, format m 0 s fs /\ overflowing fs).
Proof.
  intros s m U. rewrite parse_finish. rewrite bind_panic.
  assert (A : (st <- scan m s s 0%nat ([], 0%nat, 0) ;; finish s st) = Panic <-> bad_format m 0 s).
  { rewrite <- (scan_bad m s (length s) s (le_n _) [] [] [] 0 eq_refl P_end). cbn [length Nat.add]. rewrite bind_panic.
    split; auto. intros [H|([[fs e] n] & _ & H)]; auto. exfalso. cbn [finish] in H.
    destruct (e =? length s)%nat; [discriminate|].
    destruct (push_literal_shape fs (skipn e s)) as [(f & Q)|(f & Q)]; rewrite Q in H; discriminate. }
  assert (O : forall fs, format m 0 s fs -> (check_types fs [] 0 = Panic <-> overflowing fs)).
  { intros fs F. rewrite (check_types_panic fs [] [] 0); auto.
    - unfold overflowing. rewrite <- frag_params_flat. cbn [app].
      split; intros (ps1 & p & ps2 & X & Y & H); exists ps1, p, ps2; repeat split; auto; try (apply (H q q'); auto);
        intro Q; destruct (H q q') as (_ & K); auto; apply compatible_iff; auto.
    - unfold usize_max; lia.
    - constructor; cbn; try (intros; contradiction); try (intros; discriminate). split; [lia|auto].
    - eapply format_bound; eauto; lia.
    - intros q q' []. }
  rewrite A. split.
  - intros [H|(fs & H & K)]; auto. apply scan_format_all in H. right. exists fs. split; auto. apply O; auto.
    apply bind_panic in K as [K|([args len] & _ & K)]; auto.
    apply bind_panic in K as [K|([] & _ & K)]; [|discriminate].
    unfold check_dense in K. cbv zeta in K. destruct (_ <? len); discriminate.
  - intros [H|(fs & F & H)]; auto. right. exists fs. split; [apply scan_format_all; auto|].
    apply O in H; auto. rewrite H. reflexivity.
Qed.
