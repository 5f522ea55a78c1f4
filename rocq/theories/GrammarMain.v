(** The parser accepts exactly the format strings of the grammar. *)
From Verif Require Import Base ParserModel ParserProofs FormatSpec GrammarSpec Numerals ParserMore RenderProofs
  GrammarProofs ParserExamples.

(* ------------------------------------------------------------------ *)
(** * Literals *)

(** Texts whose opening braces come in adjacent pairs. *)
Inductive paired : bytes -> Prop :=
| P_end : paired []
| P_char c s : c <> 123 -> paired s -> paired (c :: s)
| P_pair s : paired s -> paired (123 :: 123 :: s).

Lemma paired_app : forall a b, paired a -> paired b -> paired (a ++ b).
Proof. intros a b H Hb. induction H; cbn [app]; auto; [apply P_char|apply P_pair]; auto. Qed.

Lemma undouble_pair : forall c s, undouble c (c :: c :: s) = c :: undouble c s.
Proof. intros. cbn [undouble]. rewrite Z.eqb_refl. reflexivity. Qed.
Lemma undouble_other : forall c x s, x <> c -> undouble c (x :: s) = x :: undouble c s.
Proof. intros c x s H. cbn [undouble]. destruct (Z.eqb_spec x c); [contradiction|reflexivity]. Qed.
Lemma undouble_single : forall c s, ~ starts_with c s -> undouble c (c :: s) = c :: undouble c s.
Proof.
  intros c s H. cbn [undouble]. rewrite Z.eqb_refl. destruct s as [|y s]; auto.
  cbn [starts_with] in H. destruct (Z.eqb_spec y c); [contradiction|reflexivity].
Qed.

Lemma undouble_first : forall s, paired s -> ~ starts_with 125 s -> ~ starts_with 125 (undouble 123 s).
Proof.
  intros s P H. destruct P as [|c s N P|s P].
  - exact H.
  - rewrite undouble_other by auto. exact H.
  - rewrite undouble_pair. discriminate.
Qed.

Definition text_value (s : bytes) : bytes := undouble 125 (undouble 123 s).

Lemma literal_sound : forall o s v, literal o s v ->
  paired s /\ scan_braces false o s = Ok tt /\ v = text_value s.
Proof.
  unfold text_value.
  intros o s v H. induction H as [|c s v A B H (P & Sc & ->)|o s v H (P & Sc & ->)|o s v H (P & Sc & ->)
    |s v H (P & Sc & ->)|s v N H (P & Sc & ->)].
  - split; [constructor|]. split; reflexivity.
  - split; [apply P_char; auto|]. split.
    + cbn [scan_braces]. destruct (Z.eqb_spec c 123); [contradiction|]. destruct (Z.eqb_spec c 125); [contradiction|]. exact Sc.
    + rewrite !undouble_other by auto. reflexivity.
  - split; [apply P_pair; auto|]. split.
    + cbn [scan_braces]. exact Sc.
    + rewrite undouble_pair, undouble_other by discriminate. reflexivity.
  - split; [apply P_char; [discriminate|]; apply P_char; [discriminate|auto]|]. split.
    + cbn [scan_braces]. change (125 =? 123) with false. change (125 =? 125) with true. cbv iota. rewrite negb_involutive. exact Sc.
    + rewrite !(undouble_other 123) by discriminate. rewrite undouble_pair. reflexivity.
  - split; [apply P_char; [discriminate|auto]|]. split.
    + cbn [scan_braces]. exact Sc.
    + rewrite (undouble_other 123 125) by discriminate. rewrite (undouble_single 125); auto.
      rewrite undouble_pair. discriminate.
  - split; [apply P_char; [discriminate|auto]|]. split.
    + cbn [scan_braces]. exact Sc.
    + rewrite (undouble_other 123 125) by discriminate. rewrite (undouble_single 125); auto.
      apply undouble_first; auto.
Qed.

Lemma literal_complete : forall n s, (length s <= n)%nat -> forall o, paired s -> scan_braces false o s = Ok tt ->
  literal o s (text_value s).
Proof.
  unfold text_value.
  induction n as [|n IH]; intros s L o P H.
  - destruct s; [|cbn [length] in L; lia]. destruct o; [discriminate|constructor].
  - destruct P as [|c s N P|s P]; cbn [length] in L.
    + destruct o; [discriminate|constructor].
    + destruct (Z.eqb_spec c 125) as [->|N2].
      * cbn [scan_braces] in H. change (125 =? 123) with false in H. change (125 =? 125) with true in H. cbv iota in H.
        rewrite (undouble_other 123 125) by discriminate.
        destruct s as [|c s].
        { destruct o; cbn [negb scan_braces] in H; [|discriminate].
          apply L_second; [cbn; auto|constructor]. }
        inversion P as [|? ? N2 P2|s2 P2]; subst.
        -- destruct (Z.eqb_spec c 125) as [->|N3].
           ++ cbn [scan_braces] in H. change (125 =? 123) with false in H. change (125 =? 125) with true in H. cbv iota in H.
              rewrite negb_involutive in H. rewrite (undouble_other 123 125) by discriminate.
              rewrite undouble_pair. apply L_close. apply IH; auto. cbn [length] in L. lia.
           ++ rewrite (undouble_single 125).
              2: { apply undouble_first; auto. }
              destruct o; cbn [negb] in H.
              ** apply L_second; [exact N3|]. apply IH; auto. lia.
              ** cbn [scan_braces] in H. destruct (Z.eqb_spec c 123); [contradiction|].
                 destruct (Z.eqb_spec c 125); [contradiction|]. discriminate.
        -- rewrite (undouble_single 125). 2: { apply undouble_first; auto. }
           destruct o; cbn [negb] in H.
           ++ apply L_second; [discriminate|]. apply IH; auto. lia.
           ++ apply L_first. apply IH; auto. lia.
      * cbn [scan_braces] in H. destruct (Z.eqb_spec c 123); [contradiction|].
        destruct (Z.eqb_spec c 125); [contradiction|]. destruct o; [discriminate|].
        rewrite !undouble_other by auto. apply L_char; auto. apply IH; auto. lia.
    + cbn [scan_braces] in H. change (123 =? 123) with true in H. cbv iota in H.
      rewrite undouble_pair, undouble_other by discriminate. apply L_open. apply IH; auto. lia.
Qed.

Lemma literal_iff : forall s v, paired s ->
  (literal false s v <-> scan_braces false false s = Ok tt /\ v = text_value s).
Proof.
  intros s v P. split.
  - intro H. apply literal_sound in H. tauto.
  - intros (H & ->). eapply literal_complete; eauto.
Qed.

Lemma push_literal_iff : forall frags s fs, paired s ->
  (push_literal frags s = Ok fs <-> exists v, literal false s v /\ fs = frags ++ [FLit v]).
Proof.
  intros frags s fs P. unfold push_literal. rewrite bind_ok. split.
  - intros ([] & A & B). inversion B; subst. exists (text_value s). split; auto. apply literal_iff; auto.
  - intros (v & A & ->). apply literal_iff in A as (A & ->); auto. exists tt. auto.
Qed.

(* ------------------------------------------------------------------ *)
(** * Inside a parameter *)

Lemma position_close : forall body s, ~ In 125 body -> position (fun c => c =? 125) (body ++ 125 :: s) = Some (length body).
Proof.
  intros body s N. apply position_app; auto. rewrite Forall_forall. intros c Hc.
  destruct (Z.eqb_spec c 125); auto. subst. contradiction.
Qed.

(** One parameter read by [at_param], given that its literal has been dealt with. *)
Lemma at_param_body : forall m s pos body r frags e next, ~ In 125 body -> (pos <= e)%nat ->
  at_param m s pos (body ++ 125 :: r) (frags, e, next) =
  (p <- parse_param body m ;;
   Ok (frags ++ [FParam (placed next p)], (pos + 1 + length body + 1)%nat, next_after next p)).
Proof.
  intros m s pos body r frags e next N L. unfold at_param.
  destruct (Nat.ltb_spec e pos); [lia|]. cbn [bind].
  rewrite position_close by auto. rewrite firstn_app_exact.
  destruct (parse_param body m) as [p| | |]; cbn [bind]; auto.
  unfold placed, next_after. destruct (pr_index p); reflexivity.
Qed.

Lemma nested_scan : forall m s r n body, (length body <= n)%nat -> ~ In 125 body ->
  forall pos frags e next st,
  e = (pos + length body + 1)%nat ->
  (scan m s (body ++ 125 :: r) pos (frags, e, next) = Ok st <->
   exists ps next', nested m next body ps next' /\ scan m s r e (frags ++ map FParam ps, e, next') = Ok st).
Proof.
  intros m s r. induction n as [|n IH]; intros body L N pos frags e next st E.
  - destruct body; [|cbn [length] in L; lia]. cbn [app length] in *. cbn [scan].
    change (125 =? 123) with false. cbn [negb]. replace (S pos) with e by lia. split.
    + intro H. exists [], next. split; [constructor|]. cbn [map]. rewrite app_nil_r. exact H.
    + intros (ps & next' & H1 & H2). inversion H1; subst. cbn [map] in H2. rewrite app_nil_r in H2. exact H2.
  - destruct body as [|c body].
    { cbn [app length] in *. cbn [scan].
      change (125 =? 123) with false. cbn [negb]. replace (S pos) with e by lia. split.
      + intro H. exists [], next. split; [constructor|]. cbn [map]. rewrite app_nil_r. exact H.
      + intros (ps & next' & H1 & H2). inversion H1; subst. cbn [map] in H2. rewrite app_nil_r in H2. exact H2. }
    cbn [length] in L, E. assert (N' : ~ In 125 body) by (intro X; apply N; right; exact X).
    cbn [app scan]. destruct (Z.eqb_spec c 123) as [->|Nc]; cbn [negb].
    + assert (K : ~ starts_with 123 body ->
        ((st' <- at_param m s pos (body ++ 125 :: r) (frags, e, next) ;; scan m s (body ++ 125 :: r) (S pos) st') = Ok st <->
         exists ps next', nested m next (123 :: body) ps next' /\ scan m s r e (frags ++ map FParam ps, e, next') = Ok st)).
      { intro B. rewrite at_param_body by (auto; lia). replace (pos + 1 + length body + 1)%nat with e by lia. split.
        - intro H. apply bind_ok in H as (st1 & H1 & H). apply bind_ok in H1 as (p & H1 & X). inversion X; subst st1.
          apply parse_param_iff in H1. apply IH in H as (ps & next' & H2 & H3); auto; try lia.
          exists (placed next p :: ps), next'. split; [eapply E_open; eauto|]. rewrite <- app_assoc in H3. exact H3.
        - intros (ps & next' & H1 & H2). inversion H1 as [| |? ? ? ? X|? ? p ps1 ? B1 PT1 H3]; subst; try congruence.
          apply parse_param_iff in PT1. rewrite PT1. cbn [bind]. apply IH; auto; try lia.
            exists ps1, next'. split; auto. rewrite <- app_assoc. exact H2. }
      destruct body as [|c2 body].
      * cbn [app] in *. change (125 =? 123) with false. cbv iota. apply K. cbn. auto.
      * cbn [app]. destruct (Z.eqb_spec c2 123) as [->|Nc2].
        -- cbn [length] in L, E.
           rewrite (IH body) by (try lia; intro X; apply N'; right; exact X). split.
           ++ intros (ps & next' & H1 & H2). exists ps, next'. split; auto. apply E_pair. exact H1.
           ++ intros (ps & next' & H1 & H2). exists ps, next'. split; auto.
              inversion H1 as [| |? ? ? ? X|? ? p ps1 ? B1 PT1 H3]; subst; try congruence.
        -- apply K. exact Nc2.
    + rewrite IH by (auto; lia). split.
      * intros (ps & next' & H1 & H2). exists ps, next'. split; auto. apply E_char; auto.
      * intros (ps & next' & H1 & H2). exists ps, next'. split; auto.
        inversion H1; subst; try congruence.
Qed.

(* ------------------------------------------------------------------ *)
(** * Whole strings *)

Definition at_brace (s : bytes) : Prop := s = [] \/ exists r, s = 123 :: r /\ ~ starts_with 123 r.

Lemma paired_unique : forall t, paired t -> forall a s r, paired a -> at_brace s -> ~ starts_with 123 r ->
  t ++ s = a ++ 123 :: r -> t = a /\ s = 123 :: r.
Proof.
  intros t H. induction H as [|c t N H IH|t H IH]; intros a s r Pa B R E; cbn [app] in E.
  - destruct Pa as [|c a N Pa|a Pa]; cbn [app] in E; auto; exfalso.
    + destruct B as [->|(x & -> & X)]; [discriminate|]. inversion E; subst. congruence.
    + destruct B as [->|(x & -> & X)]; [discriminate|]. inversion E; subst. apply X. reflexivity.
  - destruct Pa as [|c2 a N2 Pa|a Pa]; cbn [app] in E; inversion E; subst; try congruence.
    destruct (IH a s r) as (-> & ->); auto.
  - destruct Pa as [|c2 a N2 Pa|a Pa]; cbn [app] in E; inversion E; subst; try congruence.
    destruct (IH a s r) as (-> & ->); auto.
Qed.

Lemma paired_whole : forall t, paired t -> forall a s, paired a -> at_brace s -> t ++ s = a -> t = a /\ s = [].
Proof.
  intros t H. induction H as [|c t N H IH|t H IH]; intros a s Pa B E; cbn [app] in E.
  - destruct Pa as [|c a N Pa|a Pa]; auto; exfalso.
    + destruct B as [->|(x & -> & X)]; [discriminate|]. inversion E; subst. congruence.
    + destruct B as [->|(x & -> & X)]; [discriminate|]. inversion E; subst. apply X. reflexivity.
  - destruct Pa as [|c2 a N2 Pa|a Pa]; inversion E; subst; try congruence.
    destruct (IH (t ++ s) s) as (E1 & ->); auto. rewrite app_nil_r. auto.
  - destruct Pa as [|c2 a N2 Pa|a Pa]; inversion E; subst; try congruence.
    destruct (IH (t ++ s) s) as (E1 & ->); auto. rewrite app_nil_r. auto.
Qed.

(** A format string that is literal text [a] up to here. *)
Lemma format_literal : forall m next a s fs, paired a -> at_brace s ->
  (format m next (a ++ s) fs <->
   match a with
   | [] => format m next s fs
   | _ => exists v fs', fs = FLit v :: fs' /\ literal false a v /\ format m next s fs'
   end).
Proof.
  intros m next a s fs Pa B. destruct a as [|x a]; [reflexivity|]. split.
  - intro H. remember ((x :: a) ++ s) as w eqn:W.
    destruct H as [next|next text v s1 fs1 NE Li B1 F|next body p ps next' s1 fs1 NB N125 PT1 NS F].
    { discriminate. }
    + destruct (literal_sound _ _ _ Li) as (Pt & _).
      assert (text = x :: a /\ s1 = s) as (-> & ->).
      { destruct B as [->|(r & -> & R)].
        - rewrite app_nil_r in W. destruct (paired_whole text Pt (x :: a) s1) as (-> & ->); auto.
        - destruct (paired_unique text Pt (x :: a) s1 r) as (-> & ->); auto. }
      exists v, fs1. auto.
    + exfalso. cbn [app] in W. inversion W as [[X1 X2]].
      inversion Pa as [|? ? N P|a' P]; subst; [congruence|].
      cbn [app] in X2. destruct body; cbn [app] in *; [discriminate|]. inversion X2; subst. apply NB. reflexivity.
  - intros (v & fs' & -> & Li & F). constructor; auto. discriminate.
Qed.

Definition finish (s : bytes) (st : scan_state) : outcome perr (list fragment) :=
  let '(frags, end_pos, _) := st in
  if (end_pos =? length s)%nat then Ok frags else push_literal frags (skipn end_pos s).

Lemma slice_mid : forall pre acc rest, slice (pre ++ acc ++ rest) (length pre) (length pre + length acc) = acc.
Proof.
  intros. unfold slice. rewrite skipn_app_exact. replace (length pre + length acc - length pre)%nat with (length acc) by lia.
  apply firstn_app_exact.
Qed.

(** The literal before a parameter. *)
Definition before (frags : list fragment) (acc : bytes) : outcome perr (list fragment) :=
  match acc with [] => Ok frags | _ => push_literal frags acc end.

Lemma before_iff : forall frags acc fs, paired acc ->
  (before frags acc = Ok fs <->
   match acc with [] => fs = frags | _ => exists v, literal false acc v /\ fs = frags ++ [FLit v] end).
Proof.
  intros frags acc fs P. destruct acc as [|x acc].
  - cbn [before]. split; intro H; [inversion H; auto|subst; auto].
  - apply push_literal_iff, P.
Qed.

Lemma at_param_before : forall m s pre acc rest frags next, s = pre ++ acc ++ 123 :: rest ->
  at_param m s (length pre + length acc) rest (frags, length pre, next) =
  (frags <- before frags acc ;;
   match position (fun c => c =? 125) rest with
   | None => Err UnmatchedOpenBracket
   | Some len =>
       p <- parse_param (firstn len rest) m ;;
       Ok (frags ++ [FParam (placed next p)], (length pre + length acc + 1 + len + 1)%nat, next_after next p)
   end).
Proof.
  intros m s pre acc rest frags next ->. unfold at_param. rewrite slice_mid.
  assert ((if (length pre <? length pre + length acc)%nat then push_literal frags acc else Ok frags) = before frags acc) as ->.
  { destruct acc as [|x acc]; cbn [length before].
    - destruct (Nat.ltb_spec (length pre) (length pre + 0)); [lia|reflexivity].
    - destruct (Nat.ltb_spec (length pre) (length pre + S (length acc))); [reflexivity|lia]. }
  destruct (before frags acc); cbn [bind]; auto.
  destruct (position _ rest); auto. destruct (parse_param _ m) as [p| | |]; cbn [bind]; auto.
  unfold placed, next_after. destruct (pr_index p); reflexivity.
Qed.

Lemma format_param_inv : forall m next r fs, ~ starts_with 123 r -> format m next (123 :: r) fs ->
  exists body s p ps next' fs', r = body ++ 125 :: s /\ ~ In 125 body /\ param_text m body p /\
    nested m (next_after next p) body ps next' /\ format m next' s fs' /\
    fs = FParam (placed next p) :: map FParam ps ++ fs'.
Proof.
  intros m next r fs R H. remember (123 :: r) as w eqn:W.
  destruct H as [next|next text v s1 fs1 NE Li B1 F|next body p ps next' s1 fs1 NB N125 PT1 NS F].
  { discriminate. }
  - exfalso. destruct (literal_sound _ _ _ Li) as (Pt & _).
    destruct Pt as [|c t N P|t P]; [congruence| |]; cbn [app] in W; inversion W; subst; try congruence.
  - inversion W; subst r. exists body, s1, p, ps, next', fs1. repeat split; auto.
Qed.

Lemma split_close : forall s, In 125 s -> exists body r, s = body ++ 125 :: r /\ ~ In 125 body.
Proof.
  induction s as [|c s IH]; intros H; [contradiction|].
  destruct (Z.eq_dec c 125) as [->|N].
  - exists [], s. auto.
  - destruct H as [H|H]; [congruence|]. destruct (IH H) as (body & r & -> & B).
    exists (c :: body), r. split; auto. intros [X|X]; auto.
Qed.

Lemma close_unique : forall b1 s1 b2 s2, ~ In 125 b1 -> ~ In 125 b2 -> b1 ++ 125 :: s1 = b2 ++ 125 :: s2 ->
  b1 = b2 /\ s1 = s2.
Proof.
  induction b1 as [|c b1 IH]; intros s1 b2 s2 N1 N2 E; destruct b2 as [|c2 b2]; cbn [app] in E; inversion E; subst; auto.
  - exfalso. apply N2. left. reflexivity.
  - exfalso. apply N1. left. reflexivity.
  - destruct (IH s1 b2 s2) as (-> & ->); auto.
    + intro X. apply N1. right. exact X.
    + intro X. apply N2. right. exact X.
Qed.

Lemma scan_format_end : forall m s pre acc frags next fs0, s = pre ++ acc ++ [] -> paired acc ->
  ((st <- scan m s [] (length pre + length acc) (frags, length pre, next) ;; finish s st) = Ok fs0 <->
   exists fs, fs0 = frags ++ fs /\ format m next (acc ++ []) fs).
Proof.
  intros m s pre acc frags next fs0 E P. cbn [scan bind finish].
  assert (Q : forall fs, format m next [] fs <-> fs = []).
  { intro fs. split; [|intros ->; constructor]. intro H. remember (@nil Z) as w eqn:W.
    destruct H as [next|next text v s1 fs1 NE Li B1 F|next body p ps next' s1 fs1 NB N125 PT1 NS F]; auto.
    - destruct text; [congruence|discriminate].
    - discriminate. }
  assert (Ls : length s = (length pre + length acc)%nat) by (rewrite E, app_nil_r, app_length; reflexivity).
  rewrite Ls. replace (skipn (length pre) s) with acc by (rewrite E, app_nil_r, skipn_app_exact; reflexivity).
  destruct acc as [|x acc].
  - cbn [length app]. rewrite Nat.add_0_r, Nat.eqb_refl. split.
    + intro H. inversion H; subst. exists []. split; [rewrite app_nil_r; reflexivity|apply Q; auto].
    + intros (fs & -> & F). apply Q in F. subst. rewrite app_nil_r. reflexivity.
  - destruct (Nat.eqb_spec (length pre) (length pre + length (x :: acc))); [cbn [length] in *; lia|].
    rewrite push_literal_iff by auto. split.
    + intros (v & Li & ->). exists [FLit v]. split; auto. apply format_literal; auto; [left; auto|].
      exists v, []. repeat split; auto. constructor.
    + intros (fs & -> & F). apply format_literal in F; auto; [|left; auto].
      destruct F as (v & fs' & -> & Li & F). apply Q in F. subst. eauto.
Qed.

Lemma scan_format : forall m s n rest, (length rest <= n)%nat -> forall pre acc frags next fs0,
  s = pre ++ acc ++ rest -> paired acc ->
  ((st <- scan m s rest (length pre + length acc) (frags, length pre, next) ;; finish s st) = Ok fs0 <->
   exists fs, fs0 = frags ++ fs /\ format m next (acc ++ rest) fs).
Proof.
  intros m s. induction n as [|n IH]; intros rest L pre acc frags next fs0 E P;
    (destruct rest as [|c rest]; [apply scan_format_end; auto|cbn [length] in L]).
  { lia. }
  cbn [scan]. destruct (Z.eqb_spec c 123) as [->|Nc]; cbn [negb].
  2: { replace (S (length pre + length acc)) with (length pre + length (acc ++ [c]))%nat
         by (rewrite app_length; cbn [length]; lia).
       rewrite (IH rest); [|lia|rewrite E, <- !app_assoc; reflexivity
         |apply paired_app; auto; apply P_char; auto; constructor].
       rewrite <- app_assoc. reflexivity. }
  assert (K : ~ starts_with 123 rest ->
    ((st <- (st' <- at_param m s (length pre + length acc) rest (frags, length pre, next) ;;
             scan m s rest (S (length pre + length acc)) st') ;; finish s st) = Ok fs0 <->
     exists fs, fs0 = frags ++ fs /\ format m next (acc ++ 123 :: rest) fs)).
  { intro R.
    assert (AB : at_brace (123 :: rest)) by (right; exists rest; auto).
    rewrite (at_param_before m s pre acc rest) by exact E.
    destruct (in_dec Z.eq_dec 125 rest) as [I125|N125].
    2: { assert (position (fun c => c =? 125) rest = None) as ->.
         { apply position_none. rewrite Forall_forall. intros c Hc. destruct (Z.eqb_spec c 125); auto. subst. contradiction. }
         split.
         - intro H. apply bind_ok in H as (st & H & _). apply bind_ok in H as (st1 & H & _).
           apply bind_ok in H as (f1 & _ & H). discriminate.
         - intros (fs & -> & F). exfalso. apply format_literal in F; auto.
           assert (F' : exists fs', format m next (123 :: rest) fs').
           { destruct acc; [eauto|]. destruct F as (v & fs' & _ & _ & F). eauto. }
           destruct F' as (fs' & F'). apply format_param_inv in F' as (body & r & p & ps & next' & fs1 & X & _); auto.
           apply N125. rewrite X. apply in_or_app. right. left. reflexivity. }
    destruct (split_close rest I125) as (body & r & -> & NB).
    rewrite position_close by auto. rewrite firstn_app_exact.
    assert (IH' : forall frags next fs0,
      (st <- scan m s r (length pre + length acc + 1 + length body + 1)
          (frags, (length pre + length acc + 1 + length body + 1)%nat, next) ;; finish s st) = Ok fs0 <->
      exists fs, fs0 = frags ++ fs /\ format m next r fs).
    { intros fr nx f0.
      assert (Lr : (length r <= n)%nat) by (rewrite app_length in L; cbn [length] in L; lia).
      specialize (IH r Lr (pre ++ acc ++ 123 :: body ++ [125]) [] fr nx f0).
      assert (Lp : length (pre ++ acc ++ 123 :: body ++ [125]) = (length pre + length acc + 1 + length body + 1)%nat)
        by (rewrite !app_length; cbn [length]; rewrite app_length; cbn [length]; lia).
      rewrite Lp in IH. cbn [length] in IH. rewrite Nat.add_0_r in IH.
      apply IH; [|constructor]. rewrite E. cbn [app]. rewrite <- !app_assoc. cbn [app]. rewrite <- app_assoc. reflexivity. }
    split.
    - intro H. apply bind_ok in H as (st & H & Fin). apply bind_ok in H as (st1 & H & Sc).
      apply bind_ok in H as (f1 & Be & H). apply bind_ok in H as (p & PP & X). inversion X; subst st1. clear X.
      apply parse_param_iff in PP.
      apply (nested_scan m s r (length body) body) in Sc as (ps & next' & NS & Sc); auto; [|lia].
      assert (T : (st <- scan m s r (length pre + length acc + 1 + length body + 1)
          ((f1 ++ [FParam (placed next p)]) ++ map FParam ps, (length pre + length acc + 1 + length body + 1)%nat, next') ;;
          finish s st) = Ok fs0) by (rewrite Sc; exact Fin).
      apply IH' in T as (fs & -> & F).
      assert (FP : format m next (123 :: body ++ 125 :: r) (FParam (placed next p) :: map FParam ps ++ fs)).
      { eapply F_param; eauto. intro X. apply R. destruct body; [contradiction|exact X]. }
      apply before_iff in Be; auto. destruct acc as [|x acc].
      + subst f1. exists (FParam (placed next p) :: map FParam ps ++ fs). split; auto.
        rewrite <- !app_assoc. reflexivity.
      + destruct Be as (v & Li & ->). exists (FLit v :: FParam (placed next p) :: map FParam ps ++ fs). split.
        * rewrite <- !app_assoc. reflexivity.
        * apply format_literal; auto. exists v. eauto.
    - intros (fs & -> & F). apply format_literal in F; auto.
      assert (G : exists f1 fs', before frags acc = Ok f1 /\ frags ++ fs = f1 ++ fs' /\
        format m next (123 :: body ++ 125 :: r) fs').
      { destruct acc as [|x acc].
        - exists frags, fs. auto.
        - destruct F as (v & fs' & -> & Li & F). exists (frags ++ [FLit v]), fs'. split.
          + apply before_iff; auto. exists v. auto.
          + split; auto. rewrite <- app_assoc. reflexivity. }
      destruct G as (f1 & fs' & Be & Eq & G). rewrite Be. cbn [bind].
      apply format_param_inv in G as (b2 & r2 & p & ps & next' & fs2 & X & N2 & PP & NS & G & ->); auto.
      apply close_unique in X as (<- & <-); auto.
      apply parse_param_iff in PP. rewrite PP. cbn [bind].
      assert (T : exists st, scan m s r (length pre + length acc + 1 + length body + 1)
          ((f1 ++ [FParam (placed next p)]) ++ map FParam ps, (length pre + length acc + 1 + length body + 1)%nat, next') = Ok st /\
          finish s st = Ok (frags ++ fs)).
      { apply bind_ok. apply IH'. exists fs2. split; auto. rewrite Eq, <- !app_assoc. reflexivity. }
      destruct T as (st & T1 & T2).
      assert (T3 : scan m s (body ++ 125 :: r) (S (length pre + length acc))
        (f1 ++ [FParam (placed next p)], (length pre + length acc + 1 + length body + 1)%nat, next_after next p) = Ok st).
      { apply (nested_scan m s r (length body) body); auto; [lia|]. exists ps, next'. auto. }
      rewrite T3. exact T2. }
  destruct rest as [|c2 rest].
  - apply K. cbn. auto.
  - destruct (Z.eqb_spec c2 123) as [->|Nc2].
    + cbn [length] in L. replace (S (S (length pre + length acc))) with (length pre + length (acc ++ [123; 123]%Z))%nat
         by (rewrite app_length; cbn [length]; lia).
       rewrite (IH rest); [|lia|rewrite E, <- !app_assoc; reflexivity
         |apply paired_app; auto; apply P_pair; constructor].
       rewrite <- app_assoc. reflexivity.
    + apply K. exact Nc2.
Qed.

Lemma parse_finish : forall s m, parse s m =
  (fs <- (st <- scan m s s 0%nat ([], 0%nat, 0) ;; finish s st) ;;
   '(args, len) <- check_types fs [] 0 ;;
   _ <- check_dense args len ;; Ok fs).
Proof.
  intros s m. unfold parse. destruct (scan m s s 0 ([], 0%nat, 0)) as [[[fs e] n]| | |]; reflexivity.
Qed.

Lemma scan_format_all : forall m s fs,
  (st <- scan m s s 0%nat ([], 0%nat, 0) ;; finish s st) = Ok fs <-> format m 0 s fs.
Proof.
  intros m s fs. rewrite (scan_format m s (length s) s (le_n _) [] [] [] 0 fs eq_refl P_end).
  cbn [app]. split; [intros (f & -> & F); exact F|intro F; exists fs; auto].
Qed.

Lemma check_types_small : forall fs args len r, check_types fs args len = Ok r -> len <= usize_max ->
  Forall (fun p => p_index p <= usize_max) (frag_params fs) ->
  forall p, In p (frag_params fs) -> p_index p < usize_max.
Proof.
  induction fs as [|[s|p] fs IH]; intros args len r H L F q Hq; cbn [check_types frag_params] in *.
  - contradiction.
  - eauto.
  - inversion F as [|? ? F1 F2]; subst.
    destruct ((len <=? p_index p) && (p_index p =? usize_max)) eqn:B; try discriminate. cbv zeta in H.
    assert (P : p_index p < usize_max) by lia.
    destruct Hq as [<-|Hq]; auto.
    assert (L1 : (if len <=? p_index p then p_index p + 1 else len) <= usize_max)
      by (destruct (Z.leb_spec len (p_index p)); lia).
    destruct (lookup_arg (p_index p) args) as [other|].
    + destruct (is_bitfield other && is_bitfield (p_ty p)); [eauto|].
      destruct (negb (ty_eqb other (p_ty p))); try discriminate. eauto.
    + eauto.
Qed.

(** Argument numbers stay below the number of bytes, or were written. *)
Lemma next_after_le : forall next p, next <= next_after next p <= next + 1.
Proof. intros next p. unfold next_after. destruct (pr_index p); lia. Qed.

Lemma placed_le : forall m s p next, param_text m s p -> 0 <= next <= usize_max -> 0 <= p_index (placed next p) <= usize_max.
Proof.
  intros m s p next H N. apply parse_param_iff, parse_param_inv in H as (H & _). unfold placed. cbn [p_index].
  destruct (pr_index p) as [i|]; auto.
Qed.

Lemma nested_bound : forall m next s ps next', nested m next s ps next' ->
  0 <= next -> next + Z.of_nat (length s) <= usize_max ->
  next <= next' <= next + Z.of_nat (length s) /\ Forall (fun p => 0 <= p_index p <= usize_max) ps.
Proof.
  intros m next s ps next' H. induction H as [next|next c s ps next' N H IH|next s ps next' H IH|next s p ps next' N PT1 H IH];
    intros L U; cbn [length] in *.
  - split; [lia|constructor].
  - destruct IH as (A & B); [lia|lia|]. split; [lia|auto].
  - destruct IH as (A & B); [lia|lia|]. split; [lia|auto].
  - pose proof (next_after_le next p). destruct IH as (A & B); [lia|lia|]. split; [lia|].
    constructor; auto. eapply placed_le; eauto. lia.
Qed.

Lemma frag_params_map : forall ps, frag_params (map FParam ps) = ps.
Proof. induction ps as [|p ps IH]; cbn [map frag_params]; congruence. Qed.

Lemma format_bound : forall m next s fs, format m next s fs ->
  0 <= next -> next + Z.of_nat (length s) <= usize_max ->
  Forall (fun p => 0 <= p_index p <= usize_max) (frag_params fs).
Proof.
  intros m next s fs H. induction H as [next|next text v s fs NE Li B F IH|next body p ps next' s fs NB N125 PT1 NS F IH];
    intros L U.
  - constructor.
  - cbn [frag_params]. apply IH; auto. rewrite app_length in U. lia.
  - cbn [length] in U. rewrite app_length in U. cbn [length] in U. cbn [frag_params].
    rewrite frag_params_app, frag_params_map. pose proof (next_after_le next p).
    destruct (nested_bound _ _ _ _ _ NS) as (A & B); [lia|lia|].
    constructor; [eapply placed_le; eauto; lia|]. apply Forall_app. split; auto. apply IH; lia.
Qed.

(** The parser accepts exactly the format strings of the grammar whose arguments are
    [0..n], each with one type. *)
Theorem parse_iff : forall s m fs, Z.of_nat (length s) <= usize_max ->
  (parse s m = Ok fs <->
   format m 0 s fs /\ well_typed (frag_params fs) /\ forall p, In p (frag_params fs) -> p_index p < usize_max).
Proof.
  intros s m fs U. split.
  - intro H. assert (W : well_typed (frag_params fs)) by (eapply C18_lemma; eauto).
    rewrite parse_finish in H. apply bind_ok in H as (f & H1 & H). apply bind_ok in H as ([args len] & H2 & H).
    apply bind_ok in H as ([] & H3 & H). inversion H; subst f.
    apply scan_format_all in H1. split; auto. split; auto.
    eapply check_types_small; eauto; [unfold usize_max; lia|].
    apply format_bound in H1; [|lia|lia]. eapply Forall_impl; [|exact H1]. cbn. intros; lia.
  - intros (F & W & S). rewrite parse_finish. apply scan_format_all in F. rewrite F. cbn [bind].
    destruct (checks_ok fs W S) as (args & len & C1 & C2). rewrite C1. cbn [bind]. rewrite C2. reflexivity.
Qed.
