(** Parsing format strings that were put together from pieces: text without braces before
    or after an accepted string, and further parameters after it. *)
From Verif Require Import Base ParserModel ParserProofs ParserMore FormatSpec RenderProofs MacroSpec.

(* ------------------------------------------------------------------ *)
(** * Literals *)

Lemma scan_braces_before : forall a x, no_braces a -> scan_braces false false (a ++ x) = scan_braces false false x.
Proof.
  induction a as [|c a IH]; intros x [H1 H2]; [reflexivity|]. cbn [app scan_braces].
  destruct (Z.eqb_spec c 123); [exfalso; apply H1; cbn; auto|].
  destruct (Z.eqb_spec c 125); [exfalso; apply H2; cbn; auto|].
  apply IH. split; intro; [apply H1|apply H2]; cbn; auto.
Qed.

Lemma scan_braces_after : forall x o c b, no_braces b -> scan_braces o c x = Ok tt -> scan_braces o c (x ++ b) = Ok tt.
Proof.
  induction x as [|y x IH]; intros o c b B H; cbn [app scan_braces] in *.
  - destruct o; [discriminate|]. destruct c; [discriminate|]. rewrite <- (app_nil_r b), scan_braces_before; auto.
  - destruct (y =? 123); [auto|]. destruct (y =? 125); [auto|].
    destruct o; [discriminate|]. destruct c; [discriminate|]. auto.
Qed.

Lemma undouble_before : forall c a x, ~ In c a -> undouble c (a ++ x) = a ++ undouble c x.
Proof.
  induction a as [|y a IH]; intros x H; [reflexivity|]. cbn [app undouble].
  destruct (Z.eqb_spec y c); [exfalso; apply H; cbn; auto|]. rewrite IH; auto. intro; apply H; cbn; auto.
Qed.

Lemma undouble_id : forall c b, ~ In c b -> undouble c b = b.
Proof. intros c b H. rewrite <- (app_nil_r b) at 1. rewrite undouble_before by auto. cbn. apply app_nil_r. Qed.

Lemma undouble_after : forall c n x b, (length x <= n)%nat -> ~ In c b -> undouble c (x ++ b) = undouble c x ++ b.
Proof.
  intros c. induction n as [|n IH]; intros x b L H.
  - destruct x; cbn in L; [|lia]. cbn [app undouble]. apply undouble_id; auto.
  - destruct x as [|y x]; [apply undouble_id; auto|]. cbn [length] in L. cbn [app undouble].
    destruct (Z.eqb_spec y c); [|rewrite IH by (auto; lia); reflexivity].
    destruct x as [|z x].
    + cbn [app]. destruct b as [|z b]; [reflexivity|]. destruct (Z.eqb_spec z c); [exfalso; apply H; cbn; auto|].
      rewrite undouble_id by auto. reflexivity.
    + cbn [app length] in *. destruct (Z.eqb_spec z c).
      * rewrite IH by (auto; lia). reflexivity.
      * change (z :: x ++ b) with ((z :: x) ++ b). rewrite IH by (cbn [length]; auto; lia). reflexivity.
Qed.

Definition unescaped (x : bytes) : bytes := undouble 125 (undouble 123 x).

Lemma unescaped_before : forall a x, no_braces a -> unescaped (a ++ x) = a ++ unescaped x.
Proof. intros a x [H1 H2]. unfold unescaped. rewrite !undouble_before by auto. reflexivity. Qed.

Lemma unescaped_after : forall b x, no_braces b -> unescaped (x ++ b) = unescaped x ++ b.
Proof.
  intros b x [H1 H2]. unfold unescaped.
  rewrite (undouble_after 123 _ _ _ (le_n _) H1), (undouble_after 125 _ _ _ (le_n _) H2). reflexivity.
Qed.

Lemma push_before : forall fs a x fs', no_braces a -> push_literal fs x = Ok fs' ->
  push_literal fs (a ++ x) = Ok (fs ++ [FLit (a ++ unescaped x)]).
Proof.
  intros fs a x fs' A H. apply push_literal_inv in H as [_ H]. unfold push_literal.
  rewrite scan_braces_before, H by auto. cbn [bind]. change (undouble 125 (undouble 123 (a ++ x))) with (unescaped (a ++ x)).
  rewrite unescaped_before by auto. reflexivity.
Qed.

Lemma push_after : forall fs b x fs', no_braces b -> push_literal fs x = Ok fs' ->
  push_literal fs (x ++ b) = Ok (fs ++ [FLit (unescaped x ++ b)]).
Proof.
  intros fs b x fs' A H. apply push_literal_inv in H as [_ H]. unfold push_literal.
  rewrite (scan_braces_after _ _ _ _ A H). cbn [bind]. change (undouble 125 (undouble 123 (x ++ b))) with (unescaped (x ++ b)).
  rewrite unescaped_after by auto. reflexivity.
Qed.

Lemma push_plain : forall fs a, no_braces a -> push_literal fs a = Ok (fs ++ [FLit a]).
Proof.
  intros fs a A. rewrite <- (app_nil_r a) at 1. erewrite push_before; [|auto|reflexivity].
  cbn. rewrite app_nil_r. reflexivity.
Qed.

(* ------------------------------------------------------------------ *)
(** * The first two stages of the parser *)

(** The fragments of [s], and the number of the next parameter without index. *)
Definition lexes (m : mode) (s : bytes) (fs : list fragment) (n : Z) : Prop :=
  exists fs0 e, scan m s s 0%nat ([], 0%nat, 0) = Ok (fs0, e, n) /\ (e <= length s)%nat /\
    (if (e =? length s)%nat then Ok fs0 else push_literal fs0 (skipn e s)) = Ok fs.

Definition checks (fs : list fragment) : Prop :=
  exists args len, check_types fs [] 0 = Ok (args, len) /\ check_dense args len = Ok tt.

Lemma position_before : forall f r b len, position f r = Some len -> position f (r ++ b) = Some len /\ (len < length r)%nat.
Proof.
  intros f. induction r as [|x r IH]; intros b len H; cbn [app position length] in *; [discriminate|].
  destruct (f x).
  - injection H as <-. split; [auto|lia].
  - destruct (position f r) as [k|]; [|discriminate]. injection H as <-.
    destruct (IH b k eq_refl) as [-> ?]. split; [reflexivity|lia].
Qed.

Lemma slice_before : forall s b e pos, (pos <= length s)%nat -> slice (s ++ b) e pos = slice s e pos.
Proof.
  intros s b e pos L. unfold slice. rewrite skipn_app, firstn_app, skipn_length.
  replace (pos - e - (length s - e))%nat with O by lia. cbn [firstn]. apply app_nil_r.
Qed.

Lemma at_param_more : forall m s b pos rest fs e n st, (pos + 1 + length rest = length s)%nat ->
  at_param m s pos rest (fs, e, n) = Ok st ->
  at_param m (s ++ b) pos (rest ++ b) (fs, e, n) = Ok st /\ (snd (fst st) <= length s)%nat /\ rest <> [].
Proof.
  intros m s b pos rest fs e n [[fs' e'] n'] L H. pose proof H as H'.
  apply at_param_inv in H' as (len & p & fs1 & A & B & C & D & E & F).
  destruct (position_before _ _ b _ B) as [B' L']. split; [|split].
  - unfold at_param in *. rewrite slice_before by lia. rewrite B'. rewrite B in H.
    rewrite firstn_app. replace (len - length rest)%nat with O by lia. cbn [firstn]. rewrite app_nil_r. exact H.
  - cbn [fst snd]. subst e'. lia.
  - destruct rest; [discriminate|congruence].
Qed.

Lemma scan_more : forall m s b k rest pos fs e n st, (length rest <= k)%nat -> (pos + length rest = length s)%nat ->
  (e <= length s)%nat -> scan m s rest pos (fs, e, n) = Ok st ->
  scan m (s ++ b) (rest ++ b) pos (fs, e, n) = scan m (s ++ b) b (length s) st /\ (snd (fst st) <= length s)%nat.
Proof.
  intros m s b. induction k as [|k IH]; intros rest pos fs e n st Lk L Le H.
  - destruct rest; cbn [length] in *; [|lia]. cbn [scan app] in *. injection H as <-. split; [|exact Le].
    replace (length s) with pos by lia. reflexivity.
  - destruct rest as [|c rest1].
    { cbn [scan app length] in *. injection H as <-. split; [|exact Le]. replace (length s) with pos by lia. reflexivity. }
    cbn [length] in *. cbn [scan app] in *. destruct (negb (c =? 123)). { apply IH; auto; lia. }
    destruct rest1 as [|c2 rest2].
    { apply bind_ok in H as ([[? ?] ?] & H1 & _). apply (at_param_more m s b) in H1 as (_ & _ & H1); [congruence|cbn [length] in *; lia]. }
    cbn [length app] in *. destruct (c2 =? 123). { apply IH; auto; lia. }
    apply bind_ok in H as ([[fs1 e1] n1] & H1 & H2). apply (at_param_more m s b) in H1 as (H1 & L1 & _); [|cbn; lia].
    cbn [app] in H1. rewrite H1. cbn [bind fst snd] in *.
    apply (IH (c2 :: rest2)); auto; cbn [length]; lia.
Qed.

(** Appending text without braces. *)
Definition followed (fs : list fragment) (b : bytes) (fs' : list fragment) : Prop :=
  fs' = fs ++ [FLit b] \/ exists fs0 l, fs = fs0 ++ [FLit l] /\ fs' = fs0 ++ [FLit (l ++ b)].

Lemma lexes_after : forall m s fs n b, lexes m s fs n -> no_braces b -> b <> [] ->
  exists fs', lexes m (s ++ b) fs' n /\ followed fs b fs'.
Proof.
  intros m s fs n b (fs0 & e & H1 & Le & H2) B Bn.
  destruct (scan_more m s b _ s 0%nat [] 0%nat 0 _ (le_n _) (eq_refl _) (Nat.le_0_l _) H1) as [H3 _].
  assert (H4 : scan m (s ++ b) (s ++ b) 0 ([], 0%nat, 0) = Ok (fs0, e, n)).
  { rewrite H3. rewrite <- (app_nil_r b) at 2. rewrite scan_skip by apply B. reflexivity. }
  assert (Lb : (0 < length b)%nat) by (destruct b; [congruence|cbn; lia]).
  assert (K : skipn e (s ++ b) = skipn e s ++ b).
  { rewrite skipn_app. replace (e - length s)%nat with O by lia. reflexivity. }
  destruct (Nat.eqb_spec e (length s)) as [Ee|Ee].
  - injection H2 as <-. exists (fs0 ++ [FLit b]). split; [|left; reflexivity].
    exists fs0, e. split; [exact H4|]. rewrite app_length. split; [lia|].
    destruct (Nat.eqb_spec e (length s + length b)); [lia|]. rewrite K.
    rewrite (skipn_all2 s) by lia. apply push_plain. exact B.
  - exists (fs0 ++ [FLit (unescaped (skipn e s) ++ b)]). split.
    + exists fs0, e. split; [exact H4|]. rewrite app_length. split; [lia|].
      destruct (Nat.eqb_spec e (length s + length b)); [lia|]. rewrite K.
      apply (push_after _ _ _ _ B H2).
    + right. apply push_literal_inv in H2 as [-> _]. eauto.
Qed.

(** Appending a parameter without index. *)
Lemma lexes_param : forall m s fs n body t h, lexes m s fs n -> no_braces body ->
  parse_param body m = Ok (Param None t h) ->
  lexes m (s ++ 123 :: body ++ [125]) (fs ++ [FParam (MkParameter n t h)]) (n + 1).
Proof.
  intros m s fs n body t h (fs0 & e & H1 & Le & H2) B Q.
  destruct (scan_more m s (123 :: body ++ [125]) _ s 0%nat [] 0%nat 0 _ (le_n _) (eq_refl _) (Nat.le_0_l _) H1) as [H3 _].
  set (S := s ++ 123 :: body ++ [125]) in *. set (e' := (length s + 1 + length body + 1)%nat).
  assert (A : at_param m S (length s) (body ++ [125]) (fs0, e, n) = Ok (fs ++ [FParam (MkParameter n t h)], e', n + 1)).
  { unfold at_param.
    assert (P : (if (e <? length s)%nat then push_literal fs0 (slice S e (length s)) else Ok fs0) = Ok fs).
    { unfold S. rewrite slice_before by lia. unfold slice. rewrite (firstn_all2 (skipn e s)) by (rewrite skipn_length; lia).
      destruct (Nat.eqb_spec e (length s)); destruct (Nat.ltb_spec e (length s)); auto; lia. }
    rewrite P. cbn [bind]. destruct B as [_ B].
    rewrite position_app; [|rewrite Forall_forall; intros x Hx; destruct (Z.eqb_spec x 125); auto; subst; contradiction|reflexivity].
    rewrite firstn_app_exact, Q. reflexivity. }
  exists (fs ++ [FParam (MkParameter n t h)]), e'.
  assert (L4 : length S = e') by (unfold S, e'; rewrite app_length; cbn [length]; rewrite app_length; cbn [length]; lia).
  split; [|split; [lia|]].
  - rewrite H3. rewrite scan_param by exact B. rewrite A. reflexivity.
  - rewrite L4, Nat.eqb_refl. reflexivity.
Qed.

(** Putting text without braces in front. *)
Definition preceded (a : bytes) (fs : list fragment) : list fragment :=
  match fs with FLit l :: r => FLit (a ++ l) :: r | r => FLit a :: r end.

Lemma preceded_app : forall a fs x, fs <> [] -> preceded a (fs ++ x) = preceded a fs ++ x.
Proof. intros a [|[l|p] fs] x H; [congruence|reflexivity|reflexivity]. Qed.

Definition shifted (a : bytes) (st st1 : scan_state) : Prop :=
  let '(fs, e, n) := st in let '(fs1, e1, n1) := st1 in
  n1 = n /\ ((e = 0%nat /\ fs = [] /\ e1 = 0%nat /\ fs1 = []) \/
             ((0 < e)%nat /\ fs <> [] /\ e1 = (length a + e)%nat /\ fs1 = preceded a fs)).

Lemma at_param_shift : forall m s a pos rest st st1 st', no_braces a -> a <> [] -> shifted a st st1 ->
  at_param m s pos rest st = Ok st' ->
  exists st1', at_param m (a ++ s) (length a + pos) rest st1 = Ok st1' /\ shifted a st' st1'.
Proof.
  intros m s a pos rest [[fs e] n] [[fs1 e1] n1] [[fs' e'] n'] A An [-> R] H.
  apply at_param_inv in H as (len & p & fsl & H1 & H2 & H3 & -> & -> & ->).
  assert (La : (0 < length a)%nat) by (destruct a; [congruence|cbn; lia]).
  assert (P : (if (e1 <? length a + pos)%nat then push_literal fs1 (slice (a ++ s) e1 (length a + pos)) else Ok fs1) =
              Ok (preceded a fsl)).
  { destruct R as [(-> & -> & -> & ->)|(Ee & Fn & -> & ->)].
    - destruct (Nat.ltb_spec 0 (length a + pos)); [|lia]. unfold slice.
      rewrite skipn_O, Nat.sub_0_r, firstn_app.
      rewrite (firstn_all2 a) by lia. replace (length a + pos - length a)%nat with pos by lia.
      destruct (Nat.ltb_spec 0 pos).
      + unfold slice in H1. rewrite skipn_O, Nat.sub_0_r in H1.
        rewrite (push_before _ _ _ _ A H1). apply push_literal_inv in H1 as [-> _]. reflexivity.
      + replace pos with O by lia. cbn [firstn]. rewrite app_nil_r. injection H1 as <-.
        rewrite push_plain by auto. reflexivity.
    - replace (length a + e <? length a + pos)%nat with (e <? pos)%nat
        by (destruct (Nat.ltb_spec e pos); destruct (Nat.ltb_spec (length a + e) (length a + pos)); auto; lia).
      destruct (e <? pos)%nat; [|injection H1 as <-; reflexivity].
      assert (K : slice (a ++ s) (length a + e) (length a + pos) = slice s e pos).
      { unfold slice. replace (length a + pos - (length a + e))%nat with (pos - e)%nat by lia.
        f_equal. rewrite skipn_app. rewrite (skipn_all2 a) by lia. cbn [app]. f_equal. lia. }
      rewrite K. unfold push_literal in *. apply bind_ok in H1 as ([] & -> & H1). cbn [bind]. injection H1 as <-.
      rewrite preceded_app by auto. reflexivity. }
  assert (N : fsl = [] -> fs = [] /\ e = 0%nat).
  { intros ->. destruct R as [(-> & -> & _)|(Ee & Fn & _)]; [auto|].
    destruct (e <? pos)%nat; [apply push_literal_inv in H1 as [H1 _]; destruct fs; discriminate|injection H1 as ->; congruence]. }
  unfold at_param. rewrite P. cbn [bind]. rewrite H2, H3. cbn [bind].
  destruct (pr_index p) as [i|]; eexists; (split; [reflexivity|]); (split; [reflexivity|]); right;
    (split; [lia|]); (split; [destruct fsl; discriminate|]); (split; [lia|]);
    (destruct fsl as [|[l|q] fsl]; reflexivity).
Qed.

Lemma scan_shift : forall m s a k rest pos st st1 st', (length rest <= k)%nat -> no_braces a -> a <> [] -> shifted a st st1 ->
  scan m s rest pos st = Ok st' ->
  exists st1', scan m (a ++ s) rest (length a + pos) st1 = Ok st1' /\ shifted a st' st1'.
Proof.
  intros m s a. induction k as [|k IH]; intros rest pos st st1 st' Lk A An R H.
  - destruct rest; cbn [length] in *; [|lia]. cbn [scan] in *. injection H as <-. eauto.
  - destruct rest as [|c rest1]; [cbn [scan] in *; injection H as <-; eauto|]. cbn [length] in Lk. cbn [scan] in *.
    rewrite <- Nat.add_succ_r. destruct (negb (c =? 123)). { eapply IH; eauto. lia. }
    destruct rest1 as [|c2 rest2].
    { apply bind_ok in H as (st2 & H1 & H2). destruct (at_param_shift _ _ _ _ _ _ _ _ A An R H1) as (st3 & E & R').
      rewrite E. cbn [bind]. eapply IH; eauto. cbn. lia. }
    cbn [length] in Lk. destruct (c2 =? 123). { rewrite <- Nat.add_succ_r. eapply IH; eauto. lia. }
    apply bind_ok in H as (st2 & H1 & H2). destruct (at_param_shift _ _ _ _ _ _ _ _ A An R H1) as (st3 & E & R').
    rewrite E. cbn [bind]. eapply IH; eauto. cbn [length]. lia.
Qed.

Lemma lexes_before : forall m s fs n a, lexes m s fs n -> no_braces a -> a <> [] -> lexes m (a ++ s) (preceded a fs) n.
Proof.
  intros m s fs n a (fs0 & e & H1 & Le & H2) A An.
  assert (La : (0 < length a)%nat) by (destruct a; [congruence|cbn; lia]).
  assert (R0 : shifted a ([], 0%nat, 0) ([], 0%nat, 0)) by (split; [reflexivity|left; auto]).
  destruct (scan_shift m s a _ _ _ _ ([], 0%nat, 0) _ (le_n _) A An R0 H1) as ([[fs1 e1] n1] & H3 & -> & R).
  rewrite Nat.add_0_r in H3.
  exists fs1, e1. split; [rewrite scan_skip by apply A; exact H3|].
  rewrite app_length. destruct R as [(-> & -> & -> & ->)|(Ee & Fn & -> & ->)].
  - split; [lia|]. destruct (Nat.eqb_spec 0 (length a + length s)); [lia|]. cbn [skipn].
    destruct (Nat.eqb_spec 0 (length s)).
    + destruct s; [|discriminate]. injection H2 as <-. rewrite app_nil_r, push_plain by auto. reflexivity.
    + cbn [skipn] in H2. rewrite (push_before _ _ _ _ A H2). apply push_literal_inv in H2 as [-> _]. reflexivity.
  - split; [lia|]. replace (length a + e =? length a + length s)%nat with (e =? length s)%nat
      by (destruct (Nat.eqb_spec e (length s)); destruct (Nat.eqb_spec (length a + e) (length a + length s)); auto; lia).
    destruct (e =? length s)%nat; [injection H2 as <-; reflexivity|].
    assert (K : skipn (length a + e) (a ++ s) = skipn e s).
    { rewrite skipn_app. rewrite (skipn_all2 a) by lia. cbn [app]. f_equal. lia. }
    rewrite K. unfold push_literal in *. apply bind_ok in H2 as ([] & -> & H2). cbn [bind]. injection H2 as <-.
    rewrite preceded_app by auto. reflexivity.
Qed.

Lemma lexes_empty : forall m, lexes m [] [] 0.
Proof. intros m. exists [], 0%nat. repeat split; auto. Qed.

Lemma parse_lexes : forall m s fs, parse s m = Ok fs -> exists n, lexes m s fs n /\ checks fs.
Proof.
  intros m s fs H. apply parse_inv in H as (fs0 & e & n & args & len & H1 & H2 & H3 & H4).
  exists n. split; [|exists args, len; auto]. exists fs0, e. split; [auto|]. split; [|auto].
  destruct (scan_more m s [] _ s 0%nat [] 0%nat 0 _ (le_n _) (eq_refl _) (Nat.le_0_l _) H1) as [_ L]. exact L.
Qed.

Lemma lexes_parse : forall m s fs n, lexes m s fs n -> checks fs -> parse s m = Ok fs.
Proof.
  intros m s fs n (fs0 & e & H1 & _ & H2) (args & len & H3 & H4).
  unfold parse. rewrite H1. cbn [bind]. rewrite H2. cbn [bind]. rewrite H3. cbn [bind]. rewrite H4. reflexivity.
Qed.

(** The checks only look at the parameters. *)
Lemma check_types_params : forall fs fs' args len, frag_params fs = frag_params fs' ->
  check_types fs args len = check_types fs' args len.
Proof.
  induction fs as [|[l|p] fs IH]; intros fs' args len H; cbn [frag_params] in H.
  - induction fs' as [|[l|p] fs' IH']; cbn [frag_params] in H; [reflexivity| |discriminate]. cbn [check_types]. auto.
  - cbn [check_types]. auto.
  - revert H. induction fs' as [|[l|q] fs' IH']; intros H; cbn [frag_params] in H; [discriminate| |].
    + cbn [check_types]. cbn [check_types] in IH'. rewrite <- IH' by auto. reflexivity.
    + injection H as <- H. cbn [check_types]. destruct (_ && _); [reflexivity|]. cbv zeta.
      destruct (lookup_arg _ _); [|auto]. destruct (_ && _); [auto|]. destruct (negb _); auto.
Qed.

Lemma checks_params : forall fs fs', frag_params fs = frag_params fs' -> checks fs -> checks fs'.
Proof.
  intros fs fs' E (args & len & H1 & H2). exists args, len. rewrite <- (check_types_params _ _ _ _ E). auto.
Qed.

Lemma preceded_params : forall a fs, frag_params (preceded a fs) = frag_params fs.
Proof. intros a [|[l|p] fs]; reflexivity. Qed.

Lemma followed_params : forall fs b fs', followed fs b fs' -> frag_params fs' = frag_params fs.
Proof.
  intros fs b fs' [->|(fs0 & l & -> & ->)]; rewrite !frag_params_app; cbn [frag_params]; [apply app_nil_r|reflexivity].
Qed.

(* ------------------------------------------------------------------ *)
(** * Parameters without index *)

Lemma parse_param_implicit : forall s m p, match s with c :: _ => is_digit c = false | [] => True end ->
  parse_param s m = Ok p -> pr_index p = None.
Proof.
  intros s m p D H. unfold parse_param in H. assert (E : digits s = 0%nat).
  { destruct s as [|c s]; [reflexivity|]. cbn [digits]. rewrite D. reflexivity. }
  rewrite E in H. cbn [firstn skipn length Nat.eqb] in H.
  cbn [bind] in H. apply bind_ok in H as ([t rest] & _ & H). apply bind_ok in H as (h & _ & H). injection H as <-. reflexivity.
Qed.

Definition numbered (fs : list fragment) (n : Z) : Prop :=
  n = Z.of_nat (length (frag_params fs)) /\
  map p_index (frag_params fs) = map Z.of_nat (seq 0 (length (frag_params fs))).

Lemma push_literal_params : forall fs s fs', push_literal fs s = Ok fs' -> frag_params fs' = frag_params fs.
Proof. intros fs s fs' H. apply push_literal_inv in H as [-> _]. rewrite frag_params_app. apply app_nil_r. Qed.

Lemma scan_numbered : forall m s, no_index s -> forall k rest pos fs e n fs' e' n', (length rest <= k)%nat ->
  (exists a, s = a ++ rest) -> numbered fs n -> scan m s rest pos (fs, e, n) = Ok (fs', e', n') -> numbered fs' n'.
Proof.
  intros m s NI. induction k as [|k IH]; intros rest pos fs e n fs' e' n' Lk [a Ea] N H.
  - destruct rest; cbn [length] in *; [|lia]. cbn [scan] in *. injection H as <- _ <-. exact N.
  - destruct rest as [|c rest1]; [cbn [scan] in H; injection H as <- _ <-; exact N|]. cbn [length] in Lk. cbn [scan] in H.
    assert (E1 : exists a, s = a ++ rest1) by (exists (a ++ [c]); rewrite <- app_assoc; exact Ea).
    destruct (Z.eqb_spec c 123) as [Ec|]; cbn [negb] in H; [|eapply IH; eauto; lia].
    assert (G : forall st, at_param m s pos rest1 (fs, e, n) = Ok st -> let '(f, _, n) := st in numbered f n).
    { intros [[fs1 e1] n1] H1. apply at_param_inv in H1 as (len & p & fsl & P1 & P2 & P3 & -> & -> & ->).
      assert (P4 : pr_index p = None).
      { apply (parse_param_implicit _ _ _) with (2 := P3). destruct rest1 as [|d b]; [destruct len; exact I|].
        destruct len; [exact I|]. cbn [firstn]. apply (NI a d b). rewrite Ea, Ec. reflexivity. }
      rewrite P4. assert (P5 : frag_params fsl = frag_params fs).
      { destruct (e <? pos)%nat; [eapply push_literal_params; eauto|injection P1 as <-; reflexivity]. }
      destruct N as [-> N]. unfold numbered. rewrite frag_params_app, P5. cbn [frag_params]. rewrite map_app, app_length. cbn [length map p_index].
      split; [lia|]. rewrite seq_app, map_app, N. reflexivity. }
    destruct rest1 as [|c2 rest2].
    { apply bind_ok in H as ([[? ?] ?] & H1 & H2). apply G in H1. eapply IH; eauto. cbn; lia. }
    cbn [length] in Lk. destruct (c2 =? 123).
    { eapply IH; [|exists (a ++ [c; c2]); rewrite <- app_assoc; exact Ea|exact N|exact H]. lia. }
    apply bind_ok in H as ([[? ?] ?] & H1 & H2). apply G in H1. eapply IH; eauto. cbn [length]; lia.
Qed.

Lemma lexes_numbered : forall m s fs n, no_index s -> lexes m s fs n -> numbered fs n.
Proof.
  intros m s fs n NI (fs0 & e & H1 & _ & H2).
  assert (N : numbered fs0 n).
  { eapply (scan_numbered m s NI _ s 0%nat [] 0%nat 0); [apply le_n|exists []; reflexivity| |exact H1]. split; reflexivity. }
  assert (E : frag_params fs = frag_params fs0).
  { destruct (e =? length s)%nat; [injection H2 as <-; reflexivity|eapply push_literal_params; eauto]. }
  unfold numbered. rewrite E. exact N.
Qed.

(** Parameters that are numbered in order pass the checks. *)
Lemma numbered_checks : forall fs n, numbered fs n -> n < usize_max -> checks fs.
Proof.
  intros fs n [-> N] U. set (k := length (frag_params fs)) in *.
  assert (X : forall i p, nth_error (frag_params fs) i = Some p -> p_index p = Z.of_nat i /\ (i < k)%nat).
  { intros i p H. assert (i < k)%nat by (apply nth_error_Some; congruence). split; [|auto].
    pose proof (map_nth_error p_index _ _ H) as J. rewrite N in J.
    rewrite (map_nth_error Z.of_nat i (seq 0 k) (d := i)) in J; [congruence|].
    rewrite (nth_error_nth' _ 0%nat) by (rewrite seq_length; auto). rewrite seq_nth; auto. }
  apply checks_ok.
  - exists (Z.of_nat k). split; [lia|]. split; [|split].
    + intros p Hp. apply In_nth_error in Hp as (i & Hi). apply X in Hi. lia.
    + intros i Hi. destruct (nth_error (frag_params fs) (Z.to_nat i)) as [p|] eqn:E.
      * exists p. split; [eapply nth_error_In; eauto|]. apply X in E. lia.
      * apply nth_error_None in E. fold k in E. lia.
    + intros p q Hp Hq E. apply In_nth_error in Hp as (i & Hi). apply In_nth_error in Hq as (j & Hj).
      destruct (X _ _ Hi) as [Ei _]. destruct (X _ _ Hj) as [Ej _]. assert (i = j) by lia. subst j. rewrite Hi in Hj. injection Hj as <-. auto.
  - intros p Hp. apply In_nth_error in Hp as (i & Hi). apply X in Hi. lia.
Qed.

Lemma parse_param_explicit : forall c s m p, is_digit c = true -> parse_param (c :: s) m = Ok p -> pr_index p <> None.
Proof.
  intros c s m p D H. unfold parse_param in H. cbn [digits] in H. rewrite D in H. cbn [firstn length Nat.eqb] in H.
  apply bind_ok in H as (i & H1 & H). apply bind_ok in H as ([t rest] & _ & H). apply bind_ok in H as (h & _ & H). injection H as <-.
  cbn [pr_index]. destruct (parse_digits _ _); [|discriminate]. injection H1 as <-. discriminate.
Qed.

Lemma scan_explicit : forall m s, all_indexed s -> forall k rest pos fs e n fs' e' n', (length rest <= k)%nat ->
  (exists a, s = a ++ rest) -> scan m s rest pos (fs, e, n) = Ok (fs', e', n') -> n' = n.
Proof.
  intros m s AI. induction k as [|k IH]; intros rest pos fs e n fs' e' n' Lk [a Ea] H.
  - destruct rest; cbn [length] in *; [|lia]. cbn [scan] in *. injection H as _ _ <-. reflexivity.
  - destruct rest as [|c rest1]; [cbn [scan] in H; injection H as _ _ <-; reflexivity|]. cbn [length] in Lk. cbn [scan] in H.
    assert (E1 : exists a, s = a ++ rest1) by (exists (a ++ [c]); rewrite <- app_assoc; exact Ea).
    destruct (Z.eqb_spec c 123) as [Ec|]; cbn [negb] in H; [|eapply IH; eauto; lia].
    subst c. destruct (AI a rest1 Ea) as (d & r & -> & D).
    destruct (Z.eqb_spec d 123) as [->|]; [discriminate|].
    apply bind_ok in H as ([[fs1 e1] n1] & H1 & H2).
    apply at_param_inv in H1 as (len & p & fsl & P1 & P2 & P3 & -> & -> & ->).
    assert (P4 : pr_index p <> None).
    { destruct len as [|len].
      - cbn [position] in P2. destruct (Z.eqb_spec d 125) as [->|]; [discriminate|]. destruct (position _ r); discriminate.
      - cbn [firstn] in P3. eapply parse_param_explicit; eauto. }
    apply IH in H2; [|cbn [length] in *; lia|exact E1]. rewrite H2. destruct (pr_index p); congruence.
Qed.

Lemma lexes_explicit : forall m s fs n, all_indexed s -> lexes m s fs n -> n = 0.
Proof.
  intros m s fs n AI (fs0 & e & H1 & _ & _).
  eapply (scan_explicit m s AI _ s 0%nat [] 0%nat 0); [apply le_n|exists []; reflexivity|exact H1].
Qed.

Lemma lexes_unique : forall m s fs1 n1 fs2 n2, lexes m s fs1 n1 -> lexes m s fs2 n2 -> fs1 = fs2 /\ n1 = n2.
Proof.
  intros m s fs1 n1 fs2 n2 (a & e & H1 & _ & H2) (b & e' & H3 & _ & H4). rewrite H1 in H3. injection H3 as <- <- <-.
  rewrite H2 in H4. injection H4 as <-. auto.
Qed.
