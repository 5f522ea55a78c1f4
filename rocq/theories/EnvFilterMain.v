(** The [DEFMT_LOG] filter: which statements are compiled in (C32, C33). *)
From Verif Require Import Base ParserModel EnvFilterModel EnvFilterSpec EnvFilterProofs.

(* ------------------------------------------------------------------ *)
(** * The map of settings *)

Definition opath_eqb (a b : option path) : bool :=
  match a, b with
  | None, None => true
  | Some p, Some q => path_eqb p q
  | _, _ => false
  end.

Lemma opath_eqb_iff : forall a b, opath_eqb a b = true <-> a = b.
Proof.
  intros [p|] [q|]; cbn; split; intros H; try discriminate; auto.
  - apply path_eqb_iff in H. congruence.
  - apply path_eqb_iff. congruence.
Qed.

Fixpoint find_dir (o : option path) (xs : list directive) : option (option level) :=
  match xs with
  | [] => None
  | (o', l) :: xs' => if opath_eqb o o' then Some l else find_dir o xs'
  end.

Lemma find_none : forall o xs, find_dir o xs = None <-> forall l, ~ In (o, l) xs.
Proof.
  intros o xs. induction xs as [|[o' l'] xs IH]; cbn; [intuition|]. destruct (opath_eqb o o') eqn:E.
  - apply opath_eqb_iff in E. subst. split; [discriminate|]. intros H. exfalso. apply (H l'). auto.
  - rewrite IH. split.
    + intros H l [Q|Q]; [|now apply H in Q]. inversion Q; subst. assert (opath_eqb o o = true) by (now apply opath_eqb_iff). congruence.
    + intros H l Q. apply (H l). auto.
Qed.

Lemma find_some : forall o xs l, find_dir o xs = Some l <->
  exists a b, xs = a ++ (o, l) :: b /\ forall l', ~ In (o, l') a.
Proof.
  intros o xs l. induction xs as [|[o' l'] xs IH]; cbn.
  - split; [discriminate|]. intros ([|] & b & E & _); discriminate.
  - destruct (opath_eqb o o') eqn:E.
    + apply opath_eqb_iff in E. subst o'. split.
      * intros H. inversion H; subst. exists [], xs. split; auto.
      * intros ([|x a] & b & Q & N); inversion Q; subst; auto. exfalso. apply (N l'). now left.
    + assert (NE : o <> o') by (intros ->; assert (opath_eqb o' o' = true) by (now apply opath_eqb_iff); congruence).
      rewrite IH. split.
      * intros (a & b & -> & N). exists ((o', l') :: a), b. split; auto. intros l2 [Q|Q]; [congruence|now apply N in Q].
      * intros ([|x a] & b & Q & N); inversion Q; subst; [congruence|]. exists a, b. split; auto. intros l2 I. apply (N l2). now right.
Qed.

Lemma find_last : forall o xs l, find_dir o xs = Some l <-> last_directive o (rev xs) l.
Proof.
  intros o xs l. rewrite find_some. unfold last_directive. split.
  - intros (a & b & -> & N). exists (rev b), (rev a). rewrite rev_app_distr. cbn [rev]. rewrite <- app_assoc. split; auto.
    intros l' I. apply in_rev in I. now apply N in I.
  - intros (b & a & E & N). exists (rev a), (rev b). split.
    + rewrite <- (rev_involutive xs), E, rev_app_distr. cbn [rev]. now rewrite <- app_assoc.
    + intros l' I. apply in_rev in I. now apply N in I.
Qed.

Lemma find_none_rev : forall o xs, find_dir o xs = None <-> forall l, ~ In (o, l) (rev xs).
Proof. intros. rewrite find_none. split; intros H l I; apply (H l); now apply in_rev in I || (rewrite in_rev; auto). Qed.

Lemma fold_settings : forall caller xs entries fb, sorted entries ->
  let st := fold_left (add_entry caller) xs (entries, fb) in
  sorted (fst st) /\
  (forall p l, In (p, l) (fst st) <->
     In (p, l) entries \/
     ((forall v, ~ In (p, v) entries) /\ hd [] p = caller /\ find_dir (Some p) (map of_entry xs) = Some l)) /\
  snd st = match fb with Some _ => fb | None => find_dir None (map of_entry xs) end.
Proof.
  intros caller. induction xs as [|d xs IH]; intros entries fb S; cbn [fold_left map].
  { cbn. split; auto. split; [|destruct fb; auto]. intros p l. split; [auto|]. intros [H|(_ & _ & H)]; [auto|discriminate]. }
  assert (P : forall p0 l0, of_entry d = (Some p0, l0) -> add_entry caller (entries, fb) d = add_path caller p0 l0 (entries, fb) ->
    let st := fold_left (add_entry caller) xs (add_entry caller (entries, fb) d) in
    sorted (fst st) /\
    (forall p l, In (p, l) (fst st) <->
       In (p, l) entries \/
       ((forall v, ~ In (p, v) entries) /\ hd [] p = caller /\ find_dir (Some p) (of_entry d :: map of_entry xs) = Some l)) /\
    snd st = match fb with Some _ => fb | None => find_dir None (of_entry d :: map of_entry xs) end).
  { intros p0 l0 E1 ->. rewrite E1. unfold add_path.
    destruct (beq (hd [] p0) caller && negb (contains p0 entries)) eqn:C.
    - apply andb_prop in C as [C1 C2]. apply beq_true in C1. apply negb_true_iff in C2.
      pose proof (proj1 (contains_false p0 entries) C2) as C3.
      specialize (IH (put p0 l0 entries) fb (put_sorted _ _ _ S)). cbv zeta in IH. destruct IH as (I1 & I2 & I3).
      split; [exact I1|]. split; [|exact I3]. intros p l. rewrite I2. cbn [find_dir opath_eqb].
      rewrite (put_in entries p0 l0 p l S). destruct (path_eqb p p0) eqn:Q.
      + apply path_eqb_iff in Q. subst p. split.
        * intros [[[_ ->]|[N _]]|(N & _)]; [right; auto|congruence|]. exfalso. apply (N l0). apply put_in; auto.
        * intros [H|(_ & _ & H)]; [now apply C3 in H|]. inversion H; subst. auto.
      + assert (NE : p <> p0) by (intros ->; assert (path_eqb p0 p0 = true) by (now apply path_eqb_iff); congruence).
        split.
        * intros [[[-> _]|[_ H]]|(N & H1 & H2)]; [congruence|auto|]. right. split; [|auto].
          intros v Iv. apply (N v). apply put_in; auto.
        * intros [H|(N & H1 & H2)]; [auto|]. right. split; [|auto]. intros v Iv. apply put_in in Iv as [[-> _]|[_ Iv]]; auto. now apply N in Iv.
    - specialize (IH entries fb S). cbv zeta in IH. destruct IH as (I1 & I2 & I3).
      split; [exact I1|]. split; [|exact I3]. intros p l. rewrite I2. cbn [find_dir opath_eqb].
      destruct (path_eqb p p0) eqn:Q; [|tauto]. apply path_eqb_iff in Q. subst p.
      apply andb_false_iff in C as [C|C].
      + apply beq_false in C. split; intros [H|(_ & H & _)]; auto; congruence.
      + apply negb_false_iff in C. apply contains_iff in C as (v & C). split; intros [H|(H & _)]; auto; exfalso; eapply H; eauto. }
  destruct d as [l|p|p l].
  - cbn [add_entry fst snd]. specialize (IH entries (match fb with None => Some l | Some _ => fb end) S).
    cbv zeta in IH. destruct IH as (I1 & I2 & I3). split; [exact I1|]. split; [exact I2|].
    cbv zeta. rewrite I3. destruct fb; reflexivity.
  - exact (P p (Some LTrace) eq_refl eq_refl).
  - exact (P p l eq_refl eq_refl).
Qed.

Section Filter.
  Context (valid_ident : bytes -> bool).
  Context (valid_ok : forall s, valid_ident s = true -> s <> [] /\ ~ In 44 s /\ ~ In 58 s /\ ~ In 61 s).

  (** The directives of the variable; unset means none. *)
  Definition log_means (log : option bytes) (ds : list directive) : Prop :=
    match log with
    | Some input => log_text valid_ident input ds
    | None => ds = []
    end.

  Lemma env_filter_spec : forall log caller ds, log_means log ds -> valid_ident caller = true ->
    exists entries, env_filter valid_ident log caller = Ok entries /\ sorted entries /\
      forall p l, In (p, l) entries <-> (hd [] p = caller /\ assigned caller ds p l).
  Proof.
    intros log caller ds L V.
    assert (PC : parse_path valid_ident caller = Ok [caller]).
    { apply parse_path_iff; auto. split; [|reflexivity]. split; [discriminate|]. auto. }
    assert (X : exists xs, match log with Some input => defmt_log valid_ident input | None => Ok [] end = Ok xs /\
      rev (map of_entry xs) = ds).
    { destruct log as [input|]; [now apply defmt_log_iff|]. cbn in L. subst. exists []. auto. }
    destruct X as (xs & X & E). unfold env_filter. rewrite X. cbn [bind].
    pose proof (fold_settings caller xs [] None sorted_nil) as F. cbv zeta in F.
    destruct (fold_left (add_entry caller) xs ([], None)) as [entries fb]. cbn [fst snd] in F.
    destruct F as (F1 & F2 & F3). rewrite PC. cbn [bind].
    assert (F2' : forall p l, In (p, l) entries <-> hd [] p = caller /\ last_directive (Some p) ds l).
    { intros p l. rewrite F2, find_last, E. cbn. intuition. }
    assert (FB : fb = find_dir None (map of_entry xs)) by exact F3.
    destruct (contains [caller] entries) eqn:C.
    - exists entries. split; auto. split; auto. intros p l. rewrite F2'. split.
      + intros [H1 H2]. split; auto. now constructor.
      + intros [H1 H2]. split; auto. apply contains_iff in C as (v & C). apply F2' in C as [_ (a & b & C & _)].
        inversion H2 as [p' l' H|l' H|H]; subst; auto; exfalso; apply (H v); rewrite C; apply in_or_app; right; now left.
    - rewrite contains_false in C. eexists. split; [reflexivity|]. split; [now apply put_sorted|].
      assert (N : forall l, ~ In (Some [caller], l) ds).
      { intros l I. destruct (find_dir (Some [caller]) (map of_entry xs)) as [l2|] eqn:Q.
        - apply (C l2). apply F2. right. split; auto.
        - rewrite find_none_rev, E in Q. now apply Q in I. }
      intros p l. rewrite put_in by auto. rewrite F2'. split.
      + intros [[-> ->]|[NE [H1 H2]]]; [split; auto|split; auto; now constructor].
        destruct fb as [l|]; [apply A_bare; auto|apply A_default; auto].
        * rewrite <- E. apply find_last. auto.
        * rewrite <- E. apply find_none_rev. auto.
      + intros [H1 H2]. destruct H2 as [p l H|l H H0|H H0].
        * right. split; auto. intros ->. destruct H as (a & b & H & _). apply (N l). rewrite H. apply in_or_app. right. now left.
        * left. split; auto. rewrite <- E in H0. apply find_last in H0. rewrite FB, H0. reflexivity.
        * left. split; auto. rewrite <- E in H0. apply find_none_rev in H0. rewrite FB, H0. reflexivity.
  Qed.

  (** Anything else is a compile-time error. *)
  Lemma env_filter_rejects : forall log caller, valid_ident caller = true ->
    env_filter valid_ident log caller = Panic <-> forall ds, ~ log_means log ds.
  Proof.
    intros log caller V. split.
    - intros H ds L. destruct (env_filter_spec log caller ds L V) as (e & E & _). congruence.
    - intros H. destruct log as [input|]; [|exfalso; now apply (H [])].
      unfold env_filter. destruct (defmt_log_cases valid_ident input) as [(xs & E)|E]; rewrite E; [|reflexivity].
      exfalso. apply (H (rev (map of_entry xs))). apply defmt_log_iff; eauto.
  Qed.
End Filter.

(* ------------------------------------------------------------------ *)
(** * The generated check *)

Lemma same_start_iff : forall p m, same_start p m = true <-> exists r, m = p ++ r.
Proof.
  induction p as [|x p IH]; intros m; cbn.
  - split; eauto.
  - destruct m as [|y m]; [split; [discriminate|intros (r & H); discriminate]|]. split.
    + intros H. apply andb_prop in H as [H1 H2]. apply IH in H2 as (r & ->). exists r. f_equal. lia.
    + intros (r & H). inversion H; subst. rewrite Z.eqb_refl. cbn. apply IH. eauto.
Qed.

Lemma is_inside_iff : forall p m, is_inside_of p m = true <-> (m = p \/ exists r, m = p ++ 58 :: r).
Proof.
  intros p m. unfold is_inside_of. split.
  - destruct (length m <? length p)%nat eqn:L; [discriminate|]. intros H. apply andb_prop in H as [H1 H2].
    apply same_start_iff in H1 as (r & ->). rewrite app_length in *. destruct r as [|c r]; [left; now rewrite app_nil_r|].
    replace (length p =? length p + length (c :: r))%nat with false in H2 by (cbn [length]; lia).
    rewrite nth_error_app2, Nat.sub_diag in H2 by lia. cbn in H2. right. exists r. f_equal. f_equal. lia.
  - intros [->|(r & ->)].
    + rewrite Nat.ltb_irrefl, Nat.eqb_refl. rewrite andb_true_r. apply same_start_iff. exists []. now rewrite app_nil_r.
    + rewrite app_length. replace (length p + length (58%Z :: r) <? length p)%nat with false by lia.
      rewrite nth_error_app2, Nat.sub_diag by lia. cbn [nth_error]. rewrite Z.eqb_refl.
      replace (same_start p (p ++ 58 :: r)) with true by (symmetry; apply same_start_iff; eauto).
      destruct (length p =? _)%nat; reflexivity.
Qed.

Lemma join_app : forall p q, p <> [] -> q <> [] -> join_path (p ++ q) = join_path p ++ lit "::" ++ join_path q.
Proof.
  induction p as [|s p IH]; intros q H1 H2; [congruence|]. destruct p as [|t p].
  - cbn [app]. now rewrite join_cons.
  - change ((s :: t :: p) ++ q) with (s :: ((t :: p) ++ q)). rewrite !join_cons by discriminate.
    rewrite IH by (auto; discriminate). now rewrite <- !app_assoc.
Qed.

(** A module path whose names are as in [module_path!()]. *)
Definition names_ok (m : path) : Prop := Forall (fun s => s <> [] /\ ~ In 58 s) m.

Lemma app_split_no : forall (c : Z) a b x y, ~ In c a -> ~ In c b -> a ++ c :: x = b ++ c :: y -> a = b /\ x = y.
Proof.
  induction a as [|u a IH]; intros [|v b] x y Na Nb E; cbn in E.
  - inversion E; auto.
  - inversion E; subst. exfalso. apply Nb. now left.
  - inversion E; subst. exfalso. apply Na. now left.
  - inversion E; subst. destruct (IH b x y) as [-> ->]; cbn in *; auto.
Qed.

(** The byte comparison decides whether a module lies inside of another. *)
Theorem inside_covers : forall p m, p <> [] -> names_ok p -> names_ok m ->
  is_inside_of (join_path p) (join_path m) = true <-> covers p m.
Proof.
  intros p m NE Np Nm. rewrite is_inside_iff. split.
  - revert m Nm. induction p as [|s p IH]; [congruence|]. intros m Nm H. inversion Np as [|? ? [S1 S2] Np']; subst.
    destruct m as [|t m].
    { exfalso. destruct s as [|c s]; [congruence|]. destruct p; cbn in H; destruct H as [H|(r & H)]; discriminate. }
    inversion Nm as [|? ? [T1 T2] Nm']; subst.
    destruct p as [|s2 p].
    + change (join_path [s]) with s in H. exists m. cbn. f_equal. destruct m as [|t2 m].
      * cbn in H. destruct H as [H|(r & H)]; auto. exfalso. apply T2. rewrite H. apply in_or_app. right. now left.
      * rewrite join_cons in H by discriminate. change (lit "::" ++ join_path (t2 :: m)) with (58 :: 58 :: join_path (t2 :: m)) in H.
        destruct H as [H|(r & H)].
        -- exfalso. apply S2. rewrite <- H. apply in_or_app. right. now left.
        -- now apply app_split_no in H as [-> _].
    + rewrite (join_cons s) in H by discriminate.
      change (lit "::" ++ join_path (s2 :: p)) with (58 :: 58 :: join_path (s2 :: p)) in H.
      destruct m as [|t2 m].
      * exfalso. apply T2. change (join_path [t]) with t in H. destruct H as [H|(r & H)]; rewrite H; rewrite ?in_app_iff; cbn; auto.
      * rewrite join_cons in H by discriminate. change (lit "::" ++ join_path (t2 :: m)) with (58 :: 58 :: join_path (t2 :: m)) in H.
        assert (K : s = t /\ (join_path (t2 :: m) = join_path (s2 :: p) \/ exists r, join_path (t2 :: m) = join_path (s2 :: p) ++ 58 :: r)).
        { destruct H as [H|(r & H)].
          - apply app_split_no in H as [-> H]; auto. inversion H. auto.
          - rewrite <- app_assoc in H. cbn [app] in H. apply app_split_no in H as [-> H]; auto. inversion H. eauto. }
        destruct K as [-> K]. destruct (IH ltac:(discriminate) Np' _ Nm' K) as (r & ->). exists r. reflexivity.
  - intros (r & ->). destruct r as [|t r]; [left; now rewrite app_nil_r|right].
    rewrite join_app by (auto; discriminate). exists (58 :: join_path (t :: r)). reflexivity.
Qed.

Lemma covers_length : forall p q m, covers p m -> covers q m -> length p = length q -> p = q.
Proof.
  intros p q m (r & ->) (r' & E) L. revert q r' E L. induction p as [|x p IH]; intros [|y q] r' E L; cbn in *; try lia; auto.
  inversion E; subst. f_equal. eapply IH; eauto.
Qed.

Lemma covers_chain : forall p q m, covers p m -> covers q m -> (length p <= length q)%nat -> covers p q.
Proof.
  intros p q m (r & ->) (r' & E) L. exists (firstn (length q - length p) r).
  assert (q = firstn (length q) (q ++ r')) as Q by (now rewrite firstn_app_exact).
  rewrite <- E, firstn_app, firstn_all2 in Q by lia. exact Q.
Qed.

Lemma covers_lt : forall p q m, covers p m -> covers q m -> path_ltb p q = true -> (length p < length q)%nat.
Proof.
  intros p q m P Q L. destruct (Nat.lt_ge_cases (length p) (length q)) as [H|H]; auto. exfalso.
  pose proof (covers_chain q p m Q P H) as (r & ->). destruct r as [|x r].
  - rewrite app_nil_r, path_ltb_irrefl in L. discriminate.
  - pose proof (path_ltb_prefix q (x :: r) ltac:(discriminate)) as L'.
    pose proof (path_ltb_trans _ _ _ L L') as L2. rewrite path_ltb_irrefl in L2. discriminate.
Qed.

(** The first match from the end is the innermost one. *)
Lemma first_match_spec : forall m (c : list (path * bool)), names_ok m ->
  (forall p b, In (p, b) c -> p <> [] /\ names_ok p) -> sorted c ->
  (first_match (join_path m) (rev c) = true <->
   exists p, In (p, true) c /\ covers p m /\ forall q, In (q, false) c -> covers q m -> (length q < length p)%nat).
Proof.
  intros m c Nm. induction c as [|[p b] c IH] using rev_ind; intros Nc S.
  { cbn. split; [discriminate|]. intros (p & [] & _). }
  assert (S' : sorted c /\ forall q w, In (q, w) c -> path_ltb q p = true).
  { clear - S. induction c as [|[q w] c IHc]; [split; [constructor|intros ? ? []]|]. cbn in S. inversion S as [|? ? ? S1 L]; subst.
    destruct (IHc S1) as [A B]. split.
    - constructor; auto. intros q' w' I. apply (L q' w'). apply in_or_app. auto.
    - intros q' w' [E|I]; [|eauto]. inversion E; subst. apply (L p b). apply in_or_app. right. now left. }
  destruct S' as [S' L]. rewrite rev_app_distr. cbn [rev app first_match].
  assert (Np : p <> [] /\ names_ok p) by (apply (Nc p b); apply in_or_app; right; now left).
  assert (Nc' : forall q w, In (q, w) c -> q <> [] /\ names_ok q) by (intros q w I; apply (Nc q w), in_or_app; auto).
  specialize (IH Nc' S').
  destruct (is_inside_of (join_path p) (join_path m)) eqn:C.
  - apply inside_covers in C; try tauto. destruct b.
    + split; auto. intros _. exists p. split; [apply in_or_app; right; now left|]. split; auto.
      intros q I Q. apply in_app_or in I as [I|[I|[]]]; [|discriminate]. apply L in I. eapply covers_lt; eauto.
    + split; [discriminate|]. intros (q & I & Q & H). exfalso.
      specialize (H p ltac:(apply in_or_app; right; now left) C).
      apply in_app_or in I as [I|[I|[]]]; [|discriminate]. apply L in I. pose proof (covers_lt q p m Q C I). lia.
  - assert (NC : ~ covers p m). { intros Q. apply inside_covers in Q; try tauto. congruence. }
    rewrite IH. split.
    + intros (q & I & Q & H). exists q. split; [apply in_or_app; auto|]. split; auto.
      intros q' I' Q'. apply in_app_or in I' as [I'|[I'|[]]]; auto. inversion I'; subst. contradiction.
    + intros (q & I & Q & H). apply in_app_or in I as [I|[I|[]]].
      * exists q. split; auto. split; auto. intros q' I' Q'. apply H; auto. apply in_or_app. auto.
      * inversion I; subst. contradiction.
Qed.

Lemma fold_put : forall {V} (l : list (path * V)) m, sorted m -> NoDup (map fst l) ->
  (forall p v w, In (p, v) l -> ~ In (p, w) m) ->
  sorted (fold_left (fun m e => put (fst e) (snd e) m) l m) /\
  forall p v, In (p, v) (fold_left (fun m e => put (fst e) (snd e) m) l m) <-> In (p, v) l \/ In (p, v) m.
Proof.
  intros V. induction l as [|[q w] l IH]; intros m S ND D; cbn [fold_left map fst snd] in *.
  - split; auto. intros p v. cbn. tauto.
  - inversion ND as [|? ? N1 N2]; subst.
    destruct (IH (put q w m) (put_sorted _ _ _ S) N2) as [A B].
    { intros p v v' I I'. apply put_in in I' as [[-> ->]|[_ I']]; auto.
      - apply N1. apply (in_map fst) in I. exact I.
      - eapply D; [right; exact I|exact I']. }
    split; auto. intros p v. rewrite B, put_in by auto. cbn [In]. split.
    + intros [H|[[-> ->]|[_ H]]]; auto.
    + intros [[E|H]|H]; auto; [inversion E; auto|]. right. right. split; auto. intros ->. eapply D; [now left|exact H].
Qed.

Lemma sorted_nodup : forall {V} (m : list (path * V)), sorted m -> NoDup (map fst m).
Proof.
  intros V m S. induction S as [|p v m S IH L]; cbn; constructor; auto.
  intros I. apply in_map_iff in I as ([q w] & E & I). cbn in E. subst. apply L in I. now rewrite path_ltb_irrefl in I.
Qed.

Lemma NoDup_filter_fst : forall {V} (f : path * V -> bool) m, NoDup (map fst m) -> NoDup (map fst (filter f m)).
Proof.
  intros V f m. induction m as [|x m IH]; cbn; auto. intros ND. inversion ND as [|? ? N1 N2]; subst.
  destruct (f x); cbn; auto. constructor; auto. intros I. apply N1.
  apply in_map_iff in I as (y & E & I). apply filter_In in I as [I _]. apply in_map_iff. eauto.
Qed.

Lemma enables_rank : forall m l, enables (Some m) l <-> (level_rank m <=? level_rank l) = true.
Proof.
  intros m l. unfold enables, severities. split.
  - intros (m' & i & j & E & Hi & Hj & L). inversion E; subst m'.
    do 5 (destruct i as [|i]; [cbn in Hi; inversion Hi; subst;
      do 5 (destruct j as [|j]; [cbn in Hj; inversion Hj; subst; try reflexivity; lia|]); destruct j; discriminate|]);
      destruct i; discriminate.
  - intros H. exists m, (Z.to_nat (level_rank m)), (Z.to_nat (level_rank l)). repeat split.
    + destruct m; reflexivity.
    + destruct l; reflexivity.
    + destruct m, l; cbn in *; lia.
Qed.

Lemma not_enables_off : forall l, ~ enables None l.
Proof. intros l (m & i & j & E & _). discriminate. Qed.

Lemma NoDup_app_disj : forall {A} (a b : list A), NoDup a -> NoDup b -> (forall x, In x a -> ~ In x b) -> NoDup (a ++ b).
Proof.
  intros A a b Ha Hb D. induction Ha as [|x a N Ha IH]; cbn; auto. constructor.
  - intros I. apply in_app_or in I as [I|I]; auto. apply (D x); auto. now left.
  - apply IH. intros y I. apply D. now right.
Qed.

Theorem path_check_spec : forall entries l m, sorted entries ->
  (forall p v, In (p, v) entries -> p <> [] /\ names_ok p) -> names_ok m ->
  (path_check entries l (join_path m) = true <->
   exists p v, In (p, v) entries /\ covers p m /\ enables v l /\
     forall q, In (q, None) entries -> covers q m -> (length q < length p)%nat).
Proof.
  intros entries l m S Ne Nm.
  set (on := map (fun p => (p, true)) (modules_on_for l entries)).
  set (off := map (fun p => (p, false)) (always_off_modules entries)).
  assert (On : forall p b, In (p, b) on <-> b = true /\ exists v, In (p, v) entries /\ enables v l).
  { intros p b. unfold on, modules_on_for. rewrite in_map_iff. split.
    - intros (q & E & I). inversion E; subst. split; auto. apply in_map_iff in I as ([q v] & E' & I). cbn in E'. subst.
      apply filter_In in I as [I F]. exists v. split; auto. cbn in F. destruct v as [v|]; [|discriminate]. now apply enables_rank.
    - intros (-> & v & I & En). exists p. split; auto. apply in_map_iff. exists (p, v). split; auto. apply filter_In. split; auto.
      cbn. destruct v as [v|]; [now apply enables_rank|now apply not_enables_off in En]. }
  assert (Off : forall p b, In (p, b) off <-> b = false /\ In (p, None) entries).
  { intros p b. unfold off, always_off_modules. rewrite in_map_iff. split.
    - intros (q & E & I). inversion E; subst. split; auto. apply in_map_iff in I as ([q v] & E' & I). cbn in E'. subst.
      apply filter_In in I as [I F]. cbn in F. destruct v; [discriminate|auto].
    - intros (-> & I). exists p. split; auto. apply in_map_iff. exists (p, None). split; auto. apply filter_In. auto. }
  assert (ND : NoDup (map fst (on ++ off))).
  { rewrite map_app. unfold on, off. rewrite !map_map. cbn [fst]. rewrite !map_id. apply NoDup_app_disj.
    - apply NoDup_filter_fst, sorted_nodup, S.
    - apply NoDup_filter_fst, sorted_nodup, S.
    - intros p I1 I2. assert (J1 : In (p, true) on) by (apply in_map_iff; eauto).
      assert (J2 : In (p, false) off) by (apply in_map_iff; eauto).
      apply On in J1 as (_ & v & J1 & En). apply Off in J2 as (_ & J2).
      pose proof (sorted_unique _ _ _ _ S J1 J2). subst. now apply not_enables_off in En. }
  destruct (fold_put (on ++ off) [] sorted_nil ND ltac:(intros ? ? ? ? [])) as [A B].
  assert (K : forall p b, In (p, b) (fold_left (fun m e => put (fst e) (snd e) m) (on ++ off) []) -> p <> [] /\ names_ok p).
  { intros p b I. apply B in I as [I|[]]. apply in_app_or in I as [I|I].
    - apply On in I as (_ & v & I & _). eauto.
    - apply Off in I as (_ & I). eauto. }
  pose proof (first_match_spec m _ Nm K A) as F.
  assert (G : path_check entries l (join_path m) = first_match (join_path m) (rev (fold_left (fun m e => put (fst e) (snd e) m) (on ++ off) []))
    \/ (path_check entries l (join_path m) = false /\ on = [])).
  { unfold path_check, on. destruct (modules_on_for l entries); [right; auto|left; reflexivity]. }
  destruct G as [G|[G G']].
  - rewrite G, F. split.
    + intros (p & I & C & H). apply B in I as [I|[]]. apply in_app_or in I as [I|I]; [|apply Off in I as [? _]; discriminate].
      apply On in I as (_ & v & I & En). exists p, v. repeat split; auto. intros q J Q. apply H; auto.
      apply B. left. apply in_or_app. right. apply Off. auto.
    + intros (p & v & I & C & En & H). exists p. split; [|split; auto].
      * apply B. left. apply in_or_app. left. apply On. split; eauto.
      * intros q J Q. apply H; auto. apply B in J as [J|[]]. apply in_app_or in J as [J|J]; [apply On in J as [? _]; discriminate|].
        now apply Off in J.
  - rewrite G. split; [discriminate|]. intros (p & v & I & C & En & H). exfalso.
    assert (J : In (p, true) on) by (apply On; eauto). rewrite G' in J. destruct J.
Qed.

(* ------------------------------------------------------------------ *)
(** * Which statements are compiled in *)

Section Main.
  Context (valid_ident : bytes -> bool).
  Context (valid_ok : forall s, valid_ident s = true -> s <> [] /\ ~ In 44 s /\ ~ In 58 s /\ ~ In 61 s).

  Lemma log_paths_ok : forall log ds p l, log_means valid_ident log ds -> In (Some p, l) ds -> path_ok valid_ident p.
  Proof.
    clear valid_ok. intros [input|] ds p l L I; cbn in L; [|subst; destruct I]. destruct L as (es & _ & F). clear - F I.
    revert F. generalize (filter nonemptyb es). intros xs F.
    induction F as [|e d xs ds D F IH]; [destruct I|]. destruct I as [->|I]; auto. inversion D; subst; auto.
  Qed.

  Lemma path_ok_names : forall p, path_ok valid_ident p -> p <> [] /\ names_ok p.
  Proof.
    intros p [H1 H2]. split; auto. unfold names_ok. revert H2. apply Forall_impl. intros s H. apply valid_ok in H. tauto.
  Qed.

  Lemma last_in : forall o ds l, last_directive o ds l -> In (o, l) ds.
  Proof. intros o ds l (a & b & -> & _). apply in_or_app. right. now left. Qed.

  Lemma last_exists : forall o ds l, In (o, l) ds -> exists l', last_directive o ds l'.
  Proof.
    intros o ds l I. destruct (find_dir o (rev ds)) as [l'|] eqn:E.
    - exists l'. rewrite <- (rev_involutive ds). now apply find_last.
    - exfalso. pose proof (proj1 (find_none_rev _ _) E) as E'. rewrite rev_involutive in E'. now apply E' in I.
  Qed.

  Lemma last_unique : forall o ds l l', last_directive o ds l -> last_directive o ds l' -> l = l'.
  Proof. intros o ds l l' H H'. rewrite <- (rev_involutive ds) in H, H'. apply find_last in H, H'. congruence. Qed.

  Lemma assigned_unique : forall crate ds p l l', assigned crate ds p l -> assigned crate ds p l' -> l = l'.
  Proof.
    intros crate ds p l l' H H'.
    destruct H as [p l H|l H H0|H H0]; inversion H' as [? ? K|? K K0|K K0]; subst; auto;
      try (eapply last_unique; eassumption);
      repeat match goal with
      | X : last_directive (Some ?q) ds _, Y : forall _, ~ In (Some ?q, _) ds |- _ => exfalso; eapply Y; apply last_in; exact X
      | X : last_directive None ds _, Y : forall _, ~ In (None, _) ds |- _ => exfalso; eapply Y; apply last_in; exact X
      end.
  Qed.

  Lemma assigned_ok : forall log caller ds p l, log_means valid_ident log ds -> valid_ident caller = true ->
    assigned caller ds p l -> path_ok valid_ident p.
  Proof.
    intros log caller ds p l L V [p' l' H|l' _ _|_ _].
    - eapply log_paths_ok; eauto. eapply last_in; eauto.
    - split; [discriminate|auto].
    - split; [discriminate|auto].
  Qed.

  Lemma covers_hd : forall p c m, p <> [] -> covers p (c :: m) -> hd [] p = c.
  Proof. intros [|x p] c m H (r & E); [congruence|]. now inversion E. Qed.

  (** Exactly what the filter computes: a statement is compiled in when some setting
      around the module enables it and no [off] lies further in. *)
  Theorem compiled_exact : forall log caller ds l ms,
    log_means valid_ident log ds -> valid_ident caller = true -> names_ok (caller :: ms) ->
    exists b, compiled_in valid_ident log caller l (join_path (caller :: ms)) = Ok b /\
      (b = true <-> exists p v, assigned caller ds p v /\ covers p (caller :: ms) /\ enables v l /\
         forall q, assigned caller ds q None -> covers q (caller :: ms) -> (length q < length p)%nat).
  Proof.
    intros log caller ds l ms L V Nm.
    destruct (env_filter_spec valid_ident valid_ok log caller ds L V) as (entries & E & S & Ent).
    unfold compiled_in. rewrite E. cbn [bind]. eexists. split; [reflexivity|].
    rewrite path_check_spec; auto.
    - split; intros (p & v & H1 & H2 & H3 & H4).
      + apply Ent in H1 as [H0 H1]. exists p, v. repeat split; auto. intros q A C. apply H4; auto. apply Ent. split; auto.
        eapply covers_hd; eauto. apply (assigned_ok _ _ _ _ _ L V A).
      + exists p, v. repeat split; auto.
        * apply Ent. split; auto. eapply covers_hd; eauto. apply (assigned_ok _ _ _ _ _ L V H1).
        * intros q A C. apply Ent in A as [_ A]. auto.
    - intros p v I. apply Ent in I as [_ I]. apply path_ok_names. eapply assigned_ok; eauto.
  Qed.

  (** The most specific directive as a setting. *)
  Lemma effective_assigned : forall ds caller ms v,
    (forall q l, In (Some q, l) ds -> q <> []) -> effective ds (caller :: ms) v ->
    exists p, assigned caller ds p v /\ covers p (caller :: ms) /\
      forall q w, assigned caller ds q w -> covers q (caller :: ms) -> (length q <= length p)%nat.
  Proof.
    intros ds caller ms v NE E.
    assert (R : covers [caller] (caller :: ms)) by (exists ms; reflexivity).
    destruct E as [p l C D M|l M D|M D].
    - exists p. split; [now constructor|]. split; auto. intros q w A Q. inversion A as [? ? K|? K K0|K K0]; subst.
      + eapply M; eauto. eapply last_in; eauto.
      + apply last_in, NE in D. destruct p; [congruence|cbn; lia].
      + apply last_in, NE in D. destruct p; [congruence|cbn; lia].
    - exists [caller]. split; [apply A_bare; auto|]. split; auto. intros q w A Q.
      inversion A as [? ? K|? K K0|K K0]; subst; auto. exfalso. apply last_in in K. eapply M; eauto.
    - exists [caller]. split; [apply A_default; auto|]. split; auto. intros q w A Q.
      inversion A as [? ? K|? K K0|K K0]; subst; auto. exfalso. apply last_in in K. eapply M; eauto.
  Qed.

  (** Every module has exactly one most specific setting. *)
  Lemma longest : forall (P : path -> Prop) m, (forall p, P p \/ ~ P p) ->
    (exists p, P p /\ covers p m) -> exists p, P p /\ covers p m /\ forall q, P q -> covers q m -> (length q <= length p)%nat.
  Proof.
    intros P m Dec (p & Hp & Cp).
    assert (B : forall q, covers q m -> (length q <= length m)%nat) by (intros q (r & ->); rewrite app_length; lia).
    assert (G : forall n p, P p -> covers p m -> (length m - length p <= n)%nat ->
      exists p, P p /\ covers p m /\ forall q, P q -> covers q m -> (length q <= length p)%nat).
    { clear p Hp Cp. induction n as [|n IH]; intros p Hp Cp L.
      - exists p. split; auto. split; auto. intros q _ Q. apply B in Q. lia.
      - assert (X : (exists k, (length p < k <= length m)%nat /\ P (firstn k m)) \/
                    forall k, (length p < k <= length m)%nat -> ~ P (firstn k m)).
        { clear - Dec. induction (length m) as [|z IHz]; [right; intros; lia|].
          destruct IHz as [(k & K & H)|N]; [left; exists k; split; auto; lia|].
          destruct (Dec (firstn (S z) m)) as [H|H].
          - destruct (Nat.lt_ge_cases (length p) (S z)); [left; exists (S z); split; auto; lia|right; intros; lia].
          - right. intros k K. destruct (Nat.eq_dec k (S z)) as [->|]; auto. apply N. lia. }
        destruct X as [(k & K & H)|N].
        + apply (IH (firstn k m)); auto.
          * exists (skipn k m). now rewrite firstn_skipn.
          * rewrite firstn_length. lia.
        + exists p. split; auto. split; auto. intros q Hq Q. destruct (Nat.le_gt_cases (length q) (length p)) as [|H]; auto.
          exfalso. apply (N (length q)); [pose proof (B q Q); lia|]. destruct Q as (r & ->). now rewrite firstn_app_exact. }
    apply (G (length m) p); auto. lia.
  Qed.

  Lemma effective_exists : forall ds m, exists v, effective ds m v.
  Proof.
    intros ds m.
    set (P := fun p => exists l, In (Some p, l) ds).
    assert (Dec : forall p, P p \/ ~ P p).
    { intros p. destruct (find_dir (Some p) ds) as [l|] eqn:E.
      - apply find_some in E as (a & b & -> & _). left. exists l. apply in_or_app. right. now left.
      - right. intros (l & I). exact (proj1 (find_none _ _) E l I). }
    assert (Fin : (exists p, P p /\ covers p m) \/ ~ exists p, P p /\ covers p m).
    { clear Dec. unfold P. induction ds as [|[[q|] l] ds IH].
      - right. intros (p & (l & []) & _).
      - destruct IH as [(p & (l' & I) & C)|N].
        + left. exists p. split; auto. exists l'. now right.
        + destruct (list_eq_dec (list_eq_dec Z.eq_dec) q (firstn (length q) m)) as [E|E].
          * left. exists q. split; [exists l; now left|]. exists (skipn (length q) m). rewrite E at 1. now rewrite firstn_skipn.
          * right. intros (p & (l' & [K|I]) & C).
            -- inversion K; subst. destruct C as (r & ->). apply E. now rewrite firstn_app_exact.
            -- apply N. exists p. split; eauto.
      - destruct IH as [(p & (l' & I) & C)|N].
        + left. exists p. split; auto. exists l'. now right.
        + right. intros (p & (l' & [K|I]) & C); [discriminate|]. apply N. exists p. split; eauto. }
    destruct Fin as [F|F].
    - destruct (longest P m Dec F) as (p & (l & I) & C & M). destruct (last_exists _ _ _ I) as (v & D). exists v.
      apply E_module with p; auto. intros q l' Q J. apply M; auto. exists l'. auto.
    - assert (N : forall q l', covers q m -> ~ In (Some q, l') ds).
      { intros q l' C I. apply F. exists q. split; auto. exists l'. auto. }
      destruct (find_dir None (rev ds)) as [v|] eqn:E.
      + exists v. apply E_bare; auto. rewrite <- (rev_involutive ds). now apply find_last.
      + exists (Some LError). apply E_default; auto. pose proof (proj1 (find_none_rev _ _) E) as E'. now rewrite rev_involutive in E'.
  Qed.

  (** A statement that the most specific directive enables is compiled in. *)
  Theorem enabled_compiled : forall log caller ds l ms v,
    log_means valid_ident log ds -> valid_ident caller = true -> names_ok (caller :: ms) ->
    effective ds (caller :: ms) v -> enables v l ->
    compiled_in valid_ident log caller l (join_path (caller :: ms)) = Ok true.
  Proof.
    intros log caller ds l ms v L V Nm Ef En.
    destruct (compiled_exact log caller ds l ms L V Nm) as (b & -> & B). f_equal. apply B.
    destruct (effective_assigned ds caller ms v) as (p & A & C & M); auto.
    { intros q w I. apply (log_paths_ok _ _ _ _ L I). }
    exists p, v. repeat split; auto. intros q Aq Cq. pose proof (M q None Aq Cq) as Le.
    destruct (Nat.eq_dec (length q) (length p)) as [Eq|]; [|lia]. exfalso.
    pose proof (covers_length _ _ _ Cq C Eq). subst q. pose proof (assigned_unique _ _ _ _ _ A Aq). subst v.
    now apply not_enables_off in En.
  Qed.

  (** A statement of a module that is switched off is not. *)
  Theorem off_not_compiled : forall log caller ds l ms,
    log_means valid_ident log ds -> valid_ident caller = true -> names_ok (caller :: ms) ->
    effective ds (caller :: ms) None ->
    compiled_in valid_ident log caller l (join_path (caller :: ms)) = Ok false.
  Proof.
    intros log caller ds l ms L V Nm Ef.
    destruct (compiled_exact log caller ds l ms L V Nm) as (b & -> & B). f_equal. destruct b; auto.
    destruct (proj1 B eq_refl) as (p & v & A & C & En & H).
    destruct (effective_assigned ds caller ms None) as (q & Aq & Cq & M); auto.
    { intros q w I. apply (log_paths_ok _ _ _ _ L I). }
    pose proof (H q Aq Cq). pose proof (M p v A C). lia.
  Qed.

  (** No setting around the module is more verbose than the most specific one. *)
  Definition not_stricter (caller : bytes) (ds : list directive) (m : path) : Prop :=
    forall l p v q w, assigned caller ds p v -> assigned caller ds q w -> covers p q -> covers q m ->
      enables v l -> w <> None -> enables w l.

  Theorem most_specific : forall log caller ds l ms v,
    log_means valid_ident log ds -> valid_ident caller = true -> names_ok (caller :: ms) ->
    not_stricter caller ds (caller :: ms) ->
    effective ds (caller :: ms) v ->
    exists b, compiled_in valid_ident log caller l (join_path (caller :: ms)) = Ok b /\ (b = true <-> enables v l).
  Proof.
    intros log caller ds l ms v L V Nm NS Ef. destruct v as [v|].
    - destruct (compiled_exact log caller ds l ms L V Nm) as (b & E & B). exists b. split; auto. split.
      + intros Hb. apply B in Hb as (p & w & A & C & En & H).
        destruct (effective_assigned ds caller ms (Some v)) as (q & Aq & Cq & M); auto.
        { intros q' w' I. apply (log_paths_ok _ _ _ _ L I). }
        apply (NS l p w q (Some v)); auto; [|discriminate]. eapply covers_chain; eauto.
      + intros En. pose proof (enabled_compiled log caller ds l ms _ L V Nm Ef En). congruence.
    - exists false. split; [eapply off_not_compiled; eauto|]. split; [discriminate|]. intros En. now apply not_enables_off in En.
  Qed.

  (** A rejected value stops the compilation. *)
  Theorem rejects : forall log caller l mp, valid_ident caller = true ->
    compiled_in valid_ident log caller l mp = Panic <-> forall ds, ~ log_means valid_ident log ds.
  Proof.
    intros log caller l mp V. rewrite <- (env_filter_rejects valid_ident valid_ok log caller V). unfold compiled_in.
    destruct (env_filter valid_ident log caller); cbn; split; intros; congruence.
  Qed.

  (** Directives for other modules change nothing. *)
  Theorem other_modules : forall log log' caller a b q lv l ms,
    log_means valid_ident log (a ++ b) -> log_means valid_ident log' (a ++ (Some q, lv) :: b) ->
    valid_ident caller = true -> names_ok (caller :: ms) -> ~ covers q (caller :: ms) ->
    compiled_in valid_ident log' caller l (join_path (caller :: ms)) =
    compiled_in valid_ident log caller l (join_path (caller :: ms)).
  Proof.
    intros log log' caller a b q lv l ms L L' V Nm NC.
    destruct (compiled_exact log caller _ l ms L V Nm) as (x & -> & X).
    destruct (compiled_exact log' caller _ l ms L' V Nm) as (y & -> & Y). f_equal.
    assert (In_ : forall o v, o <> Some q -> In (o, v) (a ++ (Some q, lv) :: b) <-> In (o, v) (a ++ b)).
    { intros o v N. rewrite !in_app_iff. cbn. intuition congruence. }
    assert (Last : forall o v, o <> Some q -> last_directive o (a ++ (Some q, lv) :: b) v <-> last_directive o (a ++ b) v).
    { intros o v N. rewrite <- (rev_involutive (a ++ (Some q, lv) :: b)), <- (rev_involutive (a ++ b)).
      rewrite <- !find_last, !rev_app_distr. cbn [rev]. rewrite <- app_assoc. cbn [app].
      generalize (rev b). intros u. generalize (rev a). intros w. clear - N.
      induction u as [|[o' l'] u IH]; cbn.
      - destruct (opath_eqb o (Some q)) eqn:E; [apply opath_eqb_iff in E; contradiction|reflexivity].
      - destruct (opath_eqb o o'); auto. reflexivity. }
    assert (R : Some [caller] <> Some q). { intros E. inversion E; subst. apply NC. exists ms. reflexivity. }
    assert (As : forall p v, covers p (caller :: ms) -> assigned caller (a ++ (Some q, lv) :: b) p v <-> assigned caller (a ++ b) p v).
    { intros p v C. assert (N : Some p <> Some q) by (intros E; inversion E; subst; contradiction).
      split; intros A; destruct A as [p v A|v A A0|A A0].
      - apply A_directive. now apply Last.
      - apply A_bare; [intros l' I; apply (A l'); now apply In_|apply Last; auto; discriminate].
      - apply A_default; intros l' I; [apply (A l')|apply (A0 l')]; apply In_; auto; discriminate.
      - apply A_directive. now apply Last.
      - apply A_bare; [intros l' I; apply (A l'); now apply In_ in I|apply Last; auto; discriminate].
      - apply A_default; intros l' I; [apply (A l'); now apply In_ in I|apply (A0 l'); apply In_ in I; auto; discriminate]. }
    assert (K : x = true <-> y = true).
    { rewrite X, Y. split; intros (p & v & H1 & H2 & H3 & H4); exists p, v; (split; [now apply As|]); repeat split; auto;
        intros q' A C; apply H4; auto; now apply As. }
    destruct x, y; intuition congruence.
  Qed.
End Main.
