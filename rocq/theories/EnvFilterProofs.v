(** The [DEFMT_LOG] filter (C32, C33). *)
From Verif Require Import Base ParserModel EnvFilterModel EnvFilterSpec.

(* ------------------------------------------------------------------ *)
(** * Text *)

Lemma parse_level_iff : forall s l, parse_level s = Some l <-> s = level_text l.
Proof.
  intros s l. split.
  - unfold parse_level. intros H.
    repeat match type of H with
    | (if beq s ?x then _ else _) = _ => let Q := fresh in destruct (beq s x) eqn:Q; [apply beq_true in Q; inversion H; subst; reflexivity|clear Q]
    end. discriminate.
  - intros ->. destruct l as [[]|]; reflexivity.
Qed.

Lemma split_last_some : forall c s a b, split_last c s = Some (a, b) -> s = a ++ c :: b /\ ~ In c b.
Proof.
  induction s as [|x s IH]; intros a b H; cbn in H; [discriminate|].
  destruct (split_last c s) as [[a' b']|] eqn:E.
  - inversion H; subst. destruct (IH a' b eq_refl) as [-> N]. auto.
  - destruct (x =? c) eqn:Q; [|discriminate]. inversion H; subst. apply Z.eqb_eq in Q. subst. split; auto.
    clear - E. induction b as [|y b IH]; cbn in *; auto. destruct (split_last c b) as [[]|]; [discriminate|].
    destruct (y =? c) eqn:Q; [discriminate|]. intros [->|I]; [lia|]. now apply IH.
Qed.

Lemma split_last_none : forall c s, split_last c s = None <-> ~ In c s.
Proof.
  induction s as [|x s IH]; cbn; [tauto|]. destruct (split_last c s) as [[]|] eqn:E.
  - split; [discriminate|]. intros N. destruct IH as [_ IH]. exfalso. assert (H : ~ In c s) by tauto. apply IH in H. discriminate.
  - destruct (x =? c) eqn:Q.
    + split; [discriminate|]. intros N. exfalso. apply N. left. lia.
    + split; auto. intros _ [->|I]; [lia|]. now apply IH.
Qed.

Lemma split_last_app : forall c a b, ~ In c b -> split_last c (a ++ c :: b) = Some (a, b).
Proof.
  induction a as [|x a IH]; intros b N; cbn [app split_last].
  - apply split_last_none in N. rewrite N, Z.eqb_refl. reflexivity.
  - rewrite IH; auto.
Qed.

Lemma split_path_nonempty : forall s, split_path s <> [].
Proof.
  intros [|c [|d s]]; cbn; try discriminate.
  destruct (_ && _); [discriminate|].
  match goal with |- match ?x with _ => _ end <> _ => destruct x; discriminate end.
Qed.

Lemma join_cons : forall s p, p <> [] -> join_path (s :: p) = s ++ lit "::" ++ join_path p.
Proof. intros s [|t p] H; [congruence|reflexivity]. Qed.

(** Unfolding [split_path] once. *)
Lemma split_path_cons : forall c s,
  split_path (c :: s) =
  match s with
  | d :: s2 => if (c =? 58) && (d =? 58) then [] :: split_path s2
               else match split_path s with p :: ps => (c :: p) :: ps | [] => [[c]] end
  | [] => [[c]]
  end.
Proof. intros c [|d s]; reflexivity. Qed.

Lemma join_split_len : forall n s, (length s < n)%nat -> join_path (split_path s) = s.
Proof.
  induction n as [|n IH]; intros s L; [lia|]. destruct s as [|c s]; [reflexivity|].
  rewrite split_path_cons. destruct s as [|d s]; [reflexivity|].
  destruct ((c =? 58) && (d =? 58)) eqn:E.
  - rewrite join_cons by apply split_path_nonempty. cbn [length] in L. rewrite IH by lia. cbn. f_equal; [|f_equal]; lia.
  - cbn [length] in L. assert (H : join_path (split_path (d :: s)) = d :: s) by (apply IH; cbn [length]; lia).
    destruct (split_path (d :: s)) as [|p ps] eqn:Q; [now apply split_path_nonempty in Q|].
    destruct ps as [|q ps]; cbn in *; congruence.
Qed.

Lemma join_split : forall s, join_path (split_path s) = s.
Proof. intros s. eapply join_split_len. apply Nat.lt_succ_diag_r. Qed.

Lemma split_path_single : forall s, ~ In 58 s -> split_path s = [s].
Proof.
  induction s as [|c s IH]; intros N; [reflexivity|]. rewrite split_path_cons. destruct s as [|d s]; [reflexivity|].
  replace ((c =? 58) && (d =? 58)) with false by (cbn in N; lia). rewrite IH by (cbn in *; tauto). reflexivity.
Qed.

Lemma split_path_app : forall s r, ~ In 58 s -> split_path (s ++ lit "::" ++ r) = s :: split_path r.
Proof.
  induction s as [|c s IH]; intros r N; [reflexivity|].
  change ((c :: s) ++ lit "::" ++ r) with (c :: (s ++ lit "::" ++ r)). rewrite split_path_cons.
  rewrite IH by (cbn in N; tauto).
  destruct (s ++ lit "::" ++ r) as [|d l] eqn:E; [destruct s; discriminate|].
  replace ((c =? 58) && (d =? 58)) with false by (cbn in N; lia). reflexivity.
Qed.

Lemma split_join : forall p, p <> [] -> Forall (fun s => ~ In 58 s) p -> split_path (join_path p) = p.
Proof.
  induction p as [|s p IH]; intros NE F; [congruence|]. inversion F; subst. destruct p as [|t p].
  - now apply split_path_single.
  - rewrite join_cons by discriminate. rewrite split_path_app by auto. rewrite IH; auto. discriminate.
Qed.

Lemma join_no : forall c p, c <> 58 -> Forall (fun s => ~ In c s) p -> ~ In c (join_path p).
Proof.
  induction p as [|s p IH]; intros N F; cbn; auto. inversion F; subst. destruct p as [|t p]; auto.
  intros H. apply in_app_or in H as [H|[H|[H|H]]]; auto. now apply (IH N H2).
Qed.

Section Text.
  Context (valid_ident : bytes -> bool).
  Context (valid_ok : forall s, valid_ident s = true -> s <> [] /\ ~ In 44 s /\ ~ In 58 s /\ ~ In 61 s).

  Definition of_entry (d : dentry) : directive :=
    match d with
    | DLevel l => (None, l)
    | DModule p => (Some p, Some LTrace)
    | DModuleLevel p l => (Some p, l)
    end.

  Lemma path_ok_no : forall p c, path_ok valid_ident p -> c = 44 \/ c = 58 \/ c = 61 -> Forall (fun s => ~ In c s) p.
  Proof.
    intros p c [_ F] C. eapply Forall_impl; [|exact F]. intros s V. apply valid_ok in V as (_ & A & B & D).
    destruct C as [->|[->| ->]]; auto.
  Qed.

  Lemma join_nonempty : forall p, path_ok valid_ident p -> join_path p <> [].
  Proof.
    intros [|s p] [NE F]; [congruence|]. inversion F; subst. apply valid_ok in H1 as [H1 _].
    destruct p; cbn; auto. destruct s; [congruence|discriminate].
  Qed.

  Lemma parse_path_iff : forall s p, parse_path valid_ident s = Ok p <-> path_ok valid_ident p /\ s = join_path p.
  Proof.
    intros s p. unfold parse_path. split.
    - intros H. destruct s as [|c s]; [discriminate|]. destruct (forallb _ _) eqn:F; [|discriminate].
      assert (E : p = split_path (c :: s)) by congruence. rewrite E in *. clear E H. split; [|now rewrite join_split]. split; [apply split_path_nonempty|].
      rewrite forallb_forall in F. apply Forall_forall. exact F.
    - intros [OK ->]. pose proof (join_nonempty p OK) as NE.
      rewrite split_join by (try apply OK; apply path_ok_no; auto).
      destruct (join_path p); [congruence|]. destruct OK as [_ F]. 
      replace (forallb valid_ident p) with true; auto. symmetry. apply forallb_forall. now apply Forall_forall.
  Qed.

  Lemma level_text_no : forall l c, c = 44 \/ c = 61 -> ~ In c (level_text l).
  Proof. intros [[]|] c [->| ->]; cbn; intuition discriminate. Qed.

  Lemma parse_entry_iff : forall e d, (exists x, parse_entry valid_ident e = Ok x /\ of_entry x = d) <-> directive_text valid_ident e d.
  Proof.
    intros e d. split.
    - intros (x & H & <-). unfold parse_entry in H. destruct (split_last 61 e) as [[a b]|] eqn:S.
      + apply split_last_some in S as [-> N]. destruct (parse_path valid_ident a) as [p| | |] eqn:P; try discriminate.
        cbn in H. destruct (parse_level b) as [l|] eqn:L; [|discriminate]. inversion H; subst.
        apply parse_path_iff in P as [P1 ->]. apply parse_level_iff in L as ->. cbn.
        exact (DT_module_level valid_ident p l P1).
      + destruct (parse_level e) as [l|] eqn:L.
        * inversion H; subst. apply parse_level_iff in L as ->. constructor.
        * destruct (parse_path valid_ident e) as [p| | |] eqn:P; try discriminate. cbn in H. inversion H; subst.
          apply parse_path_iff in P as [P1 ->]. cbn. constructor; auto.
          intros l Q. apply parse_level_iff in Q. congruence.
    - intros H. inversion H as [l|p P N|p l P]; subst; clear H.
      + exists (DLevel l). split; auto. unfold parse_entry.
        replace (split_last 61 (level_text l)) with (@None (bytes * bytes))
          by (symmetry; apply split_last_none, level_text_no; auto).
        replace (parse_level (level_text l)) with (Some l) by (symmetry; now apply parse_level_iff). reflexivity.
      + exists (DModule p). split; auto. unfold parse_entry.
        replace (split_last 61 (join_path p)) with (@None (bytes * bytes)).
        2:{ symmetry. apply split_last_none, join_no; [lia|apply path_ok_no; auto]. }
        destruct (parse_level (join_path p)) as [l|] eqn:L; [apply parse_level_iff in L; now apply N in L|].
        replace (parse_path valid_ident (join_path p)) with (@Ok unit path p); [reflexivity|].
        symmetry. now apply parse_path_iff.
      + exists (DModuleLevel p l). split; auto. unfold parse_entry.
        change (lit "=" ++ level_text l) with (61 :: level_text l). rewrite split_last_app by (apply level_text_no; auto).
        replace (parse_path valid_ident (join_path p)) with (@Ok unit path p) by (symmetry; now apply parse_path_iff).
        cbn. replace (parse_level (level_text l)) with (Some l) by (symmetry; now apply parse_level_iff). reflexivity.
  Qed.

  Lemma parse_entry_cases : forall e, (exists x, parse_entry valid_ident e = Ok x) \/ parse_entry valid_ident e = Panic.
  Proof.
    intros e. unfold parse_entry. assert (P : forall s, (exists p, parse_path valid_ident s = Ok p) \/ parse_path valid_ident s = Panic).
    { intros s. unfold parse_path. destruct s; auto. destruct (forallb _ _); eauto. }
    destruct (split_last 61 e) as [[a b]|].
    - destruct (P a) as [(p & ->)| ->]; cbn; auto. destruct (parse_level b); eauto.
    - destruct (parse_level e); eauto. destruct (P e) as [(p & ->)| ->]; cbn; eauto.
  Qed.

  Lemma parse_entries_iff : forall es ds,
    (exists xs, parse_entries valid_ident es = Ok xs /\ map of_entry xs = ds) <-> Forall2 (directive_text valid_ident) es ds.
  Proof.
    induction es as [|e es IH]; intros ds; cbn [parse_entries].
    - split; [intros (xs & H & <-); inversion H; constructor|]. intros H. inversion H. exists []. auto.
    - split.
      + intros (xs & H & <-). destruct (parse_entry valid_ident e) as [x| | |] eqn:E; try discriminate. cbn in H.
        destruct (parse_entries valid_ident es) as [ys| | |] eqn:Es; try discriminate. cbn in H. inversion H; subst. cbn.
        constructor; [apply parse_entry_iff; eauto|]. apply IH. eauto.
      + intros H. inversion H as [|? d ? ds' D F]; subst. apply parse_entry_iff in D as (x & D & <-). rewrite D. cbn.
        apply IH in F as (ys & F & <-). rewrite F. cbn. exists (x :: ys). auto.
  Qed.

  Lemma parse_entries_cases : forall es, (exists xs, parse_entries valid_ident es = Ok xs) \/ parse_entries valid_ident es = Panic.
  Proof.
    induction es as [|e es IH]; cbn [parse_entries]; eauto.
    destruct (parse_entry_cases e) as [(x & ->)| ->]; cbn; auto. destruct IH as [(xs & ->)| ->]; cbn; eauto.
  Qed.

  Lemma split_on_comma : forall es, es <> [] -> Forall (fun e => ~ In 44 e) es -> split_on 44 (comma_join es) = es.
  Proof.
    induction es as [|e es IH]; intros NE F; [congruence|]. inversion F; subst.
    assert (S1 : forall s r, ~ In 44 s -> split_on 44 (s ++ 44 :: r) = s :: split_on 44 r).
    { clear. induction s as [|c s IH]; intros r N; [reflexivity|]. cbn [app split_on].
      replace (c =? 44) with false by (cbn in N; lia). rewrite IH; auto. cbn in N; tauto. }
    assert (S2 : forall s, ~ In 44 s -> split_on 44 s = [s]).
    { clear. induction s as [|c s IH]; intros N; [reflexivity|]. cbn [split_on].
      replace (c =? 44) with false by (cbn in N; lia). rewrite IH; auto. cbn in N; tauto. }
    destruct es as [|e2 es]; [now apply S2|].
    change (comma_join (e :: e2 :: es)) with (e ++ 44 :: comma_join (e2 :: es)).
    rewrite S1 by auto. rewrite IH; auto. discriminate.
  Qed.

  Lemma comma_split : forall s, comma_join (split_on 44 s) = s.
  Proof.
    induction s as [|c s IH]; [reflexivity|]. cbn [split_on].
    assert (NE : split_on 44 s <> []).
    { clear. destruct s as [|c s]; cbn; [discriminate|]. destruct (c =? 44); [discriminate|]. destruct (split_on 44 s); discriminate. }
    destruct (split_on 44 s) as [|p ps] eqn:E; [congruence|].
    destruct (c =? 44) eqn:Q.
    - change (comma_join ([] :: p :: ps)) with (44 :: comma_join (p :: ps)). rewrite IH. f_equal. lia.
    - destruct ps; cbn in *; congruence.
  Qed.

  Lemma directive_no_comma : forall e d, directive_text valid_ident e d -> ~ In 44 e.
  Proof.
    intros e d H. inversion H as [l|p P N|p l P]; subst.
    - apply level_text_no. auto.
    - apply join_no; [lia|apply path_ok_no; auto].
    - intros I. apply in_app_or in I as [I|[I|I]]; [|discriminate|].
      + revert I. apply join_no; [lia|apply path_ok_no; auto].
      + revert I. apply level_text_no. auto.
  Qed.

  Lemma filter_rev : forall A (f : A -> bool) l, filter f (rev l) = rev (filter f l).
  Proof.
    induction l as [|x l IH]; cbn [rev filter]; auto. rewrite filter_app, IH. cbn. destruct (f x); cbn; auto. now rewrite app_nil_r.
  Qed.

  Lemma Forall2_rev : forall A B (R : A -> B -> Prop) l m, Forall2 R l m -> Forall2 R (rev l) (rev m).
  Proof. intros A B R l m H. induction H; cbn; auto. apply Forall2_app; auto. Qed.

  (** The parser finds exactly the directives, from the right. *)
  Lemma defmt_log_iff : forall input ds,
    (exists xs, defmt_log valid_ident input = Ok xs /\ rev (map of_entry xs) = ds) <-> log_text valid_ident input ds.
  Proof.
    intros input ds. unfold defmt_log, log_text. split.
    - intros (xs & H & <-). exists (split_on 44 input). split; [now rewrite comma_split|].
      rewrite filter_rev in H. assert (F : Forall2 (directive_text valid_ident) (rev (filter nonemptyb (split_on 44 input))) (map of_entry xs)).
      { apply parse_entries_iff. eauto. }
      apply Forall2_rev in F. now rewrite rev_involutive in F.
    - intros (es & -> & F).
      assert (K : filter nonemptyb (split_on 44 (comma_join es)) = filter nonemptyb es).
      { destruct es as [|e es]; [reflexivity|]. rewrite split_on_comma; auto; [discriminate|].
        apply Forall_forall. intros x Ix. destruct x as [|c x]; [auto|].
        assert (I' : In (c :: x) (filter nonemptyb (e :: es))) by (apply filter_In; auto).
        clear - F I' valid_ok. induction F as [|y d ys ds D F IH]; cbn in I'; [contradiction|].
        destruct I' as [->|I']; auto. now apply directive_no_comma in D. }
      rewrite filter_rev, K. apply Forall2_rev in F. apply parse_entries_iff in F as (xs & F & E).
      exists xs. split; auto. rewrite E. apply rev_involutive.
  Qed.

  Lemma defmt_log_cases : forall input, (exists xs, defmt_log valid_ident input = Ok xs) \/ defmt_log valid_ident input = Panic.
  Proof. intros. apply parse_entries_cases. Qed.
End Text.

(* ------------------------------------------------------------------ *)
(** * Orders and maps *)

Lemma bytes_ltb_irrefl : forall a, bytes_ltb a a = false.
Proof. induction a as [|x a IH]; cbn; auto. rewrite IH. lia. Qed.

Lemma bytes_ltb_trans : forall a b c, bytes_ltb a b = true -> bytes_ltb b c = true -> bytes_ltb a c = true.
Proof.
  induction a as [|x a IH]; intros [|y b] [|z c] H1 H2; cbn in *; try discriminate; auto.
  destruct (x <? y) eqn:E1, (y <? z) eqn:E2; cbn in *; try (replace (x <? z) with true by lia; reflexivity).
  apply andb_prop in H1 as [H1 H1'], H2 as [H2 H2']. rewrite (IH _ _ H1' H2'). replace (x =? z) with true by lia. lia.
Qed.

Lemma bytes_ltb_total : forall a b, bytes_ltb a b = false -> a <> b -> bytes_ltb b a = true.
Proof.
  induction a as [|x a IH]; intros [|y b] H N; cbn in *; try discriminate; try congruence; auto.
  destruct (Z.lt_trichotomy x y) as [L|[->|L]].
  - replace (x <? y) with true in H by lia. discriminate.
  - rewrite Z.ltb_irrefl, Z.eqb_refl in *. cbn in *. apply IH; auto. congruence.
  - replace (y <? x) with true by lia. reflexivity.
Qed.

Lemma path_eqb_iff : forall a b, path_eqb a b = true <-> a = b.
Proof.
  induction a as [|x a IH]; intros [|y b]; cbn; split; intros H; try discriminate; auto.
  - apply andb_prop in H as [H1 H2]. apply beq_true in H1. apply IH in H2. congruence.
  - inversion H; subst. rewrite beq_refl. now apply IH.
Qed.

Lemma path_ltb_irrefl : forall a, path_ltb a a = false.
Proof. induction a as [|x a IH]; cbn; auto. now rewrite bytes_ltb_irrefl, IH, andb_false_r. Qed.

Lemma path_ltb_trans : forall a b c, path_ltb a b = true -> path_ltb b c = true -> path_ltb a c = true.
Proof.
  induction a as [|x a IH]; intros [|y b] [|z c] H1 H2; cbn in *; try discriminate; auto.
  apply orb_prop in H1 as [H1|H1], H2 as [H2|H2].
  - rewrite (bytes_ltb_trans _ _ _ H1 H2). reflexivity.
  - apply andb_prop in H2 as [H2 _]. apply beq_true in H2. subst. rewrite H1. reflexivity.
  - apply andb_prop in H1 as [H1 _]. apply beq_true in H1. subst. rewrite H2. reflexivity.
  - apply andb_prop in H1 as [H1 H1'], H2 as [H2 H2']. apply beq_true in H1, H2. subst.
    rewrite (IH _ _ H1' H2'), beq_refl. apply orb_true_r.
Qed.

Lemma path_ltb_total : forall a b, path_ltb a b = false -> a <> b -> path_ltb b a = true.
Proof.
  induction a as [|x a IH]; intros [|y b] H N; cbn in *; try discriminate; try congruence; auto.
  apply orb_false_elim in H as [H1 H2]. destruct (beq x y) eqn:E.
  - apply beq_true in E. subst y. rewrite beq_refl. cbn in *. rewrite IH; [apply orb_true_r|auto|congruence].
  - apply beq_false in E. rewrite bytes_ltb_total; auto.
Qed.

(** A proper prefix comes first. *)
Lemma path_ltb_prefix : forall p r, r <> [] -> path_ltb p (p ++ r) = true.
Proof.
  induction p as [|x p IH]; intros r N; cbn; [destruct r; congruence|]. rewrite IH, beq_refl by auto. apply orb_true_r.
Qed.

Section Maps.
  Context {V : Type}.

  Inductive sorted : list (path * V) -> Prop :=
  | sorted_nil : sorted []
  | sorted_cons p v m : sorted m -> (forall q w, In (q, w) m -> path_ltb p q = true) -> sorted ((p, v) :: m).

  Lemma put_in : forall m p v q w, sorted m ->
    (In (q, w) (put p v m) <-> (q = p /\ w = v) \/ (q <> p /\ In (q, w) m)).
  Proof.
    induction m as [|[q' w'] m IH]; intros p v q w S; cbn [put].
    - cbn. split; [intros [E|[]]; inversion E; auto|]. intros [[-> ->]|[_ []]]. auto.
    - inversion S as [|? ? ? S' L]; subst. destruct (path_ltb p q') eqn:E1.
      + cbn [In]. split.
        * intros [E|[E|H]]; [inversion E; auto|inversion E; subst; right; split; auto|right; split; auto].
          -- intros ->. now rewrite path_ltb_irrefl in E1.
          -- intros ->. apply L in H. pose proof (path_ltb_irrefl p). pose proof (path_ltb_trans _ _ _ E1 H). congruence.
        * intros [[-> ->]|[_ H]]; auto.
      + destruct (path_eqb p q') eqn:E2.
        * apply path_eqb_iff in E2. subst q'. cbn [In]. split.
          -- intros [E|H]; [inversion E; auto|right]. split; auto. intros ->. apply L in H. now rewrite path_ltb_irrefl in H.
          -- intros [[-> ->]|[N [E|H]]]; auto. inversion E; congruence.
        * assert (N : p <> q') by (intros ->; assert (path_eqb q' q' = true) by (now apply path_eqb_iff); congruence).
          cbn [In]. rewrite (IH p v q w S'). split.
          -- intros [E|[H|[N' H]]]; [inversion E; subst; right; split; auto|auto|auto].
          -- intros [H|[N' [E|H]]]; auto.
  Qed.

  Lemma put_sorted : forall m p v, sorted m -> sorted (put p v m).
  Proof.
    induction m as [|[q w] m IH]; intros p v S; cbn [put]; [constructor; [constructor|intros ? ? []]|].
    inversion S as [|? ? ? S' L]; subst. destruct (path_ltb p q) eqn:E1.
    - constructor; auto. intros q' w' [E|H]; [inversion E; subst; auto|]. apply L in H. eapply path_ltb_trans; eauto.
    - destruct (path_eqb p q) eqn:E2.
      + apply path_eqb_iff in E2. subst. constructor; auto.
      + constructor; auto. intros q' w' H. apply (put_in m p v q' w' S') in H as [[-> ->]|[_ H]]; eauto.
        apply path_ltb_total; auto. intros ->. assert (path_eqb q q = true) by (now apply path_eqb_iff). congruence.
  Qed.

  Lemma contains_iff : forall p (m : list (path * V)), contains p m = true <-> exists v, In (p, v) m.
  Proof.
    intros p m. unfold contains. rewrite existsb_exists. split.
    - intros ([q v] & I & E). apply path_eqb_iff in E. cbn in E. subst. eauto.
    - intros (v & I). exists (p, v). split; auto. now apply path_eqb_iff.
  Qed.

  Lemma contains_false : forall p (m : list (path * V)), contains p m = false <-> forall v, ~ In (p, v) m.
  Proof.
    intros p m. split.
    - intros H v I. assert (contains p m = true) by (apply contains_iff; eauto). congruence.
    - intros H. destruct (contains p m) eqn:E; auto. apply contains_iff in E as (v & I). now apply H in I.
  Qed.

  Lemma sorted_unique : forall m p v w, sorted m -> In (p, v) m -> In (p, w) m -> v = w.
  Proof.
    intros m p v w S. induction S as [|q u m S IH L]; intros H1 H2; [destruct H1|].
    destruct H1 as [E1|H1], H2 as [E2|H2].
    - congruence.
    - inversion E1; subst. apply L in H2. now rewrite path_ltb_irrefl in H2.
    - inversion E2; subst. apply L in H1. now rewrite path_ltb_irrefl in H1.
    - auto.
  Qed.
End Maps.
