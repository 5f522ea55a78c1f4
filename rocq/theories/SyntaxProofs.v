(** The parsers accept what is written as documented, and nothing else. *)
From Verif Require Import Base SyntaxModel SyntaxSpec.

Lemma nil_or {A} (l : list A) : l = [] \/ l <> [].
Proof. destruct l; [left | right]; congruence. Qed.

Section Terminated.
  Context {A : Type} (item : toks -> option (A * toks)) (sep : toks -> option toks) (R : toks -> A -> Prop) (t : tok)
          (st : t = TComma \/ t = TSemi)
          (sep_is : forall ts ts', sep ts = Some ts' <-> ts = t :: ts')
          (sound : forall ts a rest, item ts = Some (a, rest) ->
             exists u, ts = u ++ rest /\ u <> [] /\ (ends_expr rest -> R u a))
          (complete : forall u a rest, R u a -> ends_expr rest -> item (u ++ rest) = Some (a, rest))
          (nonempty : forall u a, R u a -> u <> []).

  Lemma ends_sep ts : ends_expr (t :: ts).
  Proof using st. clear -st. destruct st as [-> | ->]; right; [left | right]; eexists; reflexivity. Qed.

  Lemma terminated_fuel fuel ts : (length ts < fuel)%nat -> terminated fuel item sep ts <> None.
  Proof using sep_is sound.
    clear complete nonempty st.
    revert ts. induction fuel as [| f IH]; intros ts L; [lia |].
    cbn [terminated]. destruct ts as [| x ts]; [congruence |].
    destruct (item (x :: ts)) as [[a rest] |] eqn:E; [| congruence].
    destruct (sound _ _ _ E) as (u & U & N & _).
    destruct rest as [| y rest]; [congruence |].
    destruct (sep (y :: rest)) as [ts' |] eqn:Es; [| congruence].
    apply sep_is in Es. injection Es as -> ->.
    assert (L' : (length ts' < f)%nat).
    { assert (Q := f_equal (@length tok) U). rewrite app_length in Q. cbn [length] in *. destruct u; [congruence |].
      cbn [length] in Q. lia. }
    specialize (IH ts' L'). destruct (terminated f item sep ts'); cbn [option_map]; congruence.
  Qed.

  Lemma terminated_sound fuel ts l : terminated fuel item sep ts = Some (Some l) -> separated R t ts l.
  Proof using st sep_is sound.
    clear complete nonempty.
    revert ts l. induction fuel as [| f IH]; intros ts l E; cbn [terminated] in E; [congruence |].
    destruct ts as [| x ts].
    { injection E as <-. constructor. }
    destruct (item (x :: ts)) as [[a rest] |] eqn:Ei; [| congruence].
    destruct (sound _ _ _ Ei) as (u & U & N & Ru).
    destruct rest as [| y rest].
    { injection E as <-. rewrite app_nil_r in U. rewrite U. apply SP_last. apply Ru. left. reflexivity. }
    destruct (sep (y :: rest)) as [ts' |] eqn:Es; [| congruence].
    apply sep_is in Es. injection Es as -> ->.
    destruct (terminated f item sep ts') as [[l' |] |] eqn:Et; cbn [option_map] in E; try congruence.
    injection E as <-. rewrite U. apply SP_more; [apply Ru, ends_sep | apply IH, Et].
  Qed.

  Lemma terminated_complete ts l : separated R t ts l ->
    forall fuel, (length ts < fuel)%nat -> terminated fuel item sep ts = Some (Some l).
  Proof using st sep_is complete nonempty.
    clear sound.
    induction 1 as [| ts a r | ts a ts' l r s IH]; intros [| f] L; try lia; cbn [terminated].
    - reflexivity.
    - destruct ts as [| x ts]; [destruct (nonempty _ _ r eq_refl) |].
      assert (C := complete _ _ [] r (or_introl eq_refl)). rewrite app_nil_r in C. rewrite C. reflexivity.
    - assert (C := complete _ _ (t :: ts') r (ends_sep _)).
      destruct ts as [| x ts]; [destruct (nonempty _ _ r eq_refl) |].
      cbn [app] in *. rewrite C. rewrite (proj2 (sep_is _ _) eq_refl).
      rewrite IH; [reflexivity |]. cbn [length] in L. rewrite app_length in L. cbn [length] in L. lia.
  Qed.

  Lemma terminated_iff ts l : parse_terminated item sep ts = Some l <-> separated R t ts l.
  Proof using All.
    unfold parse_terminated. split; intro H.
    - destruct (terminated (S (length ts)) item sep ts) as [r |] eqn:E; [| congruence].
      subst r. apply terminated_sound with (fuel := S (length ts)). exact E.
    - rewrite (terminated_complete _ _ H _ (Nat.lt_succ_diag_r _)). reflexivity.
  Qed.
End Terminated.

Lemma comma_is ts ts' : expect_comma ts = Some ts' <-> ts = TComma :: ts'.
Proof. destruct ts as [| [] ts]; cbn; split; intro; try congruence. Qed.
Lemma semi_is ts ts' : expect_semi ts = Some ts' <-> ts = TSemi :: ts'.
Proof. destruct ts as [| [] ts]; cbn; split; intro; try congruence. Qed.
Lemma colon_is ts ts' : expect_colon ts = Some ts' <-> ts = TColon :: ts'.
Proof. destruct ts as [| [] ts]; cbn; split; intro; try congruence. Qed.
Lemma eq_is ts ts' : expect_eq ts = Some ts' <-> ts = TEq :: ts'.
Proof. destruct ts as [| [] ts]; cbn; split; intro; try congruence. Qed.
Lemma word_is s ts ts' : expect_word s ts = Some ts' <-> ts = TWord (lit s) :: ts'.
Proof.
  unfold expect_word. split.
  - destruct ts as [| [] ts]; try congruence. destruct (beq s0 (lit s)) eqn:B; [| congruence].
    apply beq_true in B. congruence.
  - intros ->. rewrite beq_refl. reflexivity.
Qed.
Lemma ident_is ts w ts' : parse_ident ts = Some (w, ts') <-> ts = TWord w :: ts' /\ keyword w = false.
Proof.
  unfold parse_ident. split.
  - destruct ts as [| [] ts]; try congruence. destruct (keyword s) eqn:B; [congruence |].
    intro H. split; congruence.
  - intros [-> B]. rewrite B. reflexivity.
Qed.

Lemma obind_some {A B} (x : option A) (k : A -> option B) b : obind x k = Some b <-> exists a, x = Some a /\ k a = Some b.
Proof.
  destruct x as [a |]; cbn [obind]; split.
  - intro H. exists a. auto.
  - intros (a' & E & H). congruence.
  - congruence.
  - intros (a' & E & H). congruence.
Qed.

Section Macros.
  Context (syn : syn_parsers) (ok : syn_ok syn).

  Lemma exprs_iff ts l : exprs syn ts = Some l <-> arguments syn ts l.
  Proof using ok.
    unfold exprs, arguments. apply terminated_iff.
    - left. reflexivity.
    - apply comma_is.
    - intros u a rest E. destruct (expr_reads _ ok _ _ _ E) as [U N]. exists a. split; [exact U |]. split; [exact N |].
      intro Er. split; [reflexivity |]. apply (expr_local _ ok a rest Er). rewrite <- U. exact E.
    - intros u a rest [-> Ex] Er. apply (expr_local _ ok a rest Er). exact Ex.
    - intros u a [-> Ex]. destruct (expr_reads _ ok _ _ _ Ex) as [_ N]. exact N.
  Qed.

  Lemma exprs_total ts : terminated (S (length ts)) (syn_expr syn) expect_comma ts <> None.
  Proof using ok.
    apply terminated_fuel with (R := fun _ _ => True) (t := TComma); [apply comma_is | | lia].
    intros u a rest E. destruct (expr_reads _ ok _ _ _ E) as [U N]. exists a. auto.
  Qed.

  Lemma log_iff ts l : parse_log syn ts = Some l <-> message syn ts l.
  Proof using ok.
    split.
    - intro H. destruct ts as [| [] ts]; cbn [parse_log] in H; try congruence.
      destruct ts as [| x ts].
      + injection H as <-. constructor.
      + apply obind_some in H. destruct H as (ts2 & C & H). apply comma_is in C.
        apply obind_some in H. destruct H as (es & E & H). injection H as <-. rewrite C.
        constructor. apply exprs_iff, E.
    - intros [s | s ts' es Ar]; [reflexivity |]. cbn [parse_log expect_comma obind].
      rewrite (proj2 (exprs_iff _ _) Ar). reflexivity.
  Qed.

  Lemma panic_iff ts r :
    parse_panic syn ts = Some r <-> (ts = [] /\ r = None) \/ (exists l, r = Some l /\ message syn ts l).
  Proof using ok.
    unfold parse_panic. split.
    - destruct ts as [| x ts]; [left; split; congruence |].
      destruct (parse_log syn (x :: ts)) as [l |] eqn:E; cbn [option_map]; [| congruence].
      intro H. right. exists l. split; [congruence | apply log_iff, E].
    - intros [[-> ->] | (l & -> & M)]; [reflexivity |].
      rewrite (proj2 (log_iff _ _) M). destruct M; reflexivity.
  Qed.

  Lemma expr_end ts e rest : ends_expr rest -> (syn_expr syn ts = Some (e, rest) <-> ts = e ++ rest /\ expression syn e).
  Proof using ok.
    intro Er. unfold expression. split.
    - intro H. destruct (expr_reads _ ok _ _ _ H) as [U N]. split; [exact U |].
      apply (expr_local _ ok e rest Er). rewrite <- U. exact H.
    - intros [-> Ex]. apply (expr_local _ ok e rest Er), Ex.
  Qed.

  Lemma ends_comma ts : ends_expr (TComma :: ts).
  Proof. right. left. eauto. Qed.
  Lemma ends_nil : ends_expr [].
  Proof. left. reflexivity. Qed.

  Lemma write_iff ts f l :
    parse_write syn ts = Some (f, l) <->
    exists m, ts = f ++ TComma :: m /\ expression syn f /\ message syn m l.
  Proof using ok.
    unfold parse_write. split.
    - intro H. apply obind_some in H. destruct H as ([e ts1] & E & H). cbv beta iota in H.
      apply obind_some in H. destruct H as (ts2 & C & H). apply comma_is in C. subst ts1.
      apply obind_some in H. destruct H as (l' & M & H). injection H as -> ->.
      apply (expr_end _ _ _ (ends_comma ts2)) in E. destruct E as [-> Ex].
      exists ts2. repeat split; auto. apply log_iff, M.
    - intros (m & -> & Ex & M).
      rewrite (proj2 (expr_end (f ++ TComma :: m) f _ (ends_comma m)) (conj eq_refl Ex)).
      cbn [obind expect_comma]. rewrite (proj2 (log_iff _ _) M). reflexivity.
  Qed.

  (** What follows the expressions of [assert!] and [assert_eq!]. *)
  Definition tail {A} (rest : toks) (k : option log_args -> A) : option A :=
    match rest with
    | [] => Some (k None)
    | _ =>
        obind (expect_comma rest) (fun ts2 =>
        match ts2 with
        | [] => Some (k None)
        | _ => obind (parse_log syn ts2) (fun l => Some (k (Some l)))
        end)
    end.

  Lemma tail_iff {A} rest (k : option log_args -> A) r :
    tail rest k = Some r <-> exists o, continued syn rest o /\ r = k o.
  Proof using ok.
    unfold tail. split.
    - destruct rest as [| x rest].
      + intro H. injection H as <-. exists None. split; [constructor | reflexivity].
      + intro H. apply obind_some in H. destruct H as (ts2 & C & H). apply comma_is in C. rewrite C.
        destruct ts2 as [| y ts2].
        * injection H as <-. exists None. split; [constructor | reflexivity].
        * apply obind_some in H. destruct H as (l & M & H). injection H as <-. exists (Some l).
          split; [constructor; apply log_iff, M | reflexivity].
    - intros (o & C & ->). destruct C as [| | m l M]; [reflexivity | reflexivity |].
      cbn [obind expect_comma].
      rewrite (proj2 (log_iff _ _) M). destruct M; reflexivity.
  Qed.

  Lemma continued_ends rest o : continued syn rest o -> ends_expr rest.
  Proof. intros [| | m l M]; [apply ends_nil | apply ends_comma | apply ends_comma]. Qed.

  Lemma assert_iff ts c o :
    parse_assert syn ts = Some (c, o) <->
    exists rest, ts = c ++ rest /\ expression syn c /\ continued syn rest o.
  Proof using ok.
    split.
    - intro H. unfold parse_assert in H. apply obind_some in H. destruct H as ([e ts1] & E & H). cbv beta iota in H.
      change (tail ts1 (fun o => (e, o)) = Some (c, o)) in H.
      apply tail_iff in H. destruct H as (o' & C & H). injection H as -> ->.
      apply (expr_end _ _ _ (continued_ends _ _ C)) in E. destruct E as [-> Ex]. exists ts1. auto.
    - intros (rest & -> & Ex & C). unfold parse_assert.
      rewrite (proj2 (expr_end (c ++ rest) c _ (continued_ends _ _ C)) (conj eq_refl Ex)).
      cbn [obind]. change (tail rest (fun o => (c, o)) = Some (c, o)).
      apply tail_iff. exists o. auto.
  Qed.

  Lemma comparison_iff ts l r o :
    parse_comparison syn ts = Some (l, r, o) <->
    exists rest, ts = l ++ TComma :: r ++ rest /\ expression syn l /\ expression syn r /\ continued syn rest o.
  Proof using ok.
    split.
    - intro H. unfold parse_comparison in H. apply obind_some in H. destruct H as ([e ts1] & E & H). cbv beta iota in H.
      apply obind_some in H. destruct H as (ts2 & C & H). apply comma_is in C. subst ts1.
      apply obind_some in H. destruct H as ([e2 ts3] & E2 & H). cbv beta iota in H.
      change (tail ts3 (fun o => (e, e2, o)) = Some (l, r, o)) in H.
      apply tail_iff in H. destruct H as (o' & C & H). injection H as -> -> ->.
      apply (expr_end _ _ _ (ends_comma ts2)) in E. destruct E as [-> Ex].
      apply (expr_end _ _ _ (continued_ends _ _ C)) in E2. destruct E2 as [-> Ex2]. exists ts3. auto.
    - intros (rest & -> & Ex & Ex2 & C). unfold parse_comparison.
      rewrite (proj2 (expr_end (l ++ TComma :: r ++ rest) l _ (ends_comma _)) (conj eq_refl Ex)).
      cbn [obind expect_comma].
      rewrite (proj2 (expr_end (r ++ rest) r _ (continued_ends _ _ C)) (conj eq_refl Ex2)).
      cbn [obind]. change (tail rest (fun o => (l, r, o)) = Some (l, r, o)).
      apply tail_iff. exists o. auto.
  Qed.

  Lemma intern_iff ts s : parse_intern ts = Some s <-> ts = [TLit s].
  Proof.
    unfold parse_intern. split; [| intros ->; reflexivity].
    destruct ts as [| [] [| y ts]]; try congruence.
  Qed.

  (* -------------------------------------------------------------- *)
  (** ** [bitflags!] *)

  Lemma outer_sound : forall n ts l rest, (length ts <= n)%nat -> parse_outer ts = Some (l, rest) ->
    ts = written_attrs l ++ rest /\ (forall r, rest <> TPound :: r).
  Proof.
    induction n as [| n IH]; intros ts l rest L E.
    { destruct ts; [| cbn [length] in L; lia]. cbn in E. injection E as <- <-. split; [reflexivity | congruence]. }
    destruct ts as [| x ts]; [cbn in E; injection E as <- <-; split; [reflexivity | congruence] |].
    destruct x; try (cbn in E; injection E as <- <-; split; [reflexivity | congruence]).
    destruct ts as [| y ts]; [cbn in E; congruence |].
    destruct y as [| | | | | | | | d g]; try (cbn in E; congruence). destruct d; try (cbn in E; congruence).
    cbn [parse_outer] in E. destruct (parse_outer ts) as [[l' rest'] |] eqn:Eo; cbn [option_map] in E; [| congruence].
    injection E as <- <-. cbn [length] in L. apply IH in Eo; [| lia]. destruct Eo as [-> N].
    split; [reflexivity | exact N].
  Qed.

  Lemma outer_complete l rest : (forall r, rest <> TPound :: r) -> parse_outer (written_attrs l ++ rest) = Some (l, rest).
  Proof.
    intro N. induction l as [| a l IH].
    - unfold written_attrs. cbn [map concat app]. destruct rest as [| [] rest]; try reflexivity. destruct (N _ eq_refl).
    - unfold written_attrs in *. cbn [map concat app parse_outer]. rewrite IH. reflexivity.
  Qed.

  Lemma outer_iff ts l rest :
    parse_outer ts = Some (l, rest) <-> ts = written_attrs l ++ rest /\ (forall r, rest <> TPound :: r).
  Proof.
    split.
    - apply outer_sound with (n := length ts). lia.
    - intros [-> N]. apply outer_complete, N.
  Qed.

  Lemma cfg_is a : is_cfg a = true <-> cfg_attr a.
  Proof.
    unfold cfg_attr, is_cfg. split.
    - destruct a as [| [] a]; try congruence. destruct a as [| y a].
      + intro B. apply beq_true in B. subst s. exists []. split; [reflexivity | congruence].
      + destruct y; intro B;
          try (apply beq_true in B; subst s; eexists; split; [reflexivity | congruence]).
        apply andb_prop in B. destruct B as [B1 B2]. apply beq_true in B1. subst s.
        eexists. split; [reflexivity |]. intros b Q. assert (s0 = lit "::") by congruence. subst s0. rewrite beq_refl in B2. cbn in B2. congruence.
    - intros (a' & -> & N). destruct a' as [| y a']; [apply beq_refl |].
      destruct y; try apply beq_refl. rewrite beq_refl. destruct (beq s (lit "::")) eqn:B; [| reflexivity].
      apply beq_true in B. subst s. destruct (N _ eq_refl).
  Qed.

  Lemma filter_agree {A} (f g : A -> bool) l : (forall a, In a l -> f a = g a) -> filter f l = filter g l.
  Proof.
    induction l as [| x l IH]; intro H; [reflexivity |]. cbn [filter].
    rewrite (H x (or_introl eq_refl)), IH; [reflexivity |]. intros a I0. apply H. right. exact I0.
  Qed.

  Lemma cfgs_unique attrs cfgs :
    (forall a, In a cfgs <-> In a attrs /\ cfg_attr a) -> (exists keep, cfgs = filter keep attrs) ->
    cfgs = filter is_cfg attrs.
  Proof.
    intros H (keep & ->). apply filter_agree. intros a Ia.
    destruct (keep a) eqn:K.
    - symmetry. apply cfg_is. apply (H a). apply filter_In. auto.
    - destruct (is_cfg a) eqn:Q; [| reflexivity]. apply cfg_is in Q.
      assert (In a (filter keep attrs)) as F by (apply H; auto). apply filter_In in F. destruct F. congruence.
  Qed.

  Lemma not_pound_const r ts : TWord (lit "const") :: ts <> TPound :: r.
  Proof. congruence. Qed.

  Lemma flag_sound ts f rest : parse_flag syn ts = Some (f, rest) ->
    exists u, ts = u ++ rest /\ u <> [] /\ (ends_expr rest -> flag_written syn u f).
  Proof using ok.
    intro H. unfold parse_flag in H.
    apply obind_some in H. destruct H as ([attrs ts1] & E1 & H). cbv beta iota in H.
    apply outer_iff in E1. destruct E1 as [-> _].
    apply obind_some in H. destruct H as (ts2 & E2 & H). apply word_is in E2. subst ts1.
    apply obind_some in H. destruct H as ([name ts3] & E3 & H). cbv beta iota in H.
    apply ident_is in E3. destruct E3 as [-> K].
    apply obind_some in H. destruct H as (ts4 & E4 & H). apply eq_is in E4. subst ts3.
    apply obind_some in H. destruct H as ([v ts5] & E5 & H). cbv beta iota in H.
    assert (Q : ts5 = rest /\ {| fl_attrs := attrs; fl_cfgs := filter is_cfg attrs; fl_name := name; fl_value := v |} = f).
    { split; congruence. }
    destruct Q as [-> <-]. clear H.
    exists (written_attrs attrs ++ TWord (lit "const") :: TWord name :: TEq :: v).
    assert (E5' := E5). apply (expr_reads _ ok) in E5'. destruct E5' as [-> N].
    split; [rewrite <- app_assoc; reflexivity |]. split.
    { intro Q. apply app_eq_nil in Q. destruct Q. congruence. }
    intro Er. constructor; auto.
    - apply (expr_end _ _ _ Er) in E5. apply E5.
    - intro a. rewrite filter_In. rewrite <- cfg_is. reflexivity.
    - exists is_cfg. reflexivity.
  Qed.

  Lemma flag_complete u f rest : flag_written syn u f -> ends_expr rest -> parse_flag syn (u ++ rest) = Some (f, rest).
  Proof using ok.
    intros [attrs cfgs name v K Ex C F] Er. rewrite (cfgs_unique _ _ C F). rewrite <- app_assoc. unfold parse_flag.
    change ((TWord (lit "const") :: TWord name :: TEq :: v) ++ rest) with (TWord (lit "const") :: TWord name :: TEq :: v ++ rest).
    rewrite outer_complete by apply (fun r => not_pound_const r _). cbn [obind].
    rewrite (proj2 (word_is "const" _ _) eq_refl). cbn [obind].
    rewrite (proj2 (ident_is _ name (TEq :: v ++ rest)) (conj eq_refl K)). cbn [obind expect_eq].
    rewrite (proj2 (expr_end (v ++ rest) v _ Er) (conj eq_refl Ex)). reflexivity.
  Qed.

  Lemma flag_nonempty u f : flag_written syn u f -> u <> [].
  Proof. intros [attrs cfgs name v K Ex C F] Q. apply app_eq_nil in Q. destruct Q. congruence. Qed.

  Lemma flag_list_iff ts l : parse_terminated (parse_flag syn) expect_semi ts = Some l <-> separated (flag_written syn) TSemi ts l.
  Proof using ok.
    apply terminated_iff.
    - right. reflexivity.
    - apply semi_is.
    - apply flag_sound.
    - apply flag_complete.
    - apply flag_nonempty.
  Qed.

  Lemma flag_list_total ts : terminated (S (length ts)) (parse_flag syn) expect_semi ts <> None.
  Proof using ok.
    apply terminated_fuel with (R := flag_written syn) (t := TSemi); [apply semi_is | apply flag_sound | lia].
  Qed.

  Lemma group_is g : visibility_group g = true ->
    (exists w, In w [lit "crate"; lit "self"; lit "super"] /\ g = [TWord w]) \/ (exists p, p <> [] /\ g = TWord (lit "in") :: p).
  Proof.
    unfold visibility_group. destruct g as [| x g]; [congruence |]. destruct x; try congruence.
    destruct g as [| y g].
    - intro B. left. exists s. split; [| reflexivity].
      apply orb_prop in B. destruct B as [B | B]; [apply orb_prop in B; destruct B as [B | B] |];
        apply beq_true in B; subst s; cbn [In]; auto.
    - intro B. right. apply beq_true in B. subst s. exists (y :: g). split; congruence.
  Qed.

  Lemma vis_sound ts v rest : parse_vis ts = (v, rest) -> ts = v ++ rest /\ written_vis v.
  Proof.
    unfold parse_vis. intro H.
    destruct ts as [| x ts]; [assert (v = [] /\ rest = []) as [-> ->] by (split; congruence); split; [reflexivity | constructor] |].
    assert (D : (v = [] /\ rest = x :: ts) \/ exists w, x = TWord w /\ beq w (lit "pub") = true).
    { destruct x; try (left; split; congruence). destruct (beq s (lit "pub")) eqn:B; [right; eauto | left; split; congruence]. }
    destruct D as [[-> ->] | (w & -> & B)]; [split; [reflexivity | constructor] |].
    rewrite B in H. apply beq_true in B. subst w.
    assert (D : (v = [TWord (lit "pub")] /\ rest = ts) \/
                exists g ts', ts = TGroup Paren g :: ts' /\ visibility_group g = true /\ v = [TWord (lit "pub"); TGroup Paren g] /\ rest = ts').
    { destruct ts as [| y ts]; [left; split; congruence |].
      destruct y; try (left; split; congruence). destruct d; try (left; split; congruence).
      destruct (visibility_group ts0) eqn:G; [right | left; split; congruence].
      exists ts0, ts. repeat split; congruence. }
    destruct D as [[-> ->] | (g & ts' & -> & G & -> & ->)].
    - split; [reflexivity | constructor].
    - split; [reflexivity |]. destruct (group_is _ G) as [(w & I0 & ->) | (p & Np & ->)]; constructor; assumption.
  Qed.

  Lemma vis_complete v rest : written_vis v -> parse_vis (v ++ TWord (lit "struct") :: rest) = (v, TWord (lit "struct") :: rest).
  Proof.
    intros [| | w I0 | p Np]; cbn [app]; unfold parse_vis.
    - reflexivity.
    - rewrite beq_refl. reflexivity.
    - rewrite beq_refl. cbn [visibility_group].
      assert (B : beq w (lit "crate") || beq w (lit "self") || beq w (lit "super") = true).
      { cbn [In] in I0. destruct I0 as [<- | [<- | [<- | []]]]; reflexivity. }
      rewrite B. reflexivity.
    - rewrite beq_refl. unfold visibility_group. rewrite beq_refl. destruct p; [congruence | reflexivity].
  Qed.

  Lemma flags_iff ts r : parse_flags syn ts = Some r <-> flags_written syn ts r.
  Proof using ok.
    split.
    - intro H. unfold parse_flags in H.
      apply obind_some in H. destruct H as ([attrs ts1] & E1 & H). cbv beta iota in H.
      apply outer_iff in E1. destruct E1 as [-> _].
      destruct (parse_vis ts1) as [v ts2] eqn:Ev. apply vis_sound in Ev. destruct Ev as [-> Wv].
      apply obind_some in H. destruct H as (ts3 & E3 & H). apply word_is in E3. subst ts2.
      apply obind_some in H. destruct H as ([name ts4] & E4 & H). cbv beta iota in H.
      apply ident_is in E4. destruct E4 as [-> K].
      apply obind_some in H. destruct H as (ts5 & E5 & H). apply colon_is in E5. subst ts4.
      apply obind_some in H. destruct H as ([ty ts6] & E6 & H). cbv beta iota in H.
      destruct ts6 as [| x [| y z]]; try congruence.
      2: { destruct x; try congruence. destruct d; congruence. }
      destruct x as [| | | | | | | | d body]; try congruence. destruct d; try congruence.
      apply obind_some in H. destruct H as (fs & E7 & H).
      apply flag_list_iff in E7.
      assert (Q : {| fi_attrs := attrs; fi_vis := v; fi_name := name; fi_ty := ty; fi_flags := fs |} = r) by congruence.
      subst r. clear H.
      assert (E6' := E6). apply (type_reads _ ok) in E6'. destruct E6' as [-> N].
      constructor; auto.
      apply (type_local _ ok) in E6. exact E6.
    - intros [attrs vis name ty body fs Wv K T F]. unfold parse_flags.
      rewrite outer_complete.
      2: { intros q Q. destruct Wv; cbn [app] in Q; congruence. }
      cbn [obind]. rewrite vis_complete by exact Wv.
      rewrite (proj2 (word_is "struct" _ _) eq_refl). cbn [obind].
      rewrite (proj2 (ident_is _ name (TColon :: ty ++ [TGroup Brace body])) (conj eq_refl K)). cbn [obind expect_colon].
      rewrite (proj2 (type_local _ ok ty body) T). cbn [obind].
      rewrite (proj2 (flag_list_iff _ _) F). reflexivity.
  Qed.
End Macros.

(* ------------------------------------------------------------------ *)
(** * Attributes *)

Lemma ident_named w a : attr_ident a = Some w <-> named_attr w a.
Proof.
  unfold attr_ident, named_attr. split.
  - destruct a as [| x a]; [congruence |]. destruct x; try congruence.
    destruct a as [| y a]; [intro H; exists []; split; congruence |].
    destruct y; try (intro H; eexists; split; [f_equal; congruence | congruence]).
    destruct (beq s0 (lit "::")) eqn:B; [congruence |]. intro H. eexists. split; [f_equal; congruence |].
    intros b Q. assert (s0 = lit "::") by congruence. subst s0. rewrite beq_refl in B. congruence.
  - intros (a' & -> & N). destruct a' as [| y a']; [reflexivity |]. destruct y; try reflexivity.
    destruct (beq s (lit "::")) eqn:B; [| reflexivity]. apply beq_true in B. subst s. destruct (N _ eq_refl).
Qed.

Lemma conflicts_iff attrs reject :
  conflicts attrs reject = Ok tt <-> (forall a w, In a attrs -> In w reject -> ~ named_attr w a).
Proof.
  induction attrs as [| a attrs IH]; cbn [conflicts].
  - split; [intros _ a w [] | reflexivity].
  - split.
    + intros H b w [<- | Ib] Iw N.
      * apply ident_named in N. rewrite N in H.
        assert (X : existsb (beq w) reject = true) by (apply existsb_exists; exists w; split; [exact Iw | apply beq_refl]).
        rewrite X in H. congruence.
      * assert (conflicts attrs reject = Ok tt) as C.
        { destruct (attr_ident a); [destruct (existsb (beq b0) reject) |]; congruence. }
        exact (proj1 IH C b w Ib Iw N).
    + intro H. destruct (attr_ident a) as [w |] eqn:E.
      * destruct (existsb (beq w) reject) eqn:X.
        { apply existsb_exists in X. destruct X as (w' & Iw & B). apply beq_true in B. subst w'.
          apply ident_named in E. destruct (H a w (or_introl eq_refl) Iw E). }
        apply IH. intros b w' Ib. apply H. right. exact Ib.
      * apply IH. intros b w' Ib. apply H. right. exact Ib.
Qed.

Lemma conflicts_cases attrs reject :
  conflicts attrs reject = Ok tt \/ exists w, conflicts attrs reject = Err (EConflict w).
Proof.
  induction attrs as [| a attrs IH]; cbn [conflicts]; [left; reflexivity |].
  destruct (attr_ident a) as [w |]; [| exact IH]. destruct (existsb (beq w) reject); [right; eauto | exact IH].
Qed.

Lemma is_nil_true {A} (l : list A) : is_nil l = true <-> l = [].
Proof. destruct l; cbn; split; congruence. Qed.

Lemma handler_signature_iff f :
  f_const f || f_async f || f_unsafe f || (match f_abi f with Some _ => true | None => false end) ||
  negb (is_nil (f_generics f)) || negb (is_nil (f_where f)) || f_variadic f ||
  negb (is_nil (f_inputs f)) || negb (f_never f) = false <-> handler_signature f.
Proof.
  unfold handler_signature. destruct f as [at_ vi co as_ un abi ge wh va inp ne na bo]. cbn.
  destruct co, as_, un, abi, ge, wh, va, inp, ne; cbn; split; intro H;
    try congruence; try (repeat split; congruence); decompose [and] H; congruence.
Qed.

Lemma panic_handler_iff args f o :
  panic_handler args f = Ok o <->
  args = [] /\ handler_signature f /\
  (forall a, In a (f_attrs f) -> ~ named_attr (lit "export_name") a /\ ~ named_attr (lit "no_mangle") a) /\
  o = {| o_attrs := f_attrs f; o_export := lit "_defmt_panic"; o_vis := []; o_name := f_name f; o_body := f_body f |}.
Proof.
  unfold panic_handler. split.
  - intro H. destruct (negb (is_nil args)) eqn:A; [congruence |].
    apply negb_false_iff in A. apply is_nil_true in A. 
    match type of H with (if ?c then _ else _) = _ => destruct c eqn:C; [congruence |] end.
    apply handler_signature_iff in C.
    destruct (conflicts_cases (f_attrs f) [lit "export_name"; lit "no_mangle"]) as [Q | (w & Q)]; rewrite Q in H;
      cbn [bind] in H; [| congruence].
    split; [exact A |]. split; [exact C |]. split; [| congruence].
    intros a Ia. split; apply (proj1 (conflicts_iff _ _) Q a _ Ia); cbn [In]; auto.
  - intros (-> & C & N & ->). cbn [is_nil negb].
    apply handler_signature_iff in C. rewrite C.
    assert (Q : conflicts (f_attrs f) [lit "export_name"; lit "no_mangle"] = Ok tt).
    { apply conflicts_iff. intros a w Ia Iw. destruct (N a Ia) as [N1 N2].
      cbn [In] in Iw. destruct Iw as [<- | [<- | []]]; assumption. }
    rewrite Q. reflexivity.
Qed.

Lemma global_logger_iff args s o :
  global_logger args s = Ok o <->
  args = [] /\ unit_struct s /\ l_struct o = s /\
  l_functions o = map (fun n => (lit "_defmt_" ++ n, n)) [lit "acquire"; lit "flush"; lit "release"; lit "write"].
Proof.
  unfold global_logger, unit_struct. destruct s as [at_ vi na ge wh fi]. cbn [s_attrs s_vis s_name s_generics s_where s_fields].
  split.
  - intro H. destruct args; cbn [is_nil negb] in H; [| congruence].
    destruct ge; cbn [is_nil negb orb] in H; [| congruence].
    destruct wh; cbn [is_nil negb orb] in H; [| congruence].
    destruct fi; cbn [negb orb] in H; try congruence.
    inversion H; subst o. cbn [l_struct l_functions]. repeat split; reflexivity.
  - intros (-> & (-> & -> & ->) & L & F). cbn [is_nil negb orb]. destruct o as [os of]. cbn [l_struct l_functions] in *.
    subst os of. reflexivity.
Qed.
