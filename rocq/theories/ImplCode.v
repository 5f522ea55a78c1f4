(** The generated code: it agrees with the description of the type, its variables are the
    fields, its calls are covered by the [where] clause; recursive types. *)
From Verif Require Import Base Numerals ParserModel EncodeModel LibTypesModel PanicModel ImplModel ImplSpec ImplProofs ImplMain.

(* ------------------------------------------------------------------ *)
(** * Agreement with the description *)

Section Agreement.
  Context (env : nat -> user) (std : trait -> gty -> Prop).

  Lemma field_agrees : forall args f fs rfs, describes_fields env std args (f :: fs) rfs ->
    exists rf rfs', rfs = rf :: rfs' /\ describes_fields env std args fs rfs' /\
      (forall k, k <> KUnit -> field_text (named_of k) f = field_str k rf) /\
      exists o, given f o /\ field_call o (native (fd_ty f)) = field_action rf.
  Proof using.
    intros args f fs rfs D. inversion D as [|? ? o r ? rfs' G Di D'|? ? r ? rfs' G N Dt D'|? ? a ? rfs' G N S' D']; subst.
    - exists (id_str (fd_name f), o, r), rfs'. split; [reflexivity|]. split; [exact D'|].
      apply direct_native in Di as (p & N & A). split.
      + intros k K. unfold field_text, field_str, field_ty_name. rewrite N, A. destruct k; [congruence|reflexivity|reflexivity].
      + exists o. split; [exact G|]. rewrite N. cbn. rewrite A. destruct o as [[]|]; reflexivity.
    - exists (id_str (fd_name f), None, ROpaque r), rfs'. split; [reflexivity|]. split; [exact D'|].
      apply native_none in N. split.
      + intros k K. unfold field_text, field_str, field_ty_name. rewrite N. destruct k; [congruence|reflexivity|reflexivity].
      + exists None. split; [exact G|]. rewrite N. reflexivity.
    - exists (id_str (fd_name f), Some a, ROpaque RManual), rfs'. split; [reflexivity|]. split; [exact D'|].
      apply native_none in N. split.
      + intros k K. unfold field_text, field_str, field_ty_name. rewrite N. destruct k; [congruence|reflexivity|reflexivity].
      + exists (Some a). split; [exact G|]. rewrite N. destruct a; reflexivity.
  Qed.

  Lemma more_texts : forall args k, k <> KUnit -> forall fs rfs index, describes_fields env std args fs rfs ->
    texts (named_of k) (S index) fs = match rfs with [] => [] | _ => lit ", " ++ fields_body k rfs end.
  Proof using.
    intros args k K. induction fs as [|f fs IH]; intros rfs index D.
    - inversion D. reflexivity.
    - apply field_agrees in D as (rf & rfs' & -> & D & T & _). cbn [texts].
      rewrite (IH rfs' (S index) D), (T k K). change (S index =? 0)%nat with false. rewrite <- app_assoc.
      f_equal. cbn [fields_body]. destruct rfs'; [apply app_nil_r|reflexivity].
  Qed.

  Lemma text_agrees : forall args k fs rfs, wf_fields k fs -> describes_fields env std args fs rfs ->
    fields_text k fs = fields_str k rfs.
  Proof using.
    intros args k fs rfs W D. destruct fs as [|f fs].
    - inversion D. destruct k; reflexivity.
    - assert (K : k <> KUnit) by (intros ->; specialize (W eq_refl); discriminate).
      apply field_agrees in D as (rf & rfs' & -> & D & T & _).
      assert (E : texts (named_of k) 0 (f :: fs) = fields_body k (rf :: rfs')).
      { cbn [texts fields_body]. rewrite (more_texts args k K fs rfs' 0 D), (T k K).
        change (0 =? 0)%nat with true. change (@nil Z ++ field_str k rf) with (field_str k rf).
        destruct rfs'; [apply app_nil_r|reflexivity]. }
      unfold fields_text, fields_str. rewrite E. destruct k; [congruence|reflexivity|reflexivity].
  Qed.

  Lemma calls_agree : forall args named fs rfs index os, describes_fields env std args fs rfs -> Forall2 given fs os ->
    map snd (stmts named index fs os) = map field_action rfs.
  Proof using.
    intros args named. induction fs as [|f fs IH]; intros rfs index os D F.
    - inversion D. inversion F. reflexivity.
    - apply field_agrees in D as (rf & rfs' & -> & D & _ & o & G & E). inversion F as [|f' o' fs' os' G' F' E1 E2]; subst.
      cbn [stmts map snd]. rewrite (option_given_unique _ _ _ G' G), E. f_equal. apply IH; auto.
  Qed.

  Lemma variants_agree : forall args vs rvs oss, Forall (fun v => wf_fields (vd_kind v) (vd_fields v)) vs ->
    describes_variants env std args vs rvs -> Forall2 given_variant vs oss ->
    (forall first, variants_text first vs =
      match rvs with [] => [] | _ => (if first : bool then [] else lit "|") ++ join_bar (map variant_str rvs) end) /\
    map (fun a => map snd (a_stmts a)) (variants_arms vs oss) =
    map (fun v : variant => map field_action (snd v)) rvs.
  Proof using.
    intros args. induction vs as [|v vs IH]; intros rvs oss W D F.
    - inversion D. inversion F. split; [intro; reflexivity|reflexivity].
    - inversion D as [|? ? rfs ? rvs' Df Dv]; subst. inversion F as [|? os ? oss' G F']; subst.
      inversion W as [|? ? Wv W']; subst. destruct (IH rvs' oss' W' Dv F') as (T & A). split.
      + intro first. cbn [variants_text]. rewrite (text_agrees args _ _ _ Wv Df), (T false). f_equal.
        destruct rvs' as [|rv rvs'].
        * rewrite app_nil_r. reflexivity.
        * change (join_bar (map variant_str ((id_str (vd_name v), vd_kind v, rfs) :: rv :: rvs')))
            with ((id_str (vd_name v) ++ fields_str (vd_kind v) rfs) ++ lit "|" ++ join_bar (map variant_str (rv :: rvs'))).
          rewrite <- app_assoc. reflexivity.
      + cbn [variants_arms map]. f_equal; [|exact A]. cbn [snd]. unfold arm_of. cbn [a_stmts].
        eapply calls_agree; eauto.
  Qed.

  Theorem code_agrees : forall n args d im r, env n = UDerive d -> wf_def d -> derive d = Ok im ->
    describes env std (GUser n args) r ->
    im_tag im = format_tag r /\
    map (fun a => map snd (a_stmts a)) (im_arms im) = map (map field_action) (alternatives r).
  Proof using.
    intros n args d im r E W D R. apply derive_iff in D; [|exact W]. unfold wf_def in W.
    destruct D as [d k fs os ps B G F|d vs oss ps tag B G F ->]; rewrite B in W;
      inversion R as [| | | | | | | | | | | | | | | | | | | | | | |? ? d' k' fs' rfs ? E' B' _ _ Df|? ? d' vs' rvs ? E' B' _ _ Dv];
      subst; try congruence; assert (d' = d) by congruence; subst d'; rewrite B in B'; try discriminate;
      injection B' as B'; subst; cbn [im_tag im_arms map].
    - split; [|unfold arm_of; cbn [a_stmts alternatives map]; f_equal; eapply calls_agree; eauto].
      change (format_tag (RStruct (id_str (d_name d)) k' rfs)) with (id_str (d_name d) ++ fields_str k' rfs).
      f_equal. eapply text_agrees; eauto.
    - destruct (variants_agree args vs' rvs oss W Dv F) as (T & A). split.
      + change (format_tag (REnum rvs)) with (enum_str rvs). rewrite (T true). unfold enum_str.
        destruct vs' as [|v vs']; inversion Dv; subst; reflexivity.
      + rewrite A. cbn [alternatives]. rewrite map_map. reflexivity.
  Qed.
End Agreement.

(* ------------------------------------------------------------------ *)
(** * Variables and bounds *)

Lemma dec_str_inj : forall a b, 0 <= a -> 0 <= b -> dec_str a = dec_str b -> a = b.
Proof. intros a b A B E. rewrite <- (dec_str_value a A), <- (dec_str_value b B), E. reflexivity. Qed.

Lemma pats_nth : forall named fs index i f, nth_error fs i = Some f ->
  nth_error (pats named index fs) i = Some (field_sel named (index + i) f, field_var named (index + i) f).
Proof.
  intros named. induction fs as [|g fs IH]; intros index [|i] f H; try discriminate.
  - injection H as ->. cbn. rewrite Nat.add_0_r. reflexivity.
  - cbn [nth_error pats] in *. rewrite (IH (S index) i f H). replace (S index + i)%nat with (index + S i)%nat by lia. reflexivity.
Qed.

Lemma stmts_nth : forall named fs os index i f, Forall2 given fs os -> nth_error fs i = Some f ->
  exists o, given f o /\ nth_error os i = Some o /\
    nth_error (stmts named index fs os) i = Some (field_var named (index + i) f, field_call o (native (fd_ty f))).
Proof.
  intros named. induction fs as [|g fs IH]; intros os index [|i] f F H; try discriminate;
    inversion F as [|? o ? os' G F']; subst.
  - injection H as ->. exists o. cbn. rewrite Nat.add_0_r. auto.
  - cbn [nth_error stmts] in *. destruct (IH os' (S index) i f F' H) as (o' & G' & N & E). exists o'.
    replace (index + S i)%nat with (S index + i)%nat by lia. auto.
Qed.

Lemma stmts_length : forall named fs os index, Forall2 given fs os -> length (stmts named index fs os) = length fs.
Proof. intros named fs os index F. revert index. induction F; intro; cbn; auto. Qed.
Lemma pats_length : forall named fs index, length (pats named index fs) = length fs.
Proof. intros named. induction fs; intro; cbn; auto. Qed.

Lemma preds_in : forall fs os i f o, nth_error fs i = Some f -> nth_error os i = Some o ->
  forall p, In p (field_pred f o) -> In p (preds fs os).
Proof.
  induction fs as [|g fs IH]; intros [|o' os] [|i] f o H O p P; try discriminate; cbn [nth_error preds] in *.
  - injection H as ->. injection O as ->. apply in_or_app. auto.
  - apply in_or_app. right. eauto.
Qed.

Lemma variables_distinct : forall named fs index,
  (named = true -> NoDup (map (fun f => id_str (fd_name f)) fs)) -> NoDup (map snd (pats named index fs)).
Proof.
  intros [|] fs index N.
  - specialize (N eq_refl). revert index. induction fs as [|f fs IH]; intro index; cbn; [constructor|].
    inversion N as [|? ? X N']; subst. constructor; [|auto]. intro I'. apply X.
    clear -I'. revert index I'. generalize (id_str (fd_name f)) as x.
    induction fs as [|g fs IH]; intros x index I'; [destruct I'|]. destruct I' as [E|I']; cbn; [left; exact E|right; eauto].
  - clear N. revert index. induction fs as [|f fs IH]; intro index; cbn [pats map snd]; constructor; [|auto].
    unfold field_var. intro I'. apply in_map_iff in I' as ([s x] & E & I'). cbn [snd] in E. subst x.
    assert (H : forall fs j s x, In (s, x) (pats false j fs) -> exists i, (j <= i)%nat /\ x = lit "arg" ++ dec_str (Z.of_nat i)).
    { clear. induction fs as [|f fs IH]; intros j s x I'; [destruct I'|]. destruct I' as [E|I'].
      - injection E as _ <-. exists j. split; [lia|reflexivity].
      - destruct (IH _ _ _ I') as (i & L & E). exists i. split; [lia|exact E]. }
    destruct (H _ _ _ _ I') as (i & L & E). apply app_inv_head in E. apply dec_str_inj in E; lia.
Qed.

(** The match arm of alternative [j] with fields [fs]. *)
Definition kind_of (d : def) (j : nat) : fkind :=
  match d_body d with
  | BStruct k _ => k
  | BEnum vs => match nth_error vs j with Some v => vd_kind v | None => KUnit end
  | BUnion => KUnit
  end.

Lemma arm_cases : forall d im, derived_from d im -> forall j fs, nth_error (alternative_defs d) j = Some fs ->
  exists os, Forall2 given fs os /\ nth_error (im_arms im) j = Some (arm_of (kind_of d j) fs os) /\
    forall p, In p (preds fs os) -> In p (im_where im).
Proof.
  intros d im D j fs A. unfold alternative_defs, kind_of in *.
  destruct D as [d k fs' os ps B G F|d vs oss ps tag B G F _]; rewrite B in A |- *; cbn [im_arms im_where].
  - destruct j as [|[|j]]; try discriminate. injection A as ->. exists os. split; [exact F|]. split; [reflexivity|].
    intros p P. apply in_or_app. auto.
  - assert (H : exists os v, nth_error vs j = Some v /\ vd_fields v = fs /\ Forall2 given fs os /\
      nth_error (variants_arms vs oss) j = Some (arm_of (vd_kind v) fs os) /\
      forall p, In p (preds fs os) -> In p (variants_preds vs oss)).
    { clear B G ps tag. revert j A. induction F as [|v os vs oss Gv F IH]; intros [|j] A; try discriminate; cbn [map nth_error] in A.
      - injection A as <-. exists os, v. cbn [nth_error variants_arms variants_preds].
        repeat split; auto. intros p P. apply in_or_app. auto.
      - destruct (IH j A) as (os' & v' & N & E & F' & M & P). exists os', v'.
        cbn [nth_error variants_arms variants_preds]. repeat split; auto. intros p P'. apply in_or_app. auto. }
    destruct H as (os & v & N & E & F' & M & P). exists os. rewrite N. split; [exact F'|]. split; [exact M|].
    intros p P'. apply in_or_app. right. apply (proj2 (dedup_in _ _)). auto.
Qed.

Lemma arms_length : forall d im, derived_from d im -> length (im_arms im) = length (alternative_defs d).
Proof.
  intros d im D. unfold alternative_defs. destruct D as [d k fs' os ps B G F|d vs oss ps tag B G F _]; rewrite B; [reflexivity|].
  cbn [im_arms]. rewrite map_length. clear -F. induction F; cbn; auto.
Qed.

Theorem variables : forall d im j fs, wf_def d -> derive d = Ok im ->
  nth_error (alternative_defs d) j = Some fs -> NoDup (map (fun f => id_str (fd_name f)) fs) ->
  exists a, nth_error (im_arms im) j = Some a /\
    length (a_pats a) = length fs /\ length (a_stmts a) = length fs /\ NoDup (map snd (a_pats a)) /\
    forall i f, nth_error fs i = Some f -> exists x c,
      nth_error (a_pats a) i = Some (selector (kind_of d j) i f, x) /\ nth_error (a_stmts a) i = Some (x, c).
Proof.
  intros d im j fs W D A N. apply derive_iff in D; [|exact W].
  destruct (arm_cases d im D j fs A) as (os & F & E & _). exists (arm_of (kind_of d j) fs os). split; [exact E|].
  unfold arm_of. cbn [a_pats a_stmts]. rewrite pats_length, stmts_length by exact F.
  split; [reflexivity|]. split; [reflexivity|]. split; [apply variables_distinct; auto|].
  intros i f H. destruct (stmts_nth (named_of (kind_of d j)) fs os 0 i f F H) as (o & _ & _ & S').
  exists (field_var (named_of (kind_of d j)) i f), (field_call o (native (fd_ty f))). split; [|exact S'].
  rewrite (pats_nth _ _ 0 i f H). f_equal. f_equal. cbn [Nat.add].
  assert (K : kind_of d j <> KUnit).
  { intro K. unfold kind_of, alternative_defs, wf_def in *. destruct (d_body d) as [k fs'|vs|]; [| |destruct j; discriminate].
    - destruct j as [|[|j]]; try discriminate. injection A as ->. specialize (W K). subst fs. destruct i; discriminate.
    - rewrite nth_error_map in A. destruct (nth_error vs j) as [v|] eqn:V; [|discriminate]. injection A as <-.
      apply nth_error_In in V. rewrite Forall_forall in W. specialize (W v V K). rewrite W in H. destruct i; discriminate. }
  unfold selector, field_sel. destruct (kind_of d j); [congruence|reflexivity|reflexivity].
Qed.

Theorem compiles : forall d im j fs i f a x c, wf_def d -> derive d = Ok im ->
  nth_error (alternative_defs d) j = Some fs -> nth_error fs i = Some f ->
  nth_error (im_arms im) j = Some a -> nth_error (a_stmts a) i = Some (x, c) ->
  (exists r, direct (fd_ty f) r) \/ exists tr, demands c = Some tr /\ In (tr, fd_ty f) (im_where im).
Proof.
  intros d im j fs i f a x c W D A H M S'. apply derive_iff in D; [|exact W].
  destruct (arm_cases d im D j fs A) as (os & F & E & P). rewrite E in M. injection M as <-.
  unfold arm_of in S'. cbn [a_stmts] in S'.
  destruct (stmts_nth (named_of (kind_of d j)) fs os 0 i f F H) as (o & _ & O & S''). rewrite S'' in S'. injection S' as _ <-.
  destruct (native (fd_ty f)) as [p|] eqn:N; [left; eapply native_direct; exact N|]. right.
  exists (field_bound o). split; [destruct o as [[]|]; reflexivity|]. apply P.
  eapply preds_in; [exact H|exact O|]. unfold field_pred. rewrite N. left. reflexivity.
Qed.

(** Bounds are demanded for nothing else. *)
Lemma preds_from : forall fs os p, Forall2 given fs os -> In p (preds fs os) ->
  exists f o, In f fs /\ given f o /\ p = (field_bound o, fd_ty f) /\ native (fd_ty f) = None.
Proof.
  intros fs os p F. induction F as [|f o fs os G F IH]; cbn [preds]; [intros []|]. intro I'.
  apply in_app_iff in I' as [I'|I'].
  - unfold field_pred in I'. destruct (native (fd_ty f)) eqn:N; [destruct I'|]. destruct I' as [<-|[]].
    exists f, o. cbn. auto.
  - destruct (IH I') as (f' & o' & A & B & C & D). exists f', o'. cbn. auto.
Qed.

Theorem bounds : forall d im tr t, wf_def d -> derive d = Ok im -> In (tr, t) (im_where im) ->
  In (tr, t) (d_where d) \/
  exists f o, In f (all_fields d) /\ option_given (fd_attrs f) o /\ t = fd_ty f /\ ~ (exists r, direct t r) /\
    tr = match o with Some a => adapter_trait a | None => TFormat end.
Proof.
  intros d im tr t W D I'. apply derive_iff in D; [|exact W].
  assert (H : forall f o, (tr, t) = (field_bound o, fd_ty f) -> native (fd_ty f) = None -> given f o -> In f (all_fields d) ->
    exists f o, In f (all_fields d) /\ option_given (fd_attrs f) o /\ t = fd_ty f /\ ~ (exists r, direct t r) /\
      tr = match o with Some a => adapter_trait a | None => TFormat end).
  { intros f o E N G A. exists f, o. injection E as -> ->.
    split; [exact A|]. split; [exact G|]. split; [reflexivity|].
    split; [apply (proj1 (native_none _)); exact N|]. destruct o as [[]|]; reflexivity. }
  unfold all_fields in *. destruct D as [d k fs os ps B G F|d vs oss ps tag B G F _]; rewrite B in H |- *; cbn [im_where] in I';
    apply in_app_iff in I' as [I'|I']; auto; right.
  - destruct (preds_from fs os _ F I') as (f & o & A & G' & E & N). eauto.
  - apply (proj1 (dedup_in _ _)) in I'.
    assert (X : exists f o, In f (concat (map vd_fields vs)) /\ given f o /\ (tr, t) = (field_bound o, fd_ty f) /\ native (fd_ty f) = None).
    { clear -F I'. induction F as [|v os vs oss G F IH]; cbn [variants_preds] in I'; [destruct I'|].
      apply in_app_iff in I' as [I'|I'].
      - destruct (preds_from _ _ _ G I') as (f & o & A & R). exists f, o. split; [cbn; apply in_or_app; auto|exact R].
      - destruct (IH I') as (f & o & A & R). exists f, o. split; [cbn; apply in_or_app; auto|exact R]. }
    destruct X as (f & o & A & G' & E & N). eauto.
Qed.

(* ------------------------------------------------------------------ *)
(** * Recursive types *)

Section Recursive.
  Context (env : nat -> user) (std : trait -> gty -> Prop).
  Context (env_ok : forall n d, env n = UDerive d -> wf_def d).

  Lemma formats_in : forall u ts, In u ts -> In (TFormat, u) (formats ts).
  Proof using. intros u ts I'. apply in_map_iff. eauto. Qed.

  Lemma part_in_clause : forall t u ps, clause env t = Some ps -> part env t u -> In (TFormat, u) ps.
  Proof using env_ok.
    intros t u ps C P. destruct P as [t|l ts u L U|n ts u U|n args d f E A NA ND].
    - injection C as <-. left. reflexivity.
    - cbn [clause] in C. cbn [In] in L.
      destruct L as [L|[L|[L|[L|[L|[L|[L|[L|[L|[L|[]]]]]]]]]]]; subst l; cbn [lib_clause] in C;
        repeat match type of C with
          | (if ?b then _ else _) = _ => destruct b; try discriminate
          | match ?x with _ => _ end = _ => destruct x; try discriminate
          end; injection C as C; subst ps;
        first [apply formats_in; exact U |
          cbn [In] in U |- *; repeat (destruct U as [U|U]; [subst u; auto|]); destruct U].
    - cbn [clause lib_clause] in C. destruct ts as [|t [|t' ts]]; try discriminate. injection C as <-.
      destruct U as [->|[]]. left. reflexivity.
    - cbn [clause] in C. rewrite E in C. destruct (derive d) as [im| | |] eqn:D; try discriminate. injection C as <-.
      apply in_map_iff. exists (TFormat, fd_ty f). split; [reflexivity|]. pose proof (env_ok n d E) as W.
      apply (proj1 (derive_iff d im W)) in D. apply (proj2 (native_none _)) in ND.
      assert (X : exists j fs, nth_error (alternative_defs d) j = Some fs /\ In f fs).
      { clear -A. unfold all_fields, alternative_defs in *. destruct (d_body d) as [k fs|vs|]; [| |destruct A].
        - exists O, fs. auto.
        - apply in_concat in A as (fs & V & A). apply In_nth_error in V as (j & V). eauto. }
      destruct X as (j & fs & J & A'). apply In_nth_error in A' as (i & A').
      destruct (arm_cases d im D j fs J) as (os & F & _ & P). apply P.
      destruct (stmts_nth true fs os 0 i f F A') as (o & G & O & _).
      assert (o = None) as -> by (eapply option_given_unique; [exact G|constructor; exact NA]).
      eapply preds_in; [exact A'|exact O|]. unfold field_pred. rewrite ND. left. reflexivity.
  Qed.

  Lemma parts_accessible : forall tr t, holds env std tr t -> tr = TFormat -> Acc (fun u t => part env t u) t.
  Proof using env_ok.
    induction 1 as [tr t N S'|t ps C H IH]; intro E; [congruence|]. constructor. intros u P.
    apply (IH TFormat u); [|reflexivity]. eapply part_in_clause; eauto.
  Qed.

  Lemma inside_snoc : forall t u v, inside env t u -> part env u v -> inside env t v.
  Proof using. intros t u v H P. induction H; [eapply IN_more; eauto; constructor; exact P|eapply IN_more; eauto]. Qed.

  Lemma not_inside_itself : forall t, Acc (fun u t => part env t u) t -> ~ inside env t t.
  Proof using.
    intros t A. induction A as [t _ IH]. intro H. inversion H as [? ? P|? u ? P H']; subst.
    - apply (IH t P). exact H.
    - apply (IH u P). eapply inside_snoc; eauto.
  Qed.

  Theorem recursive_never : forall t, inside env t t -> ~ holds env std TFormat t.
  Proof using env_ok.
    intros t H R. apply (not_inside_itself t); [|exact H]. eapply parts_accessible; [exact R|reflexivity].
  Qed.
End Recursive.

(* ------------------------------------------------------------------ *)
(** * Generic arguments *)

Scheme instance_mind := Minimality for instance Sort Prop
with instances_mind := Minimality for instances Sort Prop.

Lemma instance_inst : forall args t u, instance args t u -> inst args t = u.
Proof.
  intro args. apply (instance_mind args (fun t u => inst args t = u) (fun ts us => map (inst args) ts = us)); cbn [inst map]; intros; try congruence.
  now apply nth_error_nth.
Qed.

Lemma fields_generic : forall env std args fs rfs, describes_fields env std args fs rfs ->
  forall i f t, nth_error fs i = Some f -> instance args (fd_ty f) t -> option_given (fd_attrs f) None ->
  ~ (exists r', direct (fd_ty f) r') ->
  exists r, nth_error rfs i = Some (id_str (fd_name f), None, ROpaque r) /\ describes env std t r.
Proof.
  intros env std args fs rfs H.
  induction H as [args|args f0 o r fs rfs O D _ IH|args f0 r fs rfs O D S' _ IH|args f0 a fs rfs O D S' _ IH]; intros [|i] f t N T G ND;
    cbn [nth_error] in *; try discriminate; try (eapply IH; eauto; fail).
  - injection N as ->. destruct ND. eauto.
  - injection N as ->. apply instance_inst in T as <-. eauto.
  - injection N as ->. assert (Some a = None) by (eapply option_given_unique; eauto). discriminate.
Qed.

Theorem generic_struct : forall env std n args d k fs name rfs, env n = UDerive d -> d_body d = BStruct k fs ->
  describes env std (GUser n args) (RStruct name k rfs) ->
  forall i f t, nth_error fs i = Some f -> instance args (fd_ty f) t -> option_given (fd_attrs f) None ->
  ~ (exists r', direct (fd_ty f) r') ->
  exists r, nth_error rfs i = Some (id_str (fd_name f), None, ROpaque r) /\ describes env std t r.
Proof.
  intros env std n args d k fs name rfs E B H. inversion H as [| | | | | | | | | | | | | | | | | | | | | | |? ? d' k' fs' rfs' ps E' B' C W F|]; subst; try congruence.
  assert (d' = d) by congruence. subst d'. assert (fs' = fs) by congruence. subst fs'. eapply fields_generic. exact F.
Qed.
