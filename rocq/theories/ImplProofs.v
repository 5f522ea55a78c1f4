(** Lemmas about the derive macro over definitions and the resolution of [Format]. *)
From Verif Require Import Base Numerals ParserModel EncodeModel LibTypesModel PanicModel ImplModel ImplSpec.

(* ------------------------------------------------------------------ *)
(** * Attributes *)

Lemma path_eqb_eq : forall a b, path_eqb a b = true <-> a = b.
Proof.
  induction a as [|x a IH]; destruct b as [|y b]; cbn; try (split; [discriminate|discriminate]); [tauto|].
  rewrite andb_true_iff, beq_true, IH. split; [intros [-> ->]; reflexivity|]. injection 1; auto.
Qed.

Lemma is_ident_eq : forall s p, is_ident s p = true <-> p = [lit s].
Proof. intros. apply path_eqb_eq. Qed.

Lemma is_ident_no : forall s p, is_ident s p = false <-> p <> [lit s].
Proof.
  intros. rewrite <- is_ident_eq. destruct (is_ident s p); split; congruence.
Qed.

Fixpoint last_option (l : list adapter) (acc : option adapter) : option adapter :=
  match l with [] => acc | a :: l' => last_option l' (Some a) end.

Lemma option_word_inv : forall p r a, MPath p r = option_word a -> p = [adapter_name a] /\ r = RNothing.
Proof. intros p r a E. unfold option_word in E. injection E as -> ->. auto. Qed.

Lemma adapter_name_inj : forall a b, adapter_name a = adapter_name b -> a = b.
Proof. intros [] [] E; try reflexivity; apply beq_true in E; discriminate. Qed.

Lemma option_path : forall p,
  (if is_ident "Debug2Format" p then Ok (Some ADebug2)
   else if is_ident "Display2Format" p then Ok (Some ADisplay2)
   else Err EUnknown) =
  match option_map (fun a => a) (if is_ident "Debug2Format" p then Some ADebug2 else
    if is_ident "Display2Format" p then Some ADisplay2 else None) with
  | Some a => @Ok derr _ (Some a) | None => Err EUnknown end.
Proof. intro p. destruct (is_ident "Debug2Format" p), (is_ident "Display2Format" p); reflexivity. Qed.

Lemma option_path_iff : forall p a,
  (if is_ident "Debug2Format" p then Some ADebug2 else
    if is_ident "Display2Format" p then Some ADisplay2 else None) = Some a <-> p = [adapter_name a].
Proof.
  intros p a. split.
  - destruct (is_ident "Debug2Format" p) eqn:D; [|destruct (is_ident "Display2Format" p) eqn:P].
    + injection 1 as <-. apply is_ident_eq, D.
    + injection 1 as <-. apply is_ident_eq, P.
    + discriminate.
  - intros ->. destruct a; reflexivity.
Qed.

Lemma option_metas_iff : forall ms acc o, option_metas ms acc = Ok o <->
  exists l, ms = map option_word l /\ o = last_option l acc.
Proof.
  induction ms as [|m ms IH]; intros acc o; cbn [option_metas].
  - split; [injection 1 as <-; exists []; auto|]. intros ([|a l] & E & ->); [reflexivity|discriminate].
  - destruct m as [p r|].
    + rewrite option_path.
      destruct (if is_ident "Debug2Format" p then Some ADebug2 else
        if is_ident "Display2Format" p then Some ADisplay2 else None) as [a|] eqn:P; cbn [option_map bind].
      * apply option_path_iff in P. subst p. split.
        -- intro H. destruct r; try discriminate. apply IH in H as (l & -> & ->). exists (a :: l). auto.
        -- intros ([|b l] & E & ->); [discriminate|]. cbn [map] in E.
           assert (E1 : MPath [adapter_name a] r = option_word b) by congruence.
           assert (E2 : ms = map option_word l) by congruence.
           apply option_word_inv in E1 as (E1 & ->).
           assert (a = b) as -> by (apply adapter_name_inj; congruence).
           apply IH. eauto.
      * split; [discriminate|]. intros ([|b l] & E & _); [discriminate|]. cbn [map] in E.
        assert (E1 : MPath p r = option_word b) by congruence. apply option_word_inv in E1 as (E1 & _).
        apply option_path_iff in E1. congruence.
    + split; [discriminate|]. intros ([|a l] & E & _); [discriminate|]. cbn [map] in E.
      unfold option_word in E. discriminate.
Qed.

Lemma last_option_snoc : forall l a acc, last_option (l ++ [a]) acc = Some a.
Proof. induction l; intros; cbn; auto. Qed.

Lemma option_attrs_some : forall attrs a o, option_attrs attrs (Some a) = Ok o <->
  o = Some a /\ Forall (fun x => ~ is_defmt x) attrs.
Proof.
  induction attrs as [|[p st] attrs IH]; intros a o; cbn [option_attrs].
  - split; [injection 1 as <-; auto|]. intros [-> _]. reflexivity.
  - destruct (is_ident "defmt" p) eqn:E.
    + split; [discriminate|]. intros [_ F]. inversion F as [|x l N F']; subst. elim N.
      apply is_ident_eq in E. exact E.
    + rewrite IH. apply is_ident_no in E. split; intros [-> F]; split; auto.
      inversion F; assumption.
Qed.

Lemma option_attrs_none : forall attrs o, option_attrs attrs None = Ok o <-> option_given attrs o.
Proof.
  induction attrs as [|[p st] attrs IH]; intro o; cbn [option_attrs].
  - split.
    + injection 1 as <-. constructor. constructor.
    + inversion 1 as [|before after others a E]; [reflexivity|]. destruct before; discriminate.
  - destruct (is_ident "defmt" p) eqn:E.
    + apply is_ident_eq in E. subst p. split.
      * intro H. destruct st as [| |ms]; try discriminate.
        destruct (option_metas ms None) as [parsed| | |] eqn:M; try discriminate. cbn [bind] in H.
        destruct parsed as [a|]; [|discriminate]. apply option_attrs_some in H as [-> F].
        apply option_metas_iff in M as (l & -> & L).
        destruct (exists_last (l := l)) as (l' & b & ->); [intros ->; discriminate|].
        rewrite last_option_snoc in L. injection L as <-. eapply (OG_one _ [] attrs l'); auto.
      * inversion 1 as [F|before after others a E Fb Fa]; subst.
        -- inversion F as [|x l N _]; subst. elim N. reflexivity.
        -- destruct before as [|[q st'] before]; cbn [app] in E.
           ++ injection E as -> ->. cbn [bind].
              replace (option_metas (map option_word (others ++ [a])) None)
                with (@Ok derr _ (Some a))
                by (symmetry; apply option_metas_iff; exists (others ++ [a]); rewrite last_option_snoc; auto).
              cbn [bind]. apply option_attrs_some. auto.
           ++ injection E as <- _ _. inversion Fb as [|x l N _]; subst. elim N. reflexivity.
    + apply is_ident_no in E. rewrite IH. split.
      * inversion 1 as [F|before after others a E' Fb Fa]; subst.
        -- constructor. constructor; auto.
        -- eapply (OG_one _ ((p, st) :: before)); [reflexivity| |exact Fa]. constructor; auto.
      * inversion 1 as [F|before after others a E' Fb Fa]; subst.
        -- constructor. inversion F; assumption.
        -- destruct before as [|[q st'] before]; cbn [app] in E'.
           ++ injection E' as -> _ _. elim E. reflexivity.
           ++ injection E' as -> -> ->. inversion Fb; subst. eapply OG_one; eauto.
Qed.

Lemma format_option_iff : forall f o, format_option f = Ok o <-> option_given (fd_attrs f) o.
Proof. intros. apply option_attrs_none. Qed.

Lemma option_given_unique : forall attrs o o', option_given attrs o -> option_given attrs o' -> o = o'.
Proof. intros attrs o o' A B. apply option_attrs_none in A, B. congruence. Qed.

(** The last of a list of paths. *)
Lemma last_default : forall (A : Type) (l : list A) d d', l <> [] -> last l d = last l d'.
Proof. induction l as [|x [|y l] IH]; intros d d' N; [congruence|reflexivity|]. apply (IH d d'). discriminate. Qed.

Lemma last_cons : forall (A : Type) (l : list A) x d, last (x :: l) d = last l x.
Proof. destruct l as [|y l]; intros; [reflexivity|]. cbn [last]. apply (last_default A (y :: l)). discriminate. Qed.

Lemma last_app_default : forall (A : Type) (l l' : list A) d, last (l ++ l') d = last l' (last l d).
Proof.
  induction l as [|x l IH]; intros l' d; [reflexivity|]. rewrite <- app_comm_cons, !last_cons. apply IH.
Qed.

Lemma crate_metas_iff : forall ms acc p, crate_metas ms acc = Ok p <->
  exists qs, ms = map crate_word qs /\ p = last qs acc.
Proof.
  induction ms as [|m ms IH]; intros acc p; cbn [crate_metas].
  - split; [injection 1 as <-; exists []; auto|]. intros ([|q qs] & E & ->); [reflexivity|discriminate].
  - destruct m as [q r|].
    + destruct (is_ident "crate" q) eqn:C.
      * apply is_ident_eq in C. subst q. destruct r as [|q|].
        -- split; [discriminate|]. intros ([|q qs] & E & _); [discriminate|]. unfold crate_word in E. cbn [map] in E. discriminate.
        -- rewrite IH. split.
           ++ intros (qs & -> & ->). exists (q :: qs). rewrite last_cons. auto.
           ++ intros ([|q' qs] & E & ->); [discriminate|]. unfold crate_word in E. cbn [map] in E.
              injection E as -> ->. exists qs. rewrite last_cons. auto.
        -- split; [discriminate|]. intros ([|q qs] & E & _); [discriminate|]. unfold crate_word in E. cbn [map] in E. discriminate.
      * apply is_ident_no in C. split; [discriminate|]. intros ([|q' qs] & E & _); [discriminate|].
        unfold crate_word in E. cbn [map] in E. injection E as -> _ _. elim C. reflexivity.
    + split; [discriminate|]. intros ([|q' qs] & E & _); [discriminate|]. unfold crate_word in E. cbn [map] in E. discriminate.
Qed.

Lemma crate_attrs_iff : forall attrs acc p, crate_attrs attrs acc = Ok p <->
  exists ps, crate_given attrs ps /\ p = last ps acc.
Proof.
  induction attrs as [|[q st] attrs IH]; intros acc p; cbn [crate_attrs].
  - split; [injection 1 as <-; exists []; split; [constructor|auto]|].
    intros (ps & G & ->). inversion G. reflexivity.
  - destruct (is_ident "defmt" q) eqn:E.
    + apply is_ident_eq in E. subst q. split.
      * intro H. destruct st as [| |ms]; try discriminate.
        destruct (crate_metas ms acc) as [acc'| | |] eqn:M; try discriminate. cbn [bind] in H.
        apply crate_metas_iff in M as (qs & -> & ->). apply IH in H as (ps & G & ->).
        exists (qs ++ ps). split; [constructor; exact G|]. rewrite last_app_default. reflexivity.
      * intros (ps & G & ->). inversion G as [|a l ps' N G'|qs l ps' G']; subst.
        -- elim N. reflexivity.
        -- replace (crate_metas (map crate_word qs) acc) with (@Ok derr _ (last qs acc))
             by (symmetry; apply crate_metas_iff; eauto). cbn [bind].
           apply IH. exists ps'. rewrite last_app_default. auto.
    + apply is_ident_no in E. rewrite IH. split; intros (ps & G & ->).
      * exists ps. split; [constructor; [exact E|exact G]|reflexivity].
      * inversion G as [|a l ps' N G'|qs l ps' G']; subst; [|elim E; reflexivity]. eauto.
Qed.

Lemma crate_path_iff : forall attrs p, crate_path attrs = Ok p <->
  exists ps, crate_given attrs ps /\ p = last ps [lit "defmt"].
Proof. intros. apply crate_attrs_iff. Qed.

(* ------------------------------------------------------------------ *)
(** * Native types *)

Lemma direct_native : forall t r, direct t r -> exists p, native t = Some p /\ as_native r = Some p.
Proof.
  induction 1 as [p A B|t r H IH].
  - exists p. destruct p; try congruence; auto.
  - exact IH.
Qed.

Lemma native_direct : forall t p, native t = Some p -> exists r, direct t r.
Proof.
  induction t as [p|t IH|i|t IH|l ts|n ts]; intros q H; try discriminate.
  - exists (RPrim p). constructor; intros ->; discriminate.
  - cbn [native] in H. destruct (IH q H) as (r & R). exists (RRef r). constructor. exact R.
Qed.

Lemma native_none : forall t, native t = None <-> ~ (exists r, direct t r).
Proof.
  intro t. split.
  - intros N (r & D). apply direct_native in D as (p & E & _). congruence.
  - intro N. destruct (native t) as [p|] eqn:E; [|reflexivity]. elim N. eapply native_direct. exact E.
Qed.

Lemma direct_unique : forall t r r', direct t r -> direct t r' -> r = r'.
Proof.
  intros t r r' D. revert r'. induction D as [p A B|t r D IH]; intros r' D'; inversion D'; subst; auto.
  f_equal. auto.
Qed.

(* ------------------------------------------------------------------ *)
(** * Removing repeated predicates *)

Lemma dedup_after_in : forall l prev x, x <> prev -> In x (dedup_after prev l) <-> In x l.
Proof.
  induction l as [|y l IH]; intros prev x N; cbn [dedup_after]; [reflexivity|].
  destruct (pred_dec y prev) as [->|D].
  - rewrite (IH prev x N). cbn [In]. split; [auto|]. intros [->|H]; [congruence|exact H].
  - cbn [In]. destruct (pred_dec x y) as [->|X]; [tauto|]. rewrite (IH y x X). reflexivity.
Qed.

Lemma dedup_in : forall l x, In x (dedup l) <-> In x l.
Proof.
  intros [|y l] x; cbn [dedup]; [reflexivity|]. cbn [In]. destruct (pred_dec x y) as [->|X]; [tauto|].
  rewrite (dedup_after_in l y x X). reflexivity.
Qed.

(* ------------------------------------------------------------------ *)
(** * Fields *)

(** What the loop collects about each field, given the options. *)
Definition field_pred (f : field_def) (o : option adapter) : list pred :=
  match native (fd_ty f) with None => [(field_bound o, fd_ty f)] | Some _ => [] end.
Definition field_text (named : bool) (f : field_def) : bytes :=
  let ty_name := match native (fd_ty f) with Some p => prim_name p | None => lit "?" end in
  if named then id_str (fd_name f) ++ lit ": {=" ++ ty_name ++ lit ":?}" else lit "{=" ++ ty_name ++ lit "}".

Fixpoint texts (named : bool) (index : nat) (fs : list field_def) : bytes :=
  match fs with
  | [] => []
  | f :: fs' => ((if (index =? 0)%nat then [] else lit ", ") ++ field_text named f) ++ texts named (S index) fs'
  end.
Definition field_var (named : bool) (i : nat) (f : field_def) : bytes :=
  if named then id_str (fd_name f) else lit "arg" ++ dec_str (Z.of_nat i).
Definition field_sel (named : bool) (i : nat) (f : field_def) : bytes :=
  if named then id_str (fd_name f) else dec_str (Z.of_nat i).
Fixpoint pats (named : bool) (index : nat) (fs : list field_def) : list (bytes * bytes) :=
  match fs with
  | [] => []
  | f :: fs' => (field_sel named index f, field_var named index f) :: pats named (S index) fs'
  end.
Fixpoint stmts (named : bool) (index : nat) (fs : list field_def) (os : list (option adapter))
  : list (bytes * call) :=
  match fs, os with
  | f :: fs', o :: os' =>
      (field_var named index f, field_call o (native (fd_ty f))) :: stmts named (S index) fs' os'
  | _, _ => []
  end.
Fixpoint preds (fs : list field_def) (os : list (option adapter)) : list pred :=
  match fs, os with
  | f :: fs', o :: os' => field_pred f o ++ preds fs' os'
  | _, _ => []
  end.

Definition given (f : field_def) (o : option adapter) : Prop := option_given (fd_attrs f) o.

Lemma fields_loop_iff : forall named fs index x, fields_loop named index fs = Ok x <->
  exists os, Forall2 given fs os /\
    x = (texts named index fs, {| a_pats := pats named index fs; a_stmts := stmts named index fs os |}, preds fs os).
Proof.
  intros named fs. induction fs as [|f fs IH]; intros index x.
  - cbn. split; [injection 1 as <-; exists []; auto|]. intros (os & F & ->). inversion F. reflexivity.
  - cbn [fields_loop]. split.
    + intro H. destruct (format_option f) as [o| | |] eqn:O; try discriminate. cbn [bind] in H.
      destruct (fields_loop named (S index) fs) as [[[text' a] ps]| | |] eqn:L; try discriminate.
      cbn [bind] in H. apply (proj1 (IH _ _)) in L as (os & F & E). injection E as -> -> ->.
      injection H as <-. apply format_option_iff in O. exists (o :: os). split; [constructor; auto|].
      destruct named; reflexivity.
    + intros (os & F & ->). inversion F as [|f' o fs' os' G F' E1 E2]; subst. apply format_option_iff in G.
      rewrite G. cbn [bind].
      replace (fields_loop named (S index) fs) with
        (@Ok derr _ (texts named (S index) fs, {| a_pats := pats named (S index) fs; a_stmts := stmts named (S index) fs os' |}, preds fs os'))
        by (symmetry; apply IH; eauto).
      cbn [bind a_pats a_stmts]. destruct named; reflexivity.
Qed.

Definition named_of (k : fkind) : bool := match k with KNamed => true | _ => false end.
Definition wrap (k : fkind) (s : bytes) : bytes :=
  match k with
  | KUnit => []
  | KNamed => lit " {{ " ++ s ++ lit " }}"
  | KUnnamed => lit "(" ++ s ++ lit ")"
  end.
Definition fields_text (k : fkind) (fs : list field_def) : bytes :=
  match fs with [] => [] | _ => wrap k (texts (named_of k) 0 fs) end.
Definition arm_of (k : fkind) (fs : list field_def) (os : list (option adapter)) : arm :=
  {| a_pats := pats (named_of k) 0 fs; a_stmts := stmts (named_of k) 0 fs os |}.

Lemma fields_codegen_iff : forall k fs x, wf_fields k fs -> fields_codegen k fs = Ok x <->
  exists os, Forall2 given fs os /\ x = (fields_text k fs, arm_of k fs os, preds fs os).
Proof.
  intros k fs x W. destruct fs as [|f fs].
  - assert (fields_codegen k [] = Ok ([], {| a_pats := []; a_stmts := [] |}, [])) as -> by (destruct k; reflexivity).
    split; [injection 1 as <-; exists []; auto|]. intros (os & F & ->). inversion F. reflexivity.
  - destruct k; [specialize (W eq_refl); discriminate| |]; cbn [fields_codegen]; split.
    + intro H. destruct (fields_loop true 0 (f :: fs)) as [[[text a] ps]| | |] eqn:L; try discriminate.
      cbn [bind] in H. injection H as <-. apply (proj1 (fields_loop_iff _ _ _ _)) in L as (os & F & E).
      injection E as -> -> ->. exists os. split; [exact F|reflexivity].
    + intros (os & F & ->).
      rewrite (proj2 (fields_loop_iff true (f :: fs) 0 _) (ex_intro _ os (conj F eq_refl))). reflexivity.
    + intro H. destruct (fields_loop false 0 (f :: fs)) as [[[text a] ps]| | |] eqn:L; try discriminate.
      cbn [bind] in H. injection H as <-. apply (proj1 (fields_loop_iff _ _ _ _)) in L as (os & F & E).
      injection E as -> -> ->. exists os. split; [exact F|reflexivity].
    + intros (os & F & ->).
      rewrite (proj2 (fields_loop_iff false (f :: fs) 0 _) (ex_intro _ os (conj F eq_refl))). reflexivity.
Qed.

(** Variants. *)
Definition given_variant (v : variant_def) (os : list (option adapter)) : Prop := Forall2 given (vd_fields v) os.

Fixpoint variants_text (first : bool) (vs : list variant_def) : bytes :=
  match vs with
  | [] => []
  | v :: vs' => (if first then [] else lit "|") ++ id_str (vd_name v) ++
      fields_text (vd_kind v) (vd_fields v) ++ variants_text false vs'
  end.
Fixpoint variants_arms (vs : list variant_def) (oss : list (list (option adapter))) : list arm :=
  match vs, oss with
  | v :: vs', os :: oss' => arm_of (vd_kind v) (vd_fields v) os :: variants_arms vs' oss'
  | _, _ => []
  end.
Fixpoint variants_preds (vs : list variant_def) (oss : list (list (option adapter))) : list pred :=
  match vs, oss with
  | v :: vs', os :: oss' => preds (vd_fields v) os ++ variants_preds vs' oss'
  | _, _ => []
  end.

Lemma variants_loop_iff : forall vs first x, Forall (fun v => wf_fields (vd_kind v) (vd_fields v)) vs ->
  variants_loop first vs = Ok x <->
  exists oss, Forall2 given_variant vs oss /\
    x = (variants_text first vs, variants_arms vs oss, variants_preds vs oss).
Proof.
  induction vs as [|v vs IH]; intros first x W.
  - cbn. split; [injection 1 as <-; exists []; auto|]. intros (oss & F & ->). inversion F. reflexivity.
  - inversion W as [|v' vs' Wv W']; subst. cbn [variants_loop]. split.
    + intro H. destruct (fields_codegen (vd_kind v) (vd_fields v)) as [[[text a] ps]| | |] eqn:L; try discriminate.
      cbn [bind] in H. apply (proj1 (fields_codegen_iff _ _ _ Wv)) in L as (os & F & E). injection E as -> -> ->.
      destruct (variants_loop false vs) as [[[text' arms] ps']| | |] eqn:V; try discriminate.
      cbn [bind] in H. apply (proj1 (IH _ _ W')) in V as (oss & F' & E). injection E as -> -> ->.
      injection H as <-. exists (os :: oss). split; [constructor; auto|]. reflexivity.
    + intros (oss & F & ->). inversion F as [|v' os vs' oss' G F' E1 E2]; subst.
      rewrite (proj2 (fields_codegen_iff _ _ _ Wv) (ex_intro _ os (conj G eq_refl))). cbn [bind].
      rewrite (proj2 (IH false _ W') (ex_intro _ oss' (conj F' eq_refl))). reflexivity.
Qed.

(* ------------------------------------------------------------------ *)
(** * The implementation *)

Inductive derived_from : def -> impl -> Prop :=
| DR_struct d k fs os ps : d_body d = BStruct k fs -> crate_given (d_attrs d) ps -> Forall2 given fs os ->
    derived_from d {| im_path := last ps [lit "defmt"]; im_tag := id_str (d_name d) ++ fields_text k fs;
      im_arms := [arm_of k fs os]; im_where := d_where d ++ preds fs os |}
| DR_enum d vs oss ps tag : d_body d = BEnum vs -> crate_given (d_attrs d) ps -> Forall2 given_variant vs oss ->
    tag = match vs with [] => lit "!" | _ => variants_text true vs end ->
    derived_from d {| im_path := last ps [lit "defmt"]; im_tag := tag;
      im_arms := variants_arms vs oss; im_where := d_where d ++ dedup (variants_preds vs oss) |}.

Lemma derive_iff : forall d im, wf_def d -> derive d = Ok im <-> derived_from d im.
Proof.
  intros d im W. unfold derive. split.
  - intro H. destruct (crate_path (d_attrs d)) as [p| | |] eqn:C; try discriminate. cbn [bind] in H.
    apply crate_path_iff in C as (qs & G & ->). unfold wf_def in W.
    destruct (d_body d) as [k fs|[|v vs]|] eqn:B; try discriminate.
    + destruct (fields_codegen k fs) as [[[text a] ps]| | |] eqn:L; try discriminate. cbn [bind] in H.
      injection H as <-. apply (proj1 (fields_codegen_iff _ _ _ W)) in L as (os & F & E). injection E as -> -> ->.
      econstructor; eauto.
    + injection H as <-. rewrite <- (app_nil_r (d_where d)).
      apply (DR_enum d [] [] qs); auto.
    + destruct (variants_loop true (v :: vs)) as [[[text arms] ps]| | |] eqn:L; try discriminate. cbn [bind] in H.
      injection H as <-. apply (proj1 (variants_loop_iff _ _ _ W)) in L as (oss & F & E). injection E as -> -> ->.
      apply (DR_enum d (v :: vs) oss qs); auto.
  - unfold wf_def in W. intro D. revert W. destruct D as [d k fs os ps B G F|d vs oss ps tag B G F ->]; intro W;
      rewrite (proj2 (crate_path_iff _ _) (ex_intro _ ps (conj G eq_refl))); cbn [bind]; rewrite B in W |- *.
    + rewrite (proj2 (fields_codegen_iff _ _ _ W) (ex_intro _ os (conj F eq_refl))). reflexivity.
    + destruct vs as [|v vs]; [inversion F; subst; cbn; rewrite app_nil_r; reflexivity|].
      rewrite (proj2 (variants_loop_iff _ true _ W) (ex_intro _ oss (conj F eq_refl))). reflexivity.
Qed.
