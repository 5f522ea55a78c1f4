(** Theorems about derived implementations. *)
From Verif Require Import Base Numerals ParserModel EncodeModel LibTypesModel PanicModel ImplModel ImplSpec ImplProofs.

Scheme describes_mut := Minimality for describes Sort Prop
  with describes_all_mut := Minimality for describes_all Sort Prop
  with bounded_mut := Minimality for bounded Sort Prop
  with describes_fields_mut := Minimality for describes_fields Sort Prop
  with describes_variants_mut := Minimality for describes_variants Sort Prop.
Combined Scheme describes_both from describes_mut, describes_all_mut, bounded_mut, describes_fields_mut, describes_variants_mut.

(* ------------------------------------------------------------------ *)
(** * Accepted definitions *)

Lemma Forall2_exists : forall (A B : Type) (R : A -> B -> Prop) l,
  (exists l', Forall2 R l l') <-> Forall (fun a => exists b, R a b) l.
Proof.
  intros A B R l. split.
  - intros (l' & F). induction F; constructor; eauto.
  - induction 1 as [|a l (b & H) F (l' & IH)]; [exists []; constructor|]. exists (b :: l'). constructor; auto.
Qed.

Theorem accepted : forall d, wf_def d ->
  (exists im, derive d = Ok im) <->
  d_body d <> BUnion /\ (exists ps, crate_given (d_attrs d) ps) /\
  Forall (fun f => exists o, option_given (fd_attrs f) o) (all_fields d).
Proof.
  intros d W. split.
  - intros (im & D). apply derive_iff in D; [|exact W]. unfold all_fields.
    destruct D as [d k fs os ps B G F|d vs oss ps tag B G F _]; rewrite B; (split; [discriminate|]); (split; [eauto|]).
    + apply (proj1 (Forall2_exists _ _ given fs)). eauto.
    + apply Forall_concat. apply Forall_map. assert (E : exists oss, Forall2 given_variant vs oss) by eauto.
      apply Forall2_exists in E. eapply Forall_impl; [|exact E]. intros v H. apply (proj1 (Forall2_exists _ _ given _)), H.
  - intros (B & (ps & G) & F). unfold all_fields in F. destruct (d_body d) as [k fs|vs|] eqn:E; [| |congruence].
    + apply (proj2 (Forall2_exists _ _ given fs)) in F as (os & F). eexists. apply derive_iff; [exact W|].
      econstructor; eauto.
    + apply Forall_concat in F. apply (proj1 (Forall_map _ _ _)) in F.
      assert (F' : Forall (fun v => exists os, given_variant v os) vs).
      { eapply Forall_impl; [|exact F]. intros v H. apply (proj2 (Forall2_exists _ _ given _)) in H. exact H. }
      apply Forall2_exists in F' as (oss & F'). eexists. apply derive_iff; [exact W|]. eapply DR_enum; eauto.
Qed.

Theorem crate_of : forall d im, derive d = Ok im ->
  exists ps, crate_given (d_attrs d) ps /\ im_path im = last ps [lit "defmt"].
Proof.
  intros d im H. unfold derive in H. destruct (crate_path (d_attrs d)) as [p| | |] eqn:C; try discriminate.
  cbn [bind] in H. apply crate_path_iff in C as (ps & G & ->). exists ps. split; [exact G|].
  destruct (d_body d) as [k fs|[|v vs]|]; try discriminate.
  - destruct (fields_codegen k fs) as [[[text a] qs]| | |]; try discriminate. injection H as <-. reflexivity.
  - injection H as <-. reflexivity.
  - destruct (variants_loop true (v :: vs)) as [[[text arms] qs]| | |]; try discriminate. injection H as <-. reflexivity.
Qed.

(* ------------------------------------------------------------------ *)
(** * Resolution *)

Section Resolution.
  Context (env : nat -> user) (std : trait -> gty -> Prop).
  Context (env_ok : forall n d, env n = UDerive d -> wf_def d).

  Notation holds := (holds env std).
  Notation describes := (describes env std).

  Definition at_args (args : list gty) (p : pred) : trait * gty := (fst p, inst args (snd p)).

  Lemma clause_derive : forall n d im args, env n = UDerive d -> derive d = Ok im ->
    clause env (GUser n args) = Some (map (at_args args) (im_where im)).
  Proof using. intros n d im args E D. cbn [clause]. rewrite E, D. reflexivity. Qed.

  Lemma holds_user : forall args n ws, clause env (GUser n args) = Some (map (at_args args) ws) ->
    (forall tr t, In (tr, t) ws -> holds tr (inst args t)) -> holds TFormat (GUser n args).
  Proof using.
    intros args n ws C H. eapply H_format; [exact C|]. intros tr t I'. apply in_map_iff in I' as ([tr' t'] & E & I').
    unfold at_args in E. cbn [fst snd] in E. injection E as <- <-. auto.
  Qed.

  Lemma holds_lib : forall l ts, lib_clause l ts = Some (formats ts) -> Forall (holds TFormat) ts ->
    holds TFormat (GLib l ts).
  Proof using.
    intros l ts C F. eapply H_format; [exact C|]. intros tr t I'. unfold formats in I'.
    apply in_map_iff in I' as (t' & E & I'). injection E as <- <-. rewrite Forall_forall in F. auto.
  Qed.

  Lemma holds_free : forall t, clause env t = Some [] -> holds TFormat t.
  Proof using. intros t C. eapply H_format; [exact C|]. intros tr u []. Qed.

  Lemma described_holds_all :
    (forall t r, describes t r -> holds TFormat t) /\
    (forall ts rs, describes_all env std ts rs -> Forall (holds TFormat) ts) /\
    (forall args ws, bounded env std args ws -> forall tr t, In (tr, t) ws -> holds tr (inst args t)) /\
    (forall args fs rfs, describes_fields env std args fs rfs ->
      exists os, Forall2 given fs os /\ forall tr t, In (tr, t) (preds fs os) -> holds tr (inst args t)) /\
    (forall args vs rvs, describes_variants env std args vs rvs ->
      exists oss, Forall2 given_variant vs oss /\
        forall tr t, In (tr, t) (variants_preds vs oss) -> holds tr (inst args t)).
  Proof using env_ok.
    apply describes_both.
    - intro p. apply holds_free. reflexivity.
    - intros t r _ IH. eapply H_format; [reflexivity|]. intros tr u [E|[]]. injection E as <- <-. exact IH.
    - intros t r _ IH. apply holds_lib; [reflexivity|auto].
    - intros n t r _ IH. apply holds_lib; [reflexivity|auto].
    - intros ts rs L _ IH. apply holds_lib; [|exact IH]. cbn [lib_clause].
      destruct (Nat.leb_spec (length ts) 12); [reflexivity|lia].
    - intros t r _ IH. apply holds_lib; [reflexivity|auto].
    - intros t r _ IH. apply holds_lib; [reflexivity|auto].
    - apply holds_free. reflexivity.
    - intros t r _ IH. apply holds_lib; [reflexivity|auto].
    - intros t e r s _ IH _ IH'. apply holds_lib; [reflexivity|auto].
    - intros t r _ IH. apply holds_lib; [reflexivity|auto].
    - intros t r _ IH C. eapply H_format; [reflexivity|]. intros tr u [E|[E|[]]]; injection E as <- <-; [exact IH|].
      apply H_other; [discriminate|exact C].
    - intro t. apply holds_free. reflexivity.
    - apply holds_free. reflexivity.
    - intro t. apply holds_free. reflexivity.
    - intros t args L. apply holds_free. cbn [clause lib_clause].
      destruct (Nat.leb_spec (length args) 12); [reflexivity|lia].
    - intros t r _ IH. apply holds_lib; [reflexivity|auto].
    - intros t e r s _ IH _ IH'. apply holds_lib; [reflexivity|auto].
    - intro name. apply holds_free. reflexivity.
    - intros t C. eapply H_format; [reflexivity|]. intros tr u [E|[]]; injection E as <- <-.
      apply H_other; [discriminate|exact C].
    - intros t C. eapply H_format; [reflexivity|]. intros tr u [E|[]]; injection E as <- <-.
      apply H_other; [discriminate|exact C].
    - intros n args ws E _ IH. apply (holds_user args n ws); [|exact IH]. cbn [clause]. rewrite E. reflexivity.
    - intros n args w name p d c E. apply holds_free. cbn [clause]. rewrite E. reflexivity.
    - intros n args d k fs rfs ps E B G _ IHw _ (os & F & IHf).
      eapply holds_user.
      + eapply clause_derive; [exact E|]. apply derive_iff; [eapply env_ok; exact E|]. eapply DR_struct; eauto.
      + cbn [im_where]. intros tr t I'. apply in_app_iff in I' as [I'|I']; auto.
    - intros n args d vs rvs ps E B G _ IHw _ (oss & F & IHf).
      eapply holds_user.
      + eapply clause_derive; [exact E|]. apply derive_iff; [eapply env_ok; exact E|]. eapply DR_enum; eauto.
      + cbn [im_where]. intros tr t I'. apply in_app_iff in I' as [I'|I']; auto. apply (proj1 (dedup_in _ _)) in I'. auto.
    - constructor.
    - intros t r ts rs _ IH _ IH'. constructor; auto.
    - intros args tr t [].
    - intros args t r ws _ IH _ IH' tr u [E|I']; [injection E as <- <-; exact IH|auto].
    - intros args tr t ws N S' _ IH' tr' u [E|I']; [injection E as <- <-|auto]. apply H_other; auto.
    - intros args. exists []. split; [constructor|]. intros tr t [].
    - intros args f o r fs rfs G D _ (os & F & IH). exists (o :: os). split; [constructor; auto|].
      intros tr t I'. cbn [preds] in I'. unfold field_pred in I'. apply direct_native in D as (p & N & _).
      rewrite N in I'. cbn [app] in I'. auto.
    - intros args f r fs rfs G D _ IHt _ (os & F & IH). exists (None :: os). split; [constructor; auto|].
      intros tr t I'. cbn [preds] in I'. unfold field_pred in I'. apply native_none in D.
      rewrite D in I'. cbn [app field_bound] in I'. destruct I' as [E|I']; [injection E as <- <-; exact IHt|auto].
    - intros args f a fs rfs G D S' _ (os & F & IH). exists (Some a :: os). split; [constructor; auto|].
      intros tr t I'. cbn [preds] in I'. unfold field_pred in I'. apply native_none in D.
      rewrite D in I'. cbn [app] in I'. destruct I' as [E|I']; [injection E as <- <-|auto].
      apply H_other; destruct a; (discriminate || exact S').
    - intros args. exists []. split; [constructor|]. intros tr t [].
    - intros args v rfs vs rvs _ (os & F & IH) _ (oss & F' & IH'). exists (os :: oss). split; [constructor; auto|].
      cbn [variants_preds]. intros tr t I'. apply in_app_iff in I' as [I'|I']; auto.
  Qed.

  (** The other direction. *)
  Definition proved (tr : trait) (t : gty) : Prop :=
    match tr with TFormat => exists r, describes t r | _ => std tr t end.

  Lemma bounded_of : forall args ws, (forall tr t, In (tr, t) ws -> proved tr (inst args t)) ->
    bounded env std args ws.
  Proof using.
    induction ws as [|[tr t] ws IH]; intro H; [constructor|].
    pose proof (H tr t (or_introl eq_refl)) as P. specialize (IH (fun tr t I' => H tr t (or_intror I'))).
    destruct tr; try (apply BD_other; [discriminate|exact P|exact IH]).
    destruct P as (r & P). eapply BD_format; eauto.
  Qed.

  Lemma fields_of : forall args fs os, Forall2 given fs os ->
    (forall tr t, In (tr, t) (preds fs os) -> proved tr (inst args t)) ->
    exists rfs, describes_fields env std args fs rfs.
  Proof using.
    intros args fs os F. induction F as [|f o fs os G F IH]; intro H; [exists []; constructor|].
    cbn [preds] in H. destruct IH as (rfs & R); [intros tr t I'; apply H, in_or_app; auto|].
    unfold field_pred in H. destruct (native (fd_ty f)) as [p|] eqn:N.
    - apply native_direct in N as (r & D). eexists. eapply DF_direct; eauto.
    - pose proof (proj1 (native_none _) N) as D. specialize (H (field_bound o) (fd_ty f) (or_introl eq_refl)).
      destruct o as [a|].
      + eexists. eapply (DF_adapter env std args f a); eauto. destruct a; exact H.
      + destruct H as (r & H). eexists. eapply DF_format; eauto.
  Qed.

  Lemma variants_of : forall args vs oss, Forall2 given_variant vs oss ->
    (forall tr t, In (tr, t) (variants_preds vs oss) -> proved tr (inst args t)) ->
    exists rvs, describes_variants env std args vs rvs.
  Proof using.
    intros args vs oss F. induction F as [|v os vs oss G F IH]; intro H; [exists []; constructor|].
    cbn [variants_preds] in H. destruct IH as (rvs & R); [intros tr t I'; apply H, in_or_app; auto|].
    destruct (fields_of args (vd_fields v) os G) as (rfs & R'); [intros tr t I'; apply H, in_or_app; auto|].
    eexists. constructor; eauto.
  Qed.

  Lemma all_of : forall ts, (forall tr t, In (tr, t) (formats ts) -> proved tr t) ->
    exists rs, describes_all env std ts rs.
  Proof using.
    induction ts as [|t ts IH]; intro H; [exists []; constructor|].
    destruct (H TFormat t (or_introl eq_refl)) as (r & R).
    destruct IH as (rs & R'); [intros tr u I'; apply H; right; exact I'|]. eexists. constructor; eauto.
  Qed.

  Lemma lib_of : forall l ts ps, lib_clause l ts = Some ps -> (forall tr t, In (tr, t) ps -> proved tr t) ->
    exists r, describes (GLib l ts) r.
  Proof using.
    intros l ts ps C H.
    assert (F : Forall (fun p : trait * gty => proved (fst p) (snd p)) ps)
      by (apply Forall_forall; intros [tr t]; apply H).
    destruct l; cbn [lib_clause] in C;
      repeat match type of C with
        | (if ?b then _ else _) = _ => destruct b eqn:?; try discriminate
        | match ?x with _ => _ end = _ => destruct x; try discriminate
        end; injection C as <-; unfold formats in F; cbn [map] in F;
      repeat match goal with
        | F : Forall _ (_ :: _) |- _ =>
            let P := fresh "P" in apply Forall_cons_iff in F as [P F]; cbn [proved fst snd] in P
        end;
      repeat match goal with P : exists r, describes _ r |- _ => destruct P as (? & P) end;
      try (eexists; econstructor; eauto; fail).
    - destruct (all_of ts H) as (rs & R). exists (tuple_ty rs). constructor; [|exact R].
      apply Nat.leb_le. assumption.
    - exists RManual. constructor. apply Nat.leb_le. assumption.
  Qed.

  Lemma holds_described : forall tr t, holds tr t -> proved tr t.
  Proof using env_ok.
    induction 1 as [tr t N S'|t ps C H IH]; [destruct tr; try exact S'; congruence|].
    destruct t as [p|t|l ts|n args]; cbn [clause proved] in C |- *.
    - exists (RPrim p). constructor.
    - injection C as <-. destruct (IH TFormat t (or_introl eq_refl)) as (r & R). exists (RRef r). constructor. exact R.
    - eapply lib_of; eauto.
    - destruct (env n) as [d|ws|w name p d c|] eqn:E; try discriminate.
      + destruct (derive d) as [im| | |] eqn:D; try discriminate. injection C as <-.
        assert (IH' : forall tr t, In (tr, t) (im_where im) -> proved tr (inst args t)).
        { intros tr t I'. apply IH. apply in_map_iff. exists (tr, t). auto. }
        apply derive_iff in D; [|eauto].
        destruct D as [d k fs os ps B G F|d vs oss ps tag B G F _]; cbn [im_where] in IH'.
        * destruct (fields_of args fs os F) as (rfs & R); [intros tr t I'; apply IH', in_or_app; auto|].
          eexists. eapply DS_struct; eauto. apply bounded_of. intros tr t I'. apply IH', in_or_app. auto.
        * destruct (variants_of args vs oss F) as (rvs & R);
            [intros tr t I'; apply IH', in_or_app; right; apply dedup_in; exact I'|].
          eexists. eapply DS_enum; eauto. apply bounded_of. intros tr t I'. apply IH', in_or_app. auto.
      + injection C as <-. exists RManual. eapply DS_manual; [exact E|]. apply bounded_of.
        intros tr t I'. apply IH. apply in_map_iff. exists (tr, t). auto.
      + eexists. eapply DS_flags. exact E.
  Qed.

  Theorem resolves : forall t, holds TFormat t <-> exists r, describes t r.
  Proof using env_ok.
    intro t. split; [apply (holds_described TFormat)|]. intros (r & R). apply (proj1 described_holds_all t r R).
  Qed.

  (** ** One description *)

  Lemma described_once :
    (forall t r, describes t r -> forall r', describes t r' -> r = r') /\
    (forall ts rs, describes_all env std ts rs -> forall rs', describes_all env std ts rs' -> rs = rs') /\
    (forall args ws, bounded env std args ws -> True) /\
    (forall args fs rfs, describes_fields env std args fs rfs ->
      forall rfs', describes_fields env std args fs rfs' -> rfs = rfs') /\
    (forall args vs rvs, describes_variants env std args vs rvs ->
      forall rvs', describes_variants env std args vs rvs' -> rvs = rvs').
  Proof using.
    apply describes_both; try (intros; exact I);
      try (intros; match goal with D : describes _ _ |- _ => inversion D; subst; try congruence end;
           repeat match goal with
             | IH : (forall r', describes ?t r' -> ?r = r'), D : describes ?t ?x |- _ =>
                 rewrite (IH x D) in *; clear D
             end; reflexivity || congruence).
    - intros ts rs L _ IH r' D. inversion D; subst. f_equal. auto.
    - intros n args d k fs rfs ps E B _ _ _ _ IH r' D. inversion D; subst; try congruence.
      assert (d0 = d) as -> by congruence. assert (k0 = k /\ fs0 = fs) as [-> ->] by (split; congruence).
      f_equal. auto.
    - intros n args d vs rvs ps E B _ _ _ _ IH r' D. inversion D; subst; try congruence.
      assert (d0 = d) as -> by congruence. assert (vs0 = vs) as -> by congruence. f_equal. auto.
    - intros rs' D. inversion D. reflexivity.
    - intros t r ts rs _ IH _ IH' rs' D. inversion D; subst. f_equal; auto.
    - intros args rfs' D. inversion D. reflexivity.
    - intros args f o r fs rfs G D _ IH rfs' D'. inversion D'; subst.
      + f_equal; [|auto]. f_equal; [f_equal; eapply option_given_unique; eauto|eapply direct_unique; eauto].
      + exfalso. eauto.
      + exfalso. eauto.
    - intros args f r fs rfs G N _ IHt _ IH rfs' D'. inversion D'; subst.
      + exfalso. eauto.
      + f_equal; [|auto]. f_equal. f_equal. auto.
      + match goal with G' : option_given _ (Some _) |- _ => pose proof (option_given_unique _ _ _ G G') end. discriminate.
    - intros args f a fs rfs G N S' _ IH rfs' D'. inversion D'; subst.
      + exfalso. eauto.
      + match goal with G' : option_given _ None |- _ => pose proof (option_given_unique _ _ _ G G') end. discriminate.
      + match goal with G' : option_given _ (Some a0) |- _ => pose proof (option_given_unique _ _ _ G G') as X; injection X as -> end.
        f_equal. auto.
    - intros args rvs' D. inversion D. reflexivity.
    - intros args v rfs vs rvs _ IH _ IH' rvs' D. inversion D; subst. f_equal; [f_equal; auto|auto].
  Qed.

  Theorem unique : forall t r r', describes t r -> describes t r' -> r = r'.
  Proof using. intros t r r' D. apply (proj1 described_once t r D). Qed.
End Resolution.
