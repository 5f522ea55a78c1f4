(** Definitions, their implementations and descriptions. *)
From Verif Require Import Base Numerals ParserModel EncodeModel LibTypesModel PanicModel ImplModel ImplSpec ImplProofs ImplMain ImplCode.

Definition plain_field (s : string) (t : sty) : field_def := {| fd_name := Plain (lit s); fd_attrs := []; fd_ty := t |}.
Definition adapted_field (s : string) (ws : list adapter) (t : sty) : field_def :=
  {| fd_name := Plain (lit s); fd_attrs := [([lit "doc"], AtValue); ([lit "defmt"], AtList (map option_word ws))]; fd_ty := t |}.
Definition plain_def (s : string) (b : body) : def :=
  {| d_name := Plain (lit s); d_attrs := []; d_where := []; d_body := b |}.

(** [struct Node { value: u8, next: Option<&Node> }] *)
Definition node_def : def := plain_def "Node"
  (BStruct KNamed [plain_field "value" (SPrim (PU W8)); plain_field "next" (SLib LOption [SRef (SUser 0 [])])]).

Lemma node_derived : exists im, derive node_def = Ok im /\
  im_tag im = lit "Node {{ value: {=u8:?}, next: {=?:?} }}" /\
  im_where im = [(TFormat, SLib LOption [SRef (SUser 0 [])])].
Proof. eexists. repeat split. Qed.

Definition node_env (n : nat) : user := UDerive node_def.

Lemma node_inside : inside node_env (GUser 0 []) (GUser 0 []).
Proof.
  eapply IN_more with (u := GLib LOption [GRef (GUser 0 [])]).
  - apply (PT_field node_env 0 [] node_def (plain_field "next" (SLib LOption [SRef (SUser 0 [])]))).
    + reflexivity.
    + right. left. reflexivity.
    + constructor.
    + intros (r & D). inversion D.
  - eapply IN_more with (u := GRef (GUser 0 [])); [constructor; cbn; auto 10|].
    apply IN_one. constructor.
Qed.

Lemma node_env_ok : forall n d, node_env n = UDerive d -> wf_def d.
Proof. intros n d E. injection E as <-. intro K. discriminate. Qed.

(** Every type of the crate derives [Format], and nothing of it can be logged. *)
Lemma recursive_refuted : exists env, 
  (forall n, exists d im, env n = UDerive d /\ wf_def d /\ derive d = Ok im /\ d_where d = []) /\
  forall std, ~ holds env std TFormat (GUser 0 []).
Proof.
  exists node_env. split.
  - intro n. destruct node_derived as (im & D & _). exists node_def, im. split; [reflexivity|]. split; [|auto].
    intro K. discriminate.
  - intro std. apply (recursive_never node_env std node_env_ok). exact node_inside.
Qed.

(** [struct Pair<T> { a: T, b: &u16, #[defmt(Debug2Format)] c: Foreign }],
    [enum E<T> where T: Copy { None, Some(Pair<T>), Alias(Byte) }] with [type Byte = u8]. *)
Definition pair_def : def := plain_def "Pair"
  (BStruct KNamed [plain_field "a" (SParam 0); plain_field "b" (SRef (SPrim (PU W16)));
                   adapted_field "c" [ADebug2] (SUser 9 [])]).
Definition e_def : def :=
  {| d_name := Plain (lit "E"); d_attrs := [([lit "defmt"], AtList [MPath [lit "crate"] (RIs [lit "my"; lit "defmt"])])];
     d_where := [(TCopy, SParam 0)];
     d_body := BEnum
       [ {| vd_name := Plain (lit "None"); vd_attrs := []; vd_kind := KUnit; vd_fields := [] |};
         {| vd_name := Plain (lit "Some"); vd_attrs := []; vd_kind := KUnnamed;
            vd_fields := [plain_field "" (SUser 0 [SParam 0]); plain_field "" (SUser 0 [SParam 0])] |};
         {| vd_name := Plain (lit "Alias"); vd_attrs := []; vd_kind := KUnnamed;
            vd_fields := [plain_field "" (SNamed (SPrim (PU W8)))] |} ] |}.
Definition ex_env (n : nat) : user :=
  match n with O => UDerive pair_def | S O => UDerive e_def | _ => UNone end.
Definition ex_std (tr : trait) (t : gty) : Prop :=
  match tr, t with TDebug, GUser _ _ => True | TCopy, GPrim _ => True | _, _ => False end.

Lemma ex_env_ok : forall n d, ex_env n = UDerive d -> wf_def d.
Proof.
  intros [|[|n]] d E; try discriminate; injection E as <-; [intro K; discriminate|].
  repeat constructor; intro K; (reflexivity || discriminate).
Qed.

Lemma e_derived : exists im, derive e_def = Ok im /\
  im_path im = [lit "my"; lit "defmt"] /\
  im_tag im = lit "None|Some({=?}, {=?})|Alias({=?})" /\
  im_where im = [(TCopy, SParam 0); (TFormat, SUser 0 [SParam 0]); (TFormat, SNamed (SPrim (PU W8)))] /\
  map a_stmts (im_arms im) = [[]; [(lit "arg0", CFormat); (lit "arg1", CFormat)]; [(lit "arg0", CFormat)]].
Proof. eexists. repeat split. Qed.

Definition pair_ty : rty := RStruct (lit "Pair") KNamed
  [(lit "a", None, ROpaque (RPrim PChar)); (lit "b", None, RRef (RPrim (PU W16))); (lit "c", Some ADebug2, ROpaque RManual)].

Lemma pair_described : describes ex_env ex_std (GUser 0 [GPrim PChar]) pair_ty.
Proof.
  apply (DS_struct ex_env ex_std 0 [GPrim PChar] pair_def KNamed (match d_body pair_def with BStruct _ fs => fs | _ => [] end) _ []); auto.
  - constructor.
  - constructor.
  - apply (DF_format _ _ _ (plain_field "a" (SParam 0))); [repeat constructor|intros (r & D); inversion D|constructor|].
    apply (DF_direct _ _ _ (plain_field "b" (SRef (SPrim (PU W16))))); [repeat constructor|repeat constructor; discriminate|].
    apply (DF_adapter _ _ _ (adapted_field "c" [ADebug2] (SUser 9 []))); [|intros (r & D); inversion D|exact I|constructor].
    apply (OG_one _ [([lit "doc"], AtValue)] [] [] ADebug2); [reflexivity| |constructor].
    constructor; [|constructor]. intro E. unfold is_defmt in E. cbn [fst] in E. discriminate.
Qed.

Lemma e_described : exists r, describes ex_env ex_std (GUser 1 [GPrim PChar]) r /\
  r = REnum [(lit "None", KUnit, []);
             (lit "Some", KUnnamed, [([], None, ROpaque pair_ty); ([], None, ROpaque pair_ty)]);
             (lit "Alias", KUnnamed, [([], None, ROpaque (RPrim (PU W8)))])].
Proof.
  eexists. split; [|reflexivity].
  apply (DS_enum ex_env ex_std 1 [GPrim PChar] e_def (match d_body e_def with BEnum vs => vs | _ => [] end) _ ([[lit "my"; lit "defmt"]] ++ [])); auto.
  - apply (CG_defmt [[lit "my"; lit "defmt"]]). constructor.
  - apply BD_other; [discriminate|exact I|constructor].
  - apply (DV_cons _ _ _ {| vd_name := Plain (lit "None"); vd_attrs := []; vd_kind := KUnit; vd_fields := [] |}); [constructor|].
    apply (DV_cons _ _ _ {| vd_name := Plain (lit "Some"); vd_attrs := []; vd_kind := KUnnamed;
            vd_fields := [plain_field "" (SUser 0 [SParam 0]); plain_field "" (SUser 0 [SParam 0])] |}).
    + assert (N : ~ (exists r, direct (SUser 0 [SParam 0]) r)) by (intros (r & D); inversion D).
      apply (DF_format _ _ _ (plain_field "" (SUser 0 [SParam 0]))); [repeat constructor|exact N|exact pair_described|].
      apply (DF_format _ _ _ (plain_field "" (SUser 0 [SParam 0]))); [repeat constructor|exact N|exact pair_described|constructor].
    + apply (DV_cons _ _ _ {| vd_name := Plain (lit "Alias"); vd_attrs := []; vd_kind := KUnnamed;
            vd_fields := [plain_field "" (SNamed (SPrim (PU W8)))] |}); [|constructor].
      apply (DF_format _ _ _ (plain_field "" (SNamed (SPrim (PU W8))))); [repeat constructor| |constructor|constructor].
      intros (r & D). inversion D.
Qed.

Lemma e_holds : holds ex_env ex_std TFormat (GUser 1 [GPrim PChar]).
Proof. apply (resolves ex_env ex_std ex_env_ok). destruct e_described as (r & D & _). eauto. Qed.

(** Not for an argument that is not [Copy], and not for a type without implementation. *)
Lemma e_not_holds : ~ holds ex_env ex_std TFormat (GUser 1 [GUser 7 []]).
Proof.
  intro H. inversion H as [? ? N _|? ps C P]; [congruence|]; subst.
  destruct e_derived as (im & D & _ & _ & W & _). cbn [clause ex_env] in C. rewrite D, W in C. injection C as <-.
  specialize (P TCopy (GUser 7 []) (or_introl eq_refl)). inversion P as [? ? N S'|]; subst. exact S'.
Qed.

(** Both options in one attribute: accepted, the last counts. *)
Definition both_def : def := plain_def "B" (BStruct KNamed [adapted_field "c" [ADebug2; ADisplay2] (SUser 9 [])]).
Lemma both_refuted : exists f im, fd_attrs f = [([lit "doc"], AtValue); ([lit "defmt"], AtList [option_word ADebug2; option_word ADisplay2])] /\
  derive (plain_def "B" (BStruct KNamed [f])) = Ok im /\ map a_stmts (im_arms im) = [[(lit "c", CDisplay)]] /\
  im_where im = [(TDisplay, fd_ty f)].
Proof. exists (adapted_field "c" [ADebug2; ADisplay2] (SUser 9 [])). eexists. repeat split. Qed.

(** Attributes of variants are not looked at. *)
Lemma variant_refuted : forall attrs, exists v im, vd_attrs v = attrs /\ derive (plain_def "V" (BEnum [v])) = Ok im /\
  im_tag im = lit "A({=u8})".
Proof.
  intro attrs. exists {| vd_name := Plain (lit "A"); vd_attrs := attrs; vd_kind := KUnnamed; vd_fields := [plain_field "" (SPrim (PU W8))] |}.
  eexists. repeat split.
Qed.

(** [struct S { r#type: u8 }] *)
Lemma raw_refuted : exists f im, fd_name f = Raw (lit "type") /\
  derive (plain_def "S" (BStruct KNamed [f])) = Ok im /\ im_tag im = lit "S {{ r#type: {=u8:?} }}".
Proof. exists {| fd_name := Raw (lit "type"); fd_attrs := []; fd_ty := SPrim (PU W8) |}. eexists. repeat split. Qed.

(** Rejected: two attributes, no option, an unknown one, an option given a value, a union. *)
Lemma rejected :
  format_option {| fd_name := Plain []; fd_attrs := [([lit "defmt"], AtList [option_word ADebug2]); ([lit "defmt"], AtList [option_word ADebug2])]; fd_ty := SPrim PBool |} = Err EMultiple /\
  format_option {| fd_name := Plain []; fd_attrs := [([lit "defmt"], AtList [])]; fd_ty := SPrim PBool |} = Err EMissing /\
  format_option {| fd_name := Plain []; fd_attrs := [([lit "defmt"], AtList [MPath [lit "Hex"] RNothing])]; fd_ty := SPrim PBool |} = Err EUnknown /\
  format_option {| fd_name := Plain []; fd_attrs := [([lit "defmt"], AtList [MPath [lit "Debug2Format"] RJunk])]; fd_ty := SPrim PBool |} = Err ESyntax /\
  derive (plain_def "U" BUnion) = Err EUnion /\
  derive {| d_name := Plain (lit "D"); d_attrs := [([lit "defmt"], AtList [option_word ADebug2])]; d_where := []; d_body := BStruct KUnit [] |} = Err EUnknown.
Proof. repeat split. Qed.

(** A marker field does not need its type to be formatted. *)
Lemma phantom_holds : forall env std t, holds env std TFormat (GLib LPhantom [t]).
Proof. intros. apply holds_free. reflexivity. Qed.
