(** C69: which types implement [Format], and what the derive macro generates. *)
From Verif Require Import Base Numerals ParserModel EncodeModel LibTypesModel PanicModel ImplModel ImplSpec ImplProofs ImplMain ImplCode ImplExamples.

(** [T: Format] can be proved by the compiler exactly if unfolding definitions gives [T] a
    finite description. *)
Theorem C69_resolves : forall env std, (forall n d, env n = UDerive d -> wf_def d) ->
  forall t, holds env std TFormat t <-> exists r, describes env std t r.
Proof. exact resolves. Qed.

Theorem C69_unique : forall env std t r r', describes env std t r -> describes env std t r' -> r = r'.
Proof. exact unique. Qed.

(** The interned string and the calls of the generated code are those of the description. *)
Theorem C69_code : forall env std n args d im r, env n = UDerive d -> wf_def d -> derive d = Ok im ->
  describes env std (GUser n args) r ->
  im_tag im = format_tag r /\
  map (fun a => map snd (a_stmts a)) (im_arms im) = map (map field_action) (alternatives r).
Proof. exact code_agrees. Qed.

(** Each statement of an arm works on the field of its position. *)
Theorem C69_variables : forall d im j fs, wf_def d -> derive d = Ok im ->
  nth_error (alternative_defs d) j = Some fs -> NoDup (map (fun f => id_str (fd_name f)) fs) ->
  exists a, nth_error (im_arms im) j = Some a /\
    length (a_pats a) = length fs /\ length (a_stmts a) = length fs /\ NoDup (map snd (a_pats a)) /\
    forall i f, nth_error fs i = Some f -> exists x c,
      nth_error (a_pats a) i = Some (selector (kind_of d j) i f, x) /\ nth_error (a_stmts a) i = Some (x, c).
Proof. exact variables. Qed.

(** What a statement demands of the type of its field is in the [where] clause, and
    nothing else is. *)
Theorem C69_compiles : forall d im j fs i f a x c, wf_def d -> derive d = Ok im ->
  nth_error (alternative_defs d) j = Some fs -> nth_error fs i = Some f ->
  nth_error (im_arms im) j = Some a -> nth_error (a_stmts a) i = Some (x, c) ->
  (exists r, direct (fd_ty f) r) \/ exists tr, demands c = Some tr /\ In (tr, fd_ty f) (im_where im).
Proof. exact compiles. Qed.

Theorem C69_bounds : forall d im tr t, wf_def d -> derive d = Ok im -> In (tr, t) (im_where im) ->
  In (tr, t) (d_where d) \/
  exists f o, In f (all_fields d) /\ option_given (fd_attrs f) o /\ t = fd_ty f /\ ~ (exists r, direct t r) /\
    tr = match o with Some a => adapter_trait a | None => TFormat end.
Proof. exact bounds. Qed.

(** Accepted definitions. *)
Theorem C69_accepted : forall d, wf_def d ->
  (exists im, derive d = Ok im) <->
  d_body d <> BUnion /\ (exists ps, crate_given (d_attrs d) ps) /\
  Forall (fun f => exists o, option_given (fd_attrs f) o) (all_fields d).
Proof. exact accepted. Qed.

Theorem C69_options : forall f o, format_option f = Ok o <-> option_given (fd_attrs f) o.
Proof. exact format_option_iff. Qed.

Theorem C69_crate : forall d im, derive d = Ok im ->
  exists ps, crate_given (d_attrs d) ps /\ im_path im = last ps [lit "defmt"].
Proof. exact crate_of. Qed.

(** Recursive types never implement [Format], although all types of the crate derive it. *)
Theorem C69_recursive : forall env std, (forall n d, env n = UDerive d -> wf_def d) ->
  forall t, inside env t t -> ~ holds env std TFormat t.
Proof. exact recursive_never. Qed.

Theorem C69_recursive_refuted : exists env,
  (forall n, exists d im, env n = UDerive d /\ wf_def d /\ derive d = Ok im /\ d_where d = []) /\
  forall std, ~ holds env std TFormat (GUser 0 []).
Proof. exact recursive_refuted. Qed.

(** Two options in one attribute are not an error. *)
Theorem C69_both_refuted : exists f im,
  fd_attrs f = [([lit "doc"], AtValue); ([lit "defmt"], AtList [option_word ADebug2; option_word ADisplay2])] /\
  derive (plain_def "B" (BStruct KNamed [f])) = Ok im /\ map a_stmts (im_arms im) = [[(lit "c", CDisplay)]] /\
  im_where im = [(TDisplay, fd_ty f)].
Proof. exact both_refuted. Qed.

(** Nor is any attribute of a variant. *)
Theorem C69_variant_refuted : forall attrs, exists v im, vd_attrs v = attrs /\
  derive (plain_def "V" (BEnum [v])) = Ok im /\ im_tag im = lit "A({=u8})".
Proof. exact variant_refuted. Qed.

(** The field [r#type] is shown with the [r#]. *)
Theorem C69_raw_refuted : exists f im, fd_name f = Raw (lit "type") /\
  derive (plain_def "S" (BStruct KNamed [f])) = Ok im /\ im_tag im = lit "S {{ r#type: {=u8:?} }}".
Proof. exact raw_refuted. Qed.

Print Assumptions C69_resolves.
Print Assumptions C69_unique.
Print Assumptions C69_code.
Print Assumptions C69_variables.
Print Assumptions C69_compiles.
Print Assumptions C69_bounds.
Print Assumptions C69_accepted.
Print Assumptions C69_options.
Print Assumptions C69_crate.
Print Assumptions C69_recursive.
Print Assumptions C69_recursive_refuted.
Print Assumptions C69_both_refuted.
Print Assumptions C69_variant_refuted.
Print Assumptions C69_raw_refuted.

Example C69_generic_enum : exists im, derive e_def = Ok im /\
  im_path im = [lit "my"; lit "defmt"] /\
  im_tag im = lit "None|Some({=?}, {=?})|Alias({=?})" /\
  im_where im = [(TCopy, SParam 0); (TFormat, SUser 0 [SParam 0]); (TFormat, SNamed (SPrim (PU W8)))] /\
  map a_stmts (im_arms im) = [[]; [(lit "arg0", CFormat); (lit "arg1", CFormat)]; [(lit "arg0", CFormat)]].
Proof. exact e_derived. Qed.

Example C69_generic_holds : holds ex_env ex_std TFormat (GUser 1 [GPrim PChar]) /\
  ~ holds ex_env ex_std TFormat (GUser 1 [GUser 7 []]).
Proof. exact (conj e_holds e_not_holds). Qed.

Example C69_generic_described : exists r, describes ex_env ex_std (GUser 1 [GPrim PChar]) r /\
  r = REnum [(lit "None", KUnit, []);
             (lit "Some", KUnnamed, [([], None, ROpaque pair_ty); ([], None, ROpaque pair_ty)]);
             (lit "Alias", KUnnamed, [([], None, ROpaque (RPrim (PU W8)))])].
Proof. exact e_described. Qed.

Example C69_phantom : forall env std t, holds env std TFormat (GLib LPhantom [t]).
Proof. exact phantom_holds. Qed.

Example C69_rejected : derive (plain_def "U" BUnion) = Err EUnion.
Proof. reflexivity. Qed.

(** A field of a generic type is described at the arguments of the type. *)
Theorem C69_generic : forall env std n args d k fs name rfs, env n = UDerive d -> d_body d = BStruct k fs ->
  describes env std (GUser n args) (RStruct name k rfs) ->
  forall i f t, nth_error fs i = Some f -> instance args (fd_ty f) t -> option_given (fd_attrs f) None ->
  ~ (exists r', direct (fd_ty f) r') ->
  exists r, nth_error rfs i = Some (id_str (fd_name f), None, ROpaque r) /\ describes env std t r.
Proof. exact generic_struct. Qed.
Print Assumptions C69_generic.

Example C69_instance_ex : instance [GPrim (PU W8)] (SLib LOption [SNamed (SRef (SParam 0))]) (GLib LOption [GRef (GPrim (PU W8))]).
Proof. repeat constructor. Qed.
