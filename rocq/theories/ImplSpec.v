(** What [derive(Format)] is documented to do with a definition, and which types can be
    described by a finite [rty] (the types the other theorems are about). *)
From Verif Require Import Base Numerals ParserModel EncodeModel LibTypesModel PanicModel ImplModel.

(* ------------------------------------------------------------------ *)
(** * Attributes *)

Definition is_defmt (a : attr) : Prop := fst a = [lit "defmt"].

Definition adapter_name (a : adapter) : bytes :=
  match a with ADebug2 => lit "Debug2Format" | ADisplay2 => lit "Display2Format" end.
Definition option_word (a : adapter) : meta := MPath [adapter_name a] RNothing.

(** A field's option: no [defmt] attribute, or one that lists options, the last of which
    counts. *)
Inductive option_given (attrs : list attr) : option adapter -> Prop :=
| OG_none : Forall (fun a => ~ is_defmt a) attrs -> option_given attrs None
| OG_one before after others a :
    attrs = before ++ ([lit "defmt"], AtList (map option_word (others ++ [a]))) :: after ->
    Forall (fun a => ~ is_defmt a) before -> Forall (fun a => ~ is_defmt a) after ->
    option_given attrs (Some a).

(** Each [defmt] attribute of a definition lists [crate = path] ([ps] are all of them). *)
Definition crate_word (p : path) : meta := MPath [lit "crate"] (RIs p).
Inductive crate_given : list attr -> list path -> Prop :=
| CG_nil : crate_given [] []
| CG_other a attrs ps : ~ is_defmt a -> crate_given attrs ps -> crate_given (a :: attrs) ps
| CG_defmt qs attrs ps : crate_given attrs ps ->
    crate_given (([lit "defmt"], AtList (map crate_word qs)) :: attrs) (qs ++ ps).

(** A unit struct or variant has no fields. *)
Definition wf_fields (k : fkind) (fs : list field_def) : Prop := k = KUnit -> fs = [].
Definition wf_def (d : def) : Prop :=
  match d_body d with
  | BStruct k fs => wf_fields k fs
  | BEnum vs => Forall (fun v => wf_fields (vd_kind v) (vd_fields v)) vs
  | BUnion => True
  end.

Definition all_fields (d : def) : list field_def :=
  match d_body d with
  | BStruct _ fs => fs
  | BEnum vs => concat (map vd_fields vs)
  | BUnion => []
  end.

(* ------------------------------------------------------------------ *)
(** * Descriptions *)

(** Fields whose type is written as the name of a primitive type that has its own format
    parameter, possibly behind references. *)
Inductive direct : sty -> rty -> Prop :=
| DI_prim p : p <> PIStr -> p <> PChar -> direct (SPrim p) (RPrim p)
| DI_ref t r : direct t r -> direct (SRef t) (RRef r).

Definition adapter_trait (a : adapter) : trait :=
  match a with ADebug2 => TDebug | ADisplay2 => TDisplay end.

Section Describe.
  Context (env : nat -> user) (std : trait -> gty -> Prop).

  (** [describes t r]: unfolding definitions, [t] is [r].
      A field of any other type goes through the [Format] of its type ([ROpaque]); one with
      an option only needs the trait of the adapter, its type is not looked at. *)
  Inductive describes : gty -> rty -> Prop :=
  | DS_prim p : describes (GPrim p) (RPrim p)
  | DS_ref t r : describes t r -> describes (GRef t) (RRef r)
  | DS_slice t r : describes t r -> describes (GLib LSlice [t]) (RSlice r)
  | DS_array n t r : describes t r -> describes (GLib (LArray n) [t]) (RArray n r)
  | DS_tuple ts rs : (length ts <= 12)%nat -> describes_all ts rs -> describes (GLib LTuple ts) (tuple_ty rs)
  | DS_box t r : describes t r -> describes (GLib LBox [t]) (RRef r)
  | DS_vec t r : describes t r -> describes (GLib LVec [t]) (RRef (RSlice r))
  | DS_string : describes (GLib LString []) (RRef (RPrim PStr))
  | DS_option t r : describes t r -> describes (GLib LOption [t]) (option_ty r)
  | DS_result t e r s : describes t r -> describes e s -> describes (GLib LResult [t; e]) (result_ty r s)
  | DS_refcell t r : describes t r -> describes (GLib LRefCell [t]) (refcell_ty r)
  | DS_cell t r : describes t r -> std TCopy t -> describes (GLib LCell [t]) RManual
  | DS_phantom t : describes (GLib LPhantom [t]) phantom_ty
  | DS_infallible : describes (GLib LInfallible []) infallible_ty
  | DS_pointer t : describes (GLib LPointer [t]) RManual
  | DS_fn t args : (length args <= 12)%nat -> describes (GLib LFn (t :: args)) RManual
  | DS_iter t r : describes t r -> describes (GLib LIter [t]) RManual
  | DS_zip t u r s : describes t r -> describes u s -> describes (GLib LZip [t; u]) RManual
  | DS_plain name : describes (GLib (LPlain name) []) RManual
  | DS_debug2 t : std TDebug t -> describes (GLib LDebug2 [t]) RDebug
  | DS_display2 t : std TDisplay t -> describes (GLib LDisplay2 [t]) RDisplay
  | DS_manual n args ws : env n = UManual ws -> bounded args ws -> describes (GUser n args) RManual
  | DS_flags n args w name p d c : env n = UFlags w name p d c ->
      describes (GUser n args) (RFlags w name p d c)
  | DS_struct n args d k fs rfs ps : env n = UDerive d -> d_body d = BStruct k fs ->
      crate_given (d_attrs d) ps -> bounded args (d_where d) -> describes_fields args fs rfs ->
      describes (GUser n args) (RStruct (id_str (d_name d)) k rfs)
  | DS_enum n args d vs rvs ps : env n = UDerive d -> d_body d = BEnum vs ->
      crate_given (d_attrs d) ps -> bounded args (d_where d) -> describes_variants args vs rvs ->
      describes (GUser n args) (REnum rvs)
  with describes_all : list gty -> list rty -> Prop :=
  | DA_nil : describes_all [] []
  | DA_cons t r ts rs : describes t r -> describes_all ts rs -> describes_all (t :: ts) (r :: rs)
  (** The bounds of a hand-written [where] clause are met. *)
  with bounded : list gty -> list pred -> Prop :=
  | BD_nil args : bounded args []
  | BD_format args t r ws : describes (inst args t) r -> bounded args ws ->
      bounded args ((TFormat, t) :: ws)
  | BD_other args tr t ws : tr <> TFormat -> std tr (inst args t) -> bounded args ws ->
      bounded args ((tr, t) :: ws)
  with describes_fields : list gty -> list field_def -> list field -> Prop :=
  | DF_nil args : describes_fields args [] []
  | DF_direct args f o r fs rfs : option_given (fd_attrs f) o -> direct (fd_ty f) r ->
      describes_fields args fs rfs ->
      describes_fields args (f :: fs) ((id_str (fd_name f), o, r) :: rfs)
  | DF_format args f r fs rfs : option_given (fd_attrs f) None -> ~ (exists r', direct (fd_ty f) r') ->
      describes (inst args (fd_ty f)) r -> describes_fields args fs rfs ->
      describes_fields args (f :: fs) ((id_str (fd_name f), None, ROpaque r) :: rfs)
  | DF_adapter args f a fs rfs : option_given (fd_attrs f) (Some a) ->
      ~ (exists r', direct (fd_ty f) r') -> std (adapter_trait a) (inst args (fd_ty f)) ->
      describes_fields args fs rfs ->
      describes_fields args (f :: fs) ((id_str (fd_name f), Some a, ROpaque RManual) :: rfs)
  with describes_variants : list gty -> list variant_def -> list variant -> Prop :=
  | DV_nil args : describes_variants args [] []
  | DV_cons args v rfs vs rvs : describes_fields args (vd_fields v) rfs ->
      describes_variants args vs rvs ->
      describes_variants args (v :: vs) ((id_str (vd_name v), vd_kind v, rfs) :: rvs).

  (** [u] is a part of [t] that is shown when [t] is. *)
  Inductive part : gty -> gty -> Prop :=
  | PT_ref t : part (GRef t) t
  | PT_lib l ts u : In l [LSlice; LTuple; LBox; LVec; LOption; LResult; LRefCell; LCell; LIter; LZip] ->
      In u ts -> part (GLib l ts) u
  | PT_array n ts u : In u ts -> part (GLib (LArray n) ts) u
  | PT_field n args d f : env n = UDerive d -> In f (all_fields d) ->
      Forall (fun a => ~ is_defmt a) (fd_attrs f) -> ~ (exists r, direct (fd_ty f) r) ->
      part (GUser n args) (inst args (fd_ty f)).

  Inductive inside : gty -> gty -> Prop :=
  | IN_one t u : part t u -> inside t u
  | IN_more t u v : part t u -> inside u v -> inside t v.
End Describe.

(* ------------------------------------------------------------------ *)
(** * What the statements do *)

(** How [format_data] writes a field. *)
Definition field_action (f : field) : call :=
  let '(_, a, r) := f in
  match a with
  | Some ADebug2 => CDebug
  | Some ADisplay2 => CDisplay
  | None => match as_native r with Some p => CNative p | None => CFormat end
  end.

(** The fields of each alternative of a derived type. *)
Definition alternatives (r : rty) : list (list field) :=
  match r with
  | RStruct _ _ fs => [fs]
  | REnum vs => map (fun v : variant => snd v) vs
  | _ => []
  end.

Definition alternative_defs (d : def) : list (list field_def) :=
  match d_body d with
  | BStruct _ fs => [fs]
  | BEnum vs => map vd_fields vs
  | BUnion => []
  end.

(** The name that selects field number [i] in a pattern. *)
Definition selector (k : fkind) (i : nat) (f : field_def) : bytes :=
  match k with KUnnamed => dec_str (Z.of_nat i) | _ => id_str (fd_name f) end.

(** The trait a call demands of the type of its field. *)
Definition demands (c : call) : option trait :=
  match c with
  | CNative _ => None
  | CFormat => Some TFormat
  | CDebug => Some TDebug
  | CDisplay => Some TDisplay
  end.

(** [instance args t u]: the written type [t], where [args] stand for the generic arguments, is [u]. *)
Inductive instance (args : list gty) : sty -> gty -> Prop :=
| IS_prim p : instance args (SPrim p) (GPrim p)
| IS_named t u : instance args t u -> instance args (SNamed t) u
| IS_param i u : nth_error args i = Some u -> instance args (SParam i) u
| IS_ref t u : instance args t u -> instance args (SRef t) (GRef u)
| IS_lib l ts us : instances args ts us -> instance args (SLib l ts) (GLib l us)
| IS_user n ts us : instances args ts us -> instance args (SUser n ts) (GUser n us)
with instances (args : list gty) : list sty -> list gty -> Prop :=
| IS_nil : instances args [] []
| IS_cons t u ts us : instance args t u -> instances args ts us -> instances args (t :: ts) (u :: us).
