(** [#[derive(Format)]] as a macro over definitions ([macros/src/derives/format.rs],
    [derives/format/codegen.rs], [codegen/fields.rs], [codegen/enum_data.rs]): attributes,
    the generated [where] clause and match arms; and the [Format] implementations of the
    library ([defmt/src/impls]) as the clauses the compiler resolves [T: Format] with.

    Simplifications: lifetimes, [Sized] and auto traits are left out; a crate has one
    implementation for each type constructor (coherence), so resolution never has to
    choose; the recursion limit of the compiler is not modelled.  A crate path given with
    [#[defmt(crate = path)]] is taken to name [defmt]. *)
From Verif Require Import Base Numerals ParserModel EncodeModel.

(* ------------------------------------------------------------------ *)
(** * Definitions *)

Inductive trait := TFormat | TDebug | TDisplay | TCopy | TOther (name : bytes).

(** Library types with a [Format] implementation, by the clause they have:
    - [LBox]: [Box], [Rc], [Arc]; [LVec]: [Vec] and [Cow<[T]>]; [LString]: [String] and
      [Cow<str>] ([alloc_.rs:3-46]);
    - [LPointer]: raw pointers and [NonNull] ([primitives.rs:76-92], [core_/ptr.rs:3-7]);
      [LFn]: function pointers, return type first ([core_/ptr.rs:28-70]);
    - [LIter]: ranges other than [..] ([core_/ops.rs:3-61]), [slice::Iter], [ChunksExact],
      [Windows] ([core_/slice.rs:3-34]); [LZip] ([core_/mod.rs:112-121]);
    - [LPlain]: types without parameters that only implement [format] (integers that are
      not zero, addresses, [Duration], errors, [..]);
    - [LDebug2], [LDisplay2]: the adapters ([adapter.rs:25-87]). *)
Inductive lib :=
| LSlice | LArray (n : Z) | LTuple | LBox | LVec | LString
| LOption | LResult | LRefCell | LCell | LPhantom | LInfallible
| LPointer | LFn | LIter | LZip | LPlain (name : bytes) | LDebug2 | LDisplay2.

(** Types as written in a definition.  [SPrim p] is the bare name of the type ([u8]);
    [SNamed t] is [t] written any other way (an alias, a longer path). *)
Inductive sty :=
| SPrim (p : prim)
| SNamed (t : sty)
| SParam (i : nat)
| SRef (t : sty)
| SLib (l : lib) (ts : list sty)
| SUser (n : nat) (ts : list sty).

Definition path := list bytes.

(** Attributes.  A [meta] is one element of the list in [#[defmt(..)]]: a path, and what
    stands between it and the next comma; [MNoPath] does not start with a path. *)
Inductive rest := RNothing | RIs (p : path) | RJunk.
Inductive meta := MPath (p : path) (r : rest) | MNoPath.
Inductive style := AtWord | AtValue | AtList (ms : list meta).
Definition attr : Type := path * style.

(** Identifiers; [Raw s] is written with [r#] in front.  [id_str]: [Ident::to_string]. *)
Inductive ident := Plain (s : bytes) | Raw (s : bytes).
Definition id_str (i : ident) : bytes := match i with Plain s => s | Raw s => lit "r#" ++ s end.

Record field_def := { fd_name : ident; fd_attrs : list attr; fd_ty : sty }.
Record variant_def := { vd_name : ident; vd_attrs : list attr; vd_kind : fkind; vd_fields : list field_def }.
Inductive body :=
| BStruct (k : fkind) (fs : list field_def)
| BEnum (vs : list variant_def)
| BUnion.

Definition pred : Type := trait * sty.
(** [d_where]: the bounds written in the definition. *)
Record def := { d_name : ident; d_attrs : list attr; d_where : list pred; d_body : body }.

(* ------------------------------------------------------------------ *)
(** * Attributes *)

Inductive derr := EUnknown | EMultiple | EMissing | ESyntax | EUnion.

Fixpoint path_eqb (a b : path) : bool :=
  match a, b with
  | [], [] => true
  | x :: a', y :: b' => beq x y && path_eqb a' b'
  | _, _ => false
  end.

(** [path.is_ident("..")] *)
Definition is_ident (s : string) (p : path) : bool := path_eqb p [lit s].

(** [fields.rs:117-132]: [parse_nested_meta] (of [syn]) calls the closure after each path
    and then wants a comma or the end. *)
Fixpoint option_metas (ms : list meta) (parsed : option adapter) : outcome derr (option adapter) :=
  match ms with
  | [] => Ok parsed
  | MNoPath :: _ => Err ESyntax
  | MPath p r :: ms' =>
      parsed' <- (if is_ident "Debug2Format" p then Ok (Some ADebug2)
                  else if is_ident "Display2Format" p then Ok (Some ADisplay2)
                  else Err EUnknown) ;;
      match r with
      | RNothing => option_metas ms' parsed'
      | _ => Err ESyntax
      end
  end.

(** [fields.rs:103-145] [get_defmt_format_option]. *)
Fixpoint option_attrs (attrs : list attr) (found : option adapter) : outcome derr (option adapter) :=
  match attrs with
  | [] => Ok found
  | (p, st) :: attrs' =>
      if is_ident "defmt" p then
        match found with
        | Some _ => Err EMultiple
        | None =>
            parsed <- (match st with AtList ms => option_metas ms None | _ => Err ESyntax end) ;;
            match parsed with
            | None => Err EMissing
            | Some _ => option_attrs attrs' parsed
            end
        end
      else option_attrs attrs' found
  end.
Definition format_option (f : field_def) : outcome derr (option adapter) := option_attrs (fd_attrs f) None.

(** [derives/format.rs:65-86] [defmt_crate_path]. *)
Fixpoint crate_metas (ms : list meta) (acc : path) : outcome derr path :=
  match ms with
  | [] => Ok acc
  | MNoPath :: _ => Err ESyntax
  | MPath p r :: ms' =>
      if is_ident "crate" p then
        match r with RIs q => crate_metas ms' q | _ => Err ESyntax end
      else Err EUnknown
  end.
Fixpoint crate_attrs (attrs : list attr) (acc : path) : outcome derr path :=
  match attrs with
  | [] => Ok acc
  | (p, st) :: attrs' =>
      if is_ident "defmt" p then
        acc' <- (match st with AtList ms => crate_metas ms acc | _ => Err ESyntax end) ;;
        crate_attrs attrs' acc'
      else crate_attrs attrs' acc
  end.
Definition crate_path (attrs : list attr) : outcome derr path := crate_attrs attrs [lit "defmt"].

(* ------------------------------------------------------------------ *)
(** * Generated code *)

(** [fields.rs:147-169] [as_native_type], on the type as written. *)
Fixpoint native (t : sty) : option prim :=
  match t with
  | SPrim PIStr | SPrim PChar => None
  | SPrim p => Some p
  | SRef t' => native t'
  | _ => None
  end.

(** The function a statement calls with the variable bound to the field:
    [export::u8(x)], [export::fmt(x)], [export::fmt(&Debug2Format(&x))], .. *)
Inductive call := CNative (p : prim) | CFormat | CDebug | CDisplay.

(** A pattern [selector: variable] for each field, and the statements. *)
Record arm := { a_pats : list (bytes * bytes); a_stmts : list (bytes * call) }.

Definition field_call (o : option adapter) (ty : option prim) : call :=
  match o, ty with
  | Some ADebug2, _ => CDebug
  | Some ADisplay2, _ => CDisplay
  | None, None => CFormat
  | None, Some p => CNative p
  end.

Definition field_bound (o : option adapter) : trait :=
  match o with Some ADebug2 => TDebug | Some ADisplay2 => TDisplay | None => TFormat end.

(** [fields.rs:34-85]: the loop over the fields.  The result is the text pushed onto the
    format string, the arm and the predicates. *)
Fixpoint fields_loop (named : bool) (index : nat) (fs : list field_def)
  : outcome derr (bytes * arm * list pred) :=
  match fs with
  | [] => Ok ([], {| a_pats := []; a_stmts := [] |}, [])
  | f :: fs' =>
      o <- format_option f ;;
      let ty := native (fd_ty f) in
      let ty_name := match ty with Some p => prim_name p | None => lit "?" end in
      let ident := if named then id_str (fd_name f) else lit "arg" ++ dec_str (Z.of_nat index) in
      let selector := if named then id_str (fd_name f) else dec_str (Z.of_nat index) in
      let bound := match ty with None => [(field_bound o, fd_ty f)] | Some _ => [] end in
      let text :=
        (if (index =? 0)%nat then [] else lit ", ") ++
        (if named then ident ++ lit ": {=" ++ ty_name ++ lit ":?}" else lit "{=" ++ ty_name ++ lit "}") in
      ' (text', a, ps) <- fields_loop named (S index) fs' ;;
      Ok (text ++ text',
          {| a_pats := (selector, ident) :: a_pats a; a_stmts := (ident, field_call o ty) :: a_stmts a |},
          bound ++ ps)
  end.

(** [fields.rs:9-92] [codegen]. *)
Definition fields_codegen (k : fkind) (fs : list field_def) : outcome derr (bytes * arm * list pred) :=
  match k, fs with
  | KUnit, _ | _, [] => Ok ([], {| a_pats := []; a_stmts := [] |}, [])
  | KNamed, _ =>
      ' (text, a, ps) <- fields_loop true 0 fs ;; Ok (lit " {{ " ++ text ++ lit " }}", a, ps)
  | KUnnamed, _ =>
      ' (text, a, ps) <- fields_loop false 0 fs ;; Ok (lit "(" ++ text ++ lit ")", a, ps)
  end.

(** [enum_data.rs:28-64]. *)
Fixpoint variants_loop (first : bool) (vs : list variant_def)
  : outcome derr (bytes * list arm * list pred) :=
  match vs with
  | [] => Ok ([], [], [])
  | v :: vs' =>
      ' (text, a, ps) <- fields_codegen (vd_kind v) (vd_fields v) ;;
      ' (text', arms, ps') <- variants_loop false vs' ;;
      Ok ((if first then [] else lit "|") ++ id_str (vd_name v) ++ text ++ text', a :: arms, ps ++ ps')
  end.

(** Equality of written types and predicates (of their tokens, in the code). *)
Lemma prim_dec : forall a b : prim, {a = b} + {a <> b}.
Proof. repeat decide equality. Defined.
Lemma lib_dec : forall a b : lib, {a = b} + {a <> b}.
Proof. repeat decide equality. Defined.
Fixpoint sty_dec (a b : sty) {struct a} : {a = b} + {a <> b}.
Proof.
  assert (L : forall l l' : list sty, {l = l'} + {l <> l'}) by exact (list_eq_dec sty_dec).
  decide equality; auto using prim_dec, lib_dec, Nat.eq_dec.
Defined.
Lemma trait_dec : forall a b : trait, {a = b} + {a <> b}.
Proof. repeat decide equality. Defined.
Lemma pred_dec : forall a b : pred, {a = b} + {a <> b}.
Proof. decide equality; auto using trait_dec, sty_dec. Defined.

(** [Vec::dedup_by(|a, b| a == b)]: drops an element equal to the one kept before it. *)
Fixpoint dedup_after (prev : pred) (l : list pred) : list pred :=
  match l with
  | [] => []
  | y :: l' => if pred_dec y prev then dedup_after prev l' else y :: dedup_after y l'
  end.
Definition dedup (l : list pred) : list pred :=
  match l with [] => [] | x :: l' => x :: dedup_after x l' end.

(** The generated implementation: the path of the crate, the interned string, one match
    arm per variant (one for a struct) and the [where] clause.  The discriminants are in
    [EncodeModel]. *)
Record impl := { im_path : path; im_tag : bytes; im_arms : list arm; im_where : list pred }.

(** [derives/format.rs:8-63] [expand], [codegen.rs:18-45] [encode_struct_data],
    [enum_data.rs:10-78] [encode], [codegen.rs:53-71] [Generics::codegen]. *)
Definition derive (d : def) : outcome derr impl :=
  path <- crate_path (d_attrs d) ;;
  match d_body d with
  | BStruct k fs =>
      ' (text, a, ps) <- fields_codegen k fs ;;
      Ok {| im_path := path; im_tag := id_str (d_name d) ++ text; im_arms := [a]; im_where := d_where d ++ ps |}
  | BEnum [] =>
      Ok {| im_path := path; im_tag := lit "!"; im_arms := []; im_where := d_where d |}
  | BEnum vs =>
      ' (text, arms, ps) <- variants_loop true vs ;;
      Ok {| im_path := path; im_tag := text; im_arms := arms; im_where := d_where d ++ dedup ps |}
  | BUnion => Err EUnion
  end.

(* ------------------------------------------------------------------ *)
(** * Resolution of [T: Format] *)

(** Types without parameters and aliases. *)
Inductive gty :=
| GPrim (p : prim)
| GRef (t : gty)
| GLib (l : lib) (ts : list gty)
| GUser (n : nat) (ts : list gty).

Definition unit_type : gty := GLib LTuple [].

(** The meaning of a written type, for given arguments. *)
Fixpoint inst (args : list gty) (t : sty) : gty :=
  match t with
  | SPrim p => GPrim p
  | SNamed t' => inst args t'
  | SParam i => nth i args unit_type
  | SRef t' => GRef (inst args t')
  | SLib l ts => GLib l (map (inst args) ts)
  | SUser n ts => GUser n (map (inst args) ts)
  end.

(** What a crate says about its type number [n]: derived, written by hand with the given
    [where] clause ([UManual]; [UFlags] made by [bitflags!]), or not implemented. *)
Inductive user :=
| UDerive (d : def)
| UManual (ws : list pred)
| UFlags (w : width) (name package disambiguator crate : bytes)
| UNone.

Definition formats (ts : list gty) : list (trait * gty) := map (fun t => (TFormat, t)) ts.

(** The [where] clauses of [defmt/src/impls].  Tuples and functions have at most twelve
    components ([tuples.rs:43-55], [core_/ptr.rs:57-70]). *)
Definition lib_clause (l : lib) (ts : list gty) : option (list (trait * gty)) :=
  match l, ts with
  | LSlice, [_] | LArray _, [_] | LBox, [_] | LVec, [_] | LOption, [_] | LResult, [_; _]
  | LRefCell, [_] | LIter, [_] | LZip, [_; _] => Some (formats ts)
  | LTuple, _ => if (length ts <=? 12)%nat then Some (formats ts) else None
  | LCell, [t] => Some [(TFormat, t); (TCopy, t)]
  | LString, [] | LPhantom, [_] | LInfallible, [] | LPointer, [_] | LPlain _, [] => Some []
  | LFn, _ :: args => if (length args <=? 12)%nat then Some [] else None
  | LDebug2, [t] => Some [(TDebug, t)]
  | LDisplay2, [t] => Some [(TDisplay, t)]
  | _, _ => None
  end.

Section Resolve.
  (** The crate's types, and the facts about the other traits. *)
  Context (env : nat -> user) (std : trait -> gty -> Prop).

  (** The clause of the implementation of [Format] for a type. *)
  Definition clause (t : gty) : option (list (trait * gty)) :=
    match t with
    | GPrim _ => Some []
    | GRef t' => Some [(TFormat, t')]
    | GLib l ts => lib_clause l ts
    | GUser n args =>
        let at_args := map (fun p : pred => (fst p, inst args (snd p))) in
        match env n with
        | UDerive d => match derive d with Ok im => Some (at_args (im_where im)) | _ => None end
        | UManual ws => Some (at_args ws)
        | UFlags _ _ _ _ _ => Some []
        | UNone => None
        end
    end.

  (** The compiler proves goals by finite derivations (cycles are errors). *)
  Inductive holds : trait -> gty -> Prop :=
  | H_other tr t : tr <> TFormat -> std tr t -> holds tr t
  | H_format t ps : clause t = Some ps -> (forall tr t', In (tr, t') ps -> holds tr t') -> holds TFormat t.
End Resolve.
