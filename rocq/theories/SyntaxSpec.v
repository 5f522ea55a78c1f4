(** How the macros are written, as documented. *)
From Verif Require Import Base SyntaxModel.

(** What follows an argument: the end, a comma or a semicolon. *)
Definition ends_expr (ts : toks) : Prop :=
  ts = [] \/ (exists ts', ts = TComma :: ts') \/ (exists ts', ts = TSemi :: ts').

(** The parsers of [syn] take something from the front, and a comma or semicolon (for a
    type: a group in braces) is never part of what is taken beyond a complete expression
    (type) and does not change whether the tokens before it are one. *)
Record syn_ok (syn : syn_parsers) : Prop := {
  expr_reads : forall ts e rest, syn_expr syn ts = Some (e, rest) -> ts = e ++ rest /\ e <> [];
  expr_local : forall e rest, ends_expr rest ->
    syn_expr syn (e ++ rest) = Some (e, rest) <-> syn_expr syn e = Some (e, []);
  type_reads : forall ts t rest, syn_type syn ts = Some (t, rest) -> ts = t ++ rest /\ t <> [];
  type_local : forall t body,
    syn_type syn (t ++ [TGroup Brace body]) = Some (t, [TGroup Brace body]) <-> syn_type syn t = Some (t, []) }.

Section Written.
  Context (syn : syn_parsers).

  Definition expression (e : toks) : Prop := syn_expr syn e = Some (e, []).
  Definition type (t : toks) : Prop := syn_type syn t = Some (t, []).

  (** Items, separated by [sep], which may also follow the last. *)
  Inductive separated {A} (item : toks -> A -> Prop) (sep : tok) : toks -> list A -> Prop :=
  | SP_none : separated item sep [] []
  | SP_last ts a : item ts a -> separated item sep ts [a]
  | SP_more ts a ts' l : item ts a -> separated item sep ts' l -> separated item sep (ts ++ sep :: ts') (a :: l).

  Definition argument (ts e : toks) : Prop := ts = e /\ expression e.
  Definition arguments : toks -> list toks -> Prop := separated argument TComma.

  (** ["string"] or ["string", arguments]. *)
  Inductive message : toks -> bytes * option (list toks) -> Prop :=
  | MS_alone s : message [TLit s] (s, None)
  | MS_args s ts es : arguments ts es -> message (TLit s :: TComma :: ts) (s, Some es).

  (** A comma and a message, or nothing, or a comma only. *)
  Inductive continued : toks -> option (bytes * option (list toks)) -> Prop :=
  | CT_end : continued [] None
  | CT_comma : continued [TComma] None
  | CT_message ts l : message ts l -> continued (TComma :: ts) (Some l).

  (** ** [bitflags!] *)
  Definition written_attrs (l : list toks) : toks := concat (map (fun a => [TPound; TGroup Bracket a]) l).

  Inductive written_vis : toks -> Prop :=
  | WV_none : written_vis []
  | WV_pub : written_vis [TWord (lit "pub")]
  | WV_one w : In w [lit "crate"; lit "self"; lit "super"] -> written_vis [TWord (lit "pub"); TGroup Paren [TWord w]]
  | WV_in p : p <> [] -> written_vis [TWord (lit "pub"); TGroup Paren (TWord (lit "in") :: p)].

  (** The path of an attribute is [cfg]. *)
  Definition cfg_attr (a : toks) : Prop :=
    exists a', a = TWord (lit "cfg") :: a' /\ forall b, a' <> TOther (lit "::") :: b.

  Inductive flag_written : toks -> flag -> Prop :=
  | FW attrs cfgs name v : keyword name = false -> expression v ->
      (forall a, In a cfgs <-> In a attrs /\ cfg_attr a) -> (exists keep, cfgs = filter keep attrs) ->
      flag_written (written_attrs attrs ++ TWord (lit "const") :: TWord name :: TEq :: v)
        {| fl_attrs := attrs; fl_cfgs := cfgs; fl_name := name; fl_value := v |}.

  Inductive flags_written : toks -> flags_input -> Prop :=
  | FI attrs vis name ty body fs : written_vis vis -> keyword name = false -> type ty ->
      separated flag_written TSemi body fs ->
      flags_written (written_attrs attrs ++ vis ++ TWord (lit "struct") :: TWord name :: TColon :: ty ++ [TGroup Brace body])
        {| fi_attrs := attrs; fi_vis := vis; fi_name := name; fi_ty := ty; fi_flags := fs |}.
End Written.

(** ** Attributes *)

(** [fn() -> !] *)
Definition handler_signature (f : fn_item) : Prop :=
  f_const f = false /\ f_async f = false /\ f_unsafe f = false /\ f_abi f = None /\ f_generics f = [] /\
  f_where f = [] /\ f_variadic f = false /\ f_inputs f = [] /\ f_never f = true.

(** [struct S;] *)
Definition unit_struct (s : struct_item) : Prop := s_generics s = [] /\ s_where s = [] /\ s_fields s = SUnit.

(** [a] is [#[w]], [#[w(..)]] or [#[w = ..]]. *)
Definition named_attr (w : bytes) (a : toks) : Prop :=
  exists a', a = TWord w :: a' /\ forall b, a' <> TOther (lit "::") :: b.
