(** The panicking macros and [dbg!]: the format strings and argument lists that they
    build from the user's, and what the generated code does.

    Expressions are functions of the bindings in scope, without side effects other than
    through their values; the order and number of evaluations is not modelled, except that
    arguments of the message are evaluated where the generated code mentions them (that is,
    in the scope of the names which the macro binds).  Diverging or panicking argument
    expressions are outside the model. *)
From Verif Require Import Base Utf8 ParserModel DecoderModel EncodeModel.

(** The bindings in scope, by name. *)
Definition scope : Type := bytes -> option aval.
Definition expr (A : Type) : Type := scope -> A.

Definition binds (en : scope) (n : bytes) (v : aval) : scope :=
  fun m => if beq n m then Some v else en m.

(** [macros/src/function_like/log/args.rs:8-27]: a format string with its arguments. *)
Record log_args := MkLogArgs { la_format : bytes; la_exprs : list (expr aval) }.

(** [macros/src/construct.rs:22-27] [escaped_expr_string]: [str::replace] of ['{'], then of
    ['}'], by the doubled character.  The text of the expression itself (the tokens as
    printed by [quote!]) is given. *)
Fixpoint replace_char (c : Z) (s : bytes) : bytes :=
  match s with
  | [] => []
  | x :: s' => if x =? c then c :: c :: replace_char c s' else x :: replace_char c s'
  end.

Definition escaped_expr_string (e : bytes) : bytes := replace_char 125 (replace_char 123 e).

(** [macros/src/function_like/log/codegen.rs:13-39]: the number of arguments. *)
Definition expected_arg_count (frags : list fragment) : Z :=
  fold_right (fun f n => match f with FParam p => Z.max (p_index p + 1) n | FLit _ => n end) 0 frags.

(** What executing a statement writes: the log statements that were executed (and not
    disabled by [DEFMT_LOG]), in order; and its value, or [None] if it ends in
    [defmt::export::panic()]. *)
Definition logged : Type := level * bytes * list aval.
Definition effect (A : Type) : Type := list logged * option A.

(** [macros/src/function_like/log.rs:23-90] [expand_parsed]: [None] is a compile error.
    [enabled] is the filter of C32. *)
Definition expand_parsed (enabled : level -> bool) (l : level) (a : log_args)
  : option (expr (list logged)) :=
  match parse (la_format a) Strict with
  | Ok frags =>
      if expected_arg_count frags =? Z.of_nat (length (la_exprs a))
      then Some (fun en => if enabled l then [(l, la_format a, map (fun e => e en) (la_exprs a))] else [])
      else None
  | _ => None
  end.

Section Macros.
  Context (enabled : level -> bool).

  (** [macros/src/function_like/panic_like.rs:9-46]. *)
  Definition panic_like (zero_args : bytes) (transform : bytes -> bytes) (args : option log_args)
    : option (expr (effect Empty_set)) :=
    let a := match args with
             | None => MkLogArgs zero_args []
             | Some l => MkLogArgs (transform (la_format l)) (la_exprs l)
             end in
    match expand_parsed enabled LError a with
    | Some log => Some (fun en => (log en, None))
    | None => None
    end.

  (** [macros/src/lib.rs:155-190]. *)
  Definition panic_macro : option log_args -> option (expr (effect Empty_set)) :=
    panic_like (lit "panicked at 'explicit panic'") (fun f => lit "panicked at '" ++ f ++ lit "'").
  Definition todo_macro : option log_args -> option (expr (effect Empty_set)) :=
    panic_like (lit "panicked at 'not yet implemented'")
      (fun f => lit "panicked at 'not yet implemented: " ++ f ++ lit "'").
  Definition unreachable_macro : option log_args -> option (expr (effect Empty_set)) :=
    panic_like (lit "panicked at 'internal error: entered unreachable code'")
      (fun f => lit "panicked at 'internal error: entered unreachable code: " ++ f ++ lit "'").

  (** [macros/src/function_like/assert_like/assert.rs:9-47]; [text] is the text of the
      condition. *)
  Definition assert_macro (text : bytes) (cond : expr bool) (args : option log_args)
    : option (expr (effect unit)) :=
    let a := match args with
             | Some l => MkLogArgs (lit "panicked at '" ++ la_format l ++ lit "'") (la_exprs l)
             | None => MkLogArgs (lit "panicked at 'assertion failed: " ++ escaped_expr_string text ++ lit "'") []
             end in
    match expand_parsed enabled LError a with
    | Some log => Some (fun en => if negb (cond en) then (log en, None) else ([], Some tt))
    | None => None
    end.

  (** [macros/src/lib.rs:69-75] and its relatives for [assert_eq!], [assert_ne!]. *)
  Definition debug_only (debug_assertions : bool) (s : option (expr (effect unit))) : option (expr (effect unit)) :=
    match s with
    | Some run => Some (fun en => if debug_assertions then run en else ([], Some tt))
    | None => None
    end.

  (** The argument of [unwrap!]: a [Result] or an [Option].  An error has a type and a value. *)
  Inductive unwrapped (A : Type) := UOk (a : A) | UErr (t : rty) (v : rval) | USome (a : A) | UNone.
  Arguments UOk {A}. Arguments UErr {A}. Arguments USome {A}. Arguments UNone {A}.

  (** [defmt/src/export/traits.rs:40-56] [NoneError]: its tag is a string without parameters,
      and it has no data. *)
  Definition none_error : bytes := lit "Unwrap of a None option value".
  Definition none_error_ty : rty := RComp none_error [].

  (** [defmt/src/export/traits.rs:64-82] [into_result]. *)
  Definition into_result {A} (u : unwrapped A) : A + rty * rval :=
    match u with
    | UOk a => inl a
    | UErr t v => inr (t, v)
    | USome a => inl a
    | UNone => inr (none_error_ty, VList [])
    end.

  Definition unwrap_err : bytes := lit "_unwrap_err".
  (** A name bound by a macro; it is always bound where the macro uses it. *)
  Definition bound (n : bytes) : expr aval :=
    fun en => match en n with Some v => v | None => AvText [] end.

  (** [macros/src/function_like/assert_like/unwrap.rs:9-52]. *)
  Definition unwrap_macro {A} (text : bytes) (value : expr (unwrapped A)) (args : option log_args)
    : option (expr (effect A)) :=
    let a := match args with
             | Some l => MkLogArgs (lit "panicked at '" ++ la_format l ++ lit "'") (la_exprs l)
             | None => MkLogArgs (lit "panicked at 'unwrap failed: " ++ escaped_expr_string text ++ lit "'" ++ [10] ++
                                  lit "error: `{:?}`") [bound unwrap_err]
             end in
    match expand_parsed enabled LError a with
    | Some log => Some (fun en =>
        match into_result (value en) with
        | inl res => ([], Some res)
        | inr (t, v) => (log (binds en unwrap_err (AvFmt t v)), None)
        end)
    | None => None
    end.

  Inductive binop := Eq | Ne.
  Definition left_val : bytes := lit "left_val".
  Definition right_val : bytes := lit "right_val".

  (** [macros/src/function_like/assert_binop.rs:23-66]. *)
  Definition binop_args (op : binop) (args : option log_args) : log_args :=
    let extra := match args with Some l => lit ": " ++ la_format l | None => [] end in
    let exprs := match args with Some l => la_exprs l | None => [] end in
    match op with
    | Eq => MkLogArgs (lit "panicked at 'assertion failed: `(left == right)`" ++ extra ++ lit "'" ++ [10] ++
                       lit " left: `{:?}`" ++ [10] ++ lit "right: `{:?}`")
                      (exprs ++ [bound left_val; bound right_val])
    | Ne => MkLogArgs (lit "panicked at 'assertion failed: `(left != right)`" ++ extra ++ lit "'" ++ [10] ++
                       lit "left/right: `{:?}`")
                      (exprs ++ [bound left_val])
    end.

  (** [macros/src/function_like/assert_binop.rs:68-88].  The operands have values of types
      [tl] and [tr]; [eq] is the user's [PartialEq].  The names are bound to references, and
      bound without hygiene ([construct.rs:100-103]: [Span::call_site]). *)
  Definition binop_macro (op : binop) (tl tr : rty) (left right : expr rval) (eq : rval -> rval -> bool)
    (args : option log_args) : option (expr (effect unit)) :=
    match expand_parsed enabled LError (binop_args op args) with
    | Some log => Some (fun en =>
        let l := left en in
        let r := right en in
        let fails := match op with Eq => negb (eq l r) | Ne => eq l r end in
        if fails
        then (log (binds (binds en left_val (AvFmt (RRef tl) l)) right_val (AvFmt (RRef tr) r)), None)
        else ([], Some tt))
    | None => None
    end.

  (** [macros/src/function_like/dbg.rs:15-41]; for every expression its text and type. *)
  Definition tmp : bytes := lit "tmp".
  Definition dbg_one (text : bytes) (t : rty) (e : expr rval) : option (expr (effect rval)) :=
    match expand_parsed enabled LTrace (MkLogArgs (escaped_expr_string text ++ lit " = {}") [bound tmp]) with
    | Some log => Some (fun en => let v := e en in (log (binds en tmp (AvFmt t v)), Some v))
    | None => None
    end.

  Fixpoint dbg_all (es : list (bytes * rty * expr rval)) : option (expr (effect (list rval))) :=
    match es with
    | [] => Some (fun _ => ([], Some []))
    | (text, t, e) :: es =>
        match dbg_one text t e, dbg_all es with
        | Some one, Some rest => Some (fun en =>
            match one en, rest en with
            | (l1, Some v), (l2, Some vs) => (l1 ++ l2, Some (v :: vs))
            | (l1, _), (l2, _) => (l1 ++ l2, None)
            end)
        | _, _ => None
        end
    end.

  Definition dbg_macro (es : list (bytes * rty * expr rval)) : option (expr (effect (list rval))) :=
    match es with
    | [] => match expand_parsed enabled LTrace (MkLogArgs [] []) with
            | Some log => Some (fun en => (log en, Some []))
            | None => None
            end
    | _ => dbg_all es
    end.
End Macros.
Arguments UOk {A}. Arguments UErr {A}. Arguments USome {A}. Arguments UNone {A}.
