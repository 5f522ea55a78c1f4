(** The code that the macros generate ([quote!] in [macros/src]), as syntax, and what executing it
    does.

    The user's expressions are numbered.  Evaluating one may do anything to the state of the
    program (an abstract [world]), do things that involve the logger (a list of [task]s of
    [LoggerModel], for example a nested log statement), and either have a value or not come back
    ([return], [?], [break], a panic).  Everything that happens is recorded in a list of events.

    Simplified: types are erased (a value of the wrong kind makes the execution [Stuck]);
    a reference is its referent; [Format] implementations, which run when an argument is
    written, have no other effect (C49 is about their panics); temporaries have no destructors;
    [option_env!] and the [static] behind an interned string have no effect at run time. *)
From Verif Require Import Base Numerals ParserModel DecoderModel EncodeModel MacroModel.
From Verif Require LoggerModel.

(* ------------------------------------------------------------------ *)
(** * Generated code *)

Inductive pattern :=
| PAny                          (** [_] *)
| PName (x : bytes)
| PNames (xs : list bytes)      (** a tuple of names *)
| POkay (x : bytes)             (** [Result::Ok(x)] *)
| PError (x : bytes).           (** [Result::Err(x)] *)

(** What an interned string is for: [level.as_str()] or [println], [write]. *)
Inductive purpose := ForLevel (l : level) | ForPrintln | ForWrite.

Inductive code :=
| CUser (n : nat)               (** tokens of the user *)
| CName (x : bytes)
| CUnit
| CBool (b : bool)              (** a constant: [CHECK], [cfg!(debug_assertions)] *)
| CRef (c : code)
| CDeref (c : code)
| CNot (c : code)
| CEqual (c d : code)           (** [c == d] *)
| CTuple (cs : list code)
| CMatch (c : code) (arms : list (pattern * code))
| CIf (c d : code)
| CLet (x : bytes) (c d : code) (** [let x = c; d] *)
| CSeq (c d : code)             (** [c; d] *)
| CIntern (p : purpose) (s : bytes)       (** [construct::interned_string] *)
| CAcquireHeaderRelease (c : code)        (** [defmt::export::acquire_header_and_release] *)
| CAcquireHeader (c : code)               (** [defmt::export::acquire_and_header] *)
| CRelease                                (** [defmt::export::release] *)
| CIstr (c : code)                        (** [defmt::export::istr] *)
| CPut (ps : list parameter) (i : Z) (c : code)  (** [encode_arg]: [defmt::export::u8] etc. *)
| CPanic                                  (** [defmt::export::panic] *)
| CIntoResult (c : code).                 (** [defmt::export::into_result] *)

(** Repetitions with commas between parentheses: with one element these are only parentheses. *)
Definition parens (cs : list code) : code := match cs with [c] => c | _ => CTuple cs end.
Definition parens_pattern (xs : list bytes) : pattern := match xs with [x] => PName x | _ => PNames xs end.

Fixpoint seq (cs : list code) (last : code) : code :=
  match cs with [] => last | c :: cs' => CSeq c (seq cs' last) end.

(* ------------------------------------------------------------------ *)
(** * The macros *)

(** [macros/src/function_like/log/args.rs:8-27]. *)
Record invocation := MkInvocation { in_format : bytes; in_exprs : list code }.

(** [macros/src/function_like/log/codegen.rs:43]. *)
Definition arg_ident (i : Z) : bytes := lit "arg" ++ dec_str i.
Definition arg_numbers (n : nat) : list Z := map Z.of_nat (List.seq 0 n).

(** [macros/src/function_like/log/codegen.rs:13-59] [Codegen::new]: the patterns and the
    statements, or a compile error. *)
Definition codegen (frags : list fragment) (given : nat) : option (list bytes * list code) :=
  if expected_arg_count frags =? Z.of_nat given
  then Some (map arg_ident (arg_numbers given),
             map (fun i => CPut (frag_parameters frags) i (CName (arg_ident i))) (arg_numbers given))
  else None.

(** [macros/src/function_like/log.rs:50-66], [println.rs:40-54]. *)
Definition content (header : code) (exprs : list code) : code :=
  match exprs with
  | [] => CAcquireHeaderRelease header
  | _ => CSeq (CAcquireHeader header) (seq exprs CRelease)
  end.

(** [macros/src/function_like/log.rs:22-90] [expand_parsed].  [filter] is
    [EnvFilter::path_check] together with the constant it compares ([None]: not compiled in). *)
Definition log_code (filter : level -> option bool) (l : level) (a : invocation) : option code :=
  match parse (in_format a) Strict with
  | Ok frags =>
      match codegen frags (length (in_exprs a)) with
      | Some (names, exprs) =>
          let args := parens (map CRef (in_exprs a)) in
          Some match filter l with
               | Some check =>
                   CMatch args [(parens_pattern names, CIf (CBool check) (content (CIntern (ForLevel l) (in_format a)) exprs))]
               | None => CMatch args [(PAny, CUnit)]
               end
      | None => None
      end
  | _ => None
  end.

(** [macros/src/function_like/println.rs:14-59]. *)
Definition println_code (a : invocation) : option code :=
  match parse (in_format a) Strict with
  | Ok frags =>
      match codegen frags (length (in_exprs a)) with
      | Some (names, exprs) =>
          Some (CMatch (parens (map CRef (in_exprs a)))
                  [(parens_pattern names, content (CIntern ForPrintln (in_format a)) exprs)])
      | None => None
      end
  | _ => None
  end.

(** [macros/src/function_like/write.rs:13-49]. *)
Definition typecheck_formatter : bytes := lit "_typecheck_formatter".
Definition write_code (formatter : code) (a : invocation) : option code :=
  match parse (in_format a) Strict with
  | Ok frags =>
      match codegen frags (length (in_exprs a)) with
      | Some (names, exprs) =>
          Some (CLet typecheck_formatter formatter
                 (CMatch (parens (map CRef (in_exprs a)))
                   [(parens_pattern names, CSeq (CIstr (CIntern ForWrite (in_format a))) (seq exprs CUnit))]))
      | None => None
      end
  | _ => None
  end.

(** [macros/src/items/timestamp.rs:11-45]: the body of the function [_defmt_timestamp]. *)
Definition timestamp_code (a : invocation) : option code :=
  match parse (in_format a) Strict with
  | Ok frags =>
      match codegen frags (length (in_exprs a)) with
      | Some (names, exprs) =>
          Some (CMatch (parens (map CRef (in_exprs a))) [(parens_pattern names, seq exprs CUnit)])
      | None => None
      end
  | _ => None
  end.

Section Panicking.
  Context (filter : level -> option bool).

  (** The log statement followed by a panic, in all the macros below. *)
  Definition fail (a : invocation) : option code :=
    match log_code filter LError a with Some c => Some (CSeq c CPanic) | None => None end.

  (** [macros/src/function_like/panic_like.rs:9-42] with [lib.rs:155-190]. *)
  Definition panic_like_code (zero_args : bytes) (transform : bytes -> bytes) (args : option invocation) : option code :=
    fail match args with
         | None => MkInvocation zero_args []
         | Some a => MkInvocation (transform (in_format a)) (in_exprs a)
         end.

  (** [macros/src/function_like/assert_like/assert.rs:8-39]; [text] is the text of [cond]. *)
  Definition assert_code (text : bytes) (cond : code) (args : option invocation) : option code :=
    match fail match args with
               | Some a => MkInvocation (lit "panicked at '" ++ in_format a ++ lit "'") (in_exprs a)
               | None => MkInvocation (lit "panicked at 'assertion failed: " ++ escaped_expr_string text ++ lit "'") []
               end with
    | Some c => Some (CIf (CNot cond) c)
    | None => None
    end.

  (** [macros/src/lib.rs:65-97]. *)
  Definition debug_code (debug_assertions : bool) (c : option code) : option code :=
    match c with Some c => Some (CIf (CBool debug_assertions) c) | None => None end.

  (** [macros/src/function_like/assert_like/unwrap.rs:8-46]. *)
  Definition unwrap_code (text : bytes) (value : code) (args : option invocation) : option code :=
    match fail match args with
               | Some a => MkInvocation (lit "panicked at '" ++ in_format a ++ lit "'") (in_exprs a)
               | None => MkInvocation (lit "panicked at 'unwrap failed: " ++ escaped_expr_string text ++ lit "'" ++ [10] ++
                                       lit "error: `{:?}`") [CName unwrap_err]
               end with
    | Some c => Some (CMatch (CIntoResult value) [(POkay (lit "res"), CName (lit "res")); (PError unwrap_err, c)])
    | None => None
    end.

  (** [macros/src/function_like/assert_binop.rs:21-84]. *)
  Definition binop_invocation (op : binop) (args : option invocation) : invocation :=
    let extra := match args with Some l => lit ": " ++ in_format l | None => [] end in
    let exprs := match args with Some l => in_exprs l | None => [] end in
    match op with
    | Eq => MkInvocation (lit "panicked at 'assertion failed: `(left == right)`" ++ extra ++ lit "'" ++ [10] ++
                          lit " left: `{:?}`" ++ [10] ++ lit "right: `{:?}`")
                         (exprs ++ [CName left_val; CName right_val])
    | Ne => MkInvocation (lit "panicked at 'assertion failed: `(left != right)`" ++ extra ++ lit "'" ++ [10] ++
                          lit "left/right: `{:?}`")
                         (exprs ++ [CName left_val])
    end.

  Definition binop_code (op : binop) (left right : code) (args : option invocation) : option code :=
    let equal := CEqual (CDeref (CName left_val)) (CDeref (CName right_val)) in
    match fail (binop_invocation op args) with
    | Some c => Some (CMatch (CTuple [CRef left; CRef right])
                        [(PNames [left_val; right_val], CIf (match op with Eq => CNot equal | Ne => equal end) c)])
    | None => None
    end.

  (** [macros/src/function_like/dbg.rs:17-40]; for every expression its text. *)
  Definition dbg_one_code (text : bytes) (e : code) : option code :=
    match log_code filter LTrace (MkInvocation (escaped_expr_string text ++ lit " = {}") [CName tmp]) with
    | Some c => Some (CMatch e [(PName tmp, CSeq c (CName tmp))])
    | None => None
    end.

  Fixpoint dbg_codes (es : list (bytes * code)) : option (list code) :=
    match es with
    | [] => Some []
    | (text, e) :: es' =>
        match dbg_one_code text e, dbg_codes es' with Some c, Some cs => Some (c :: cs) | _, _ => None end
    end.

  Definition dbg_code (es : list (bytes * code)) : option code :=
    match es with
    | [] => log_code filter LTrace (MkInvocation [] [])
    | _ => match dbg_codes es with Some cs => Some (parens cs) | None => None end
    end.
End Panicking.

(* ------------------------------------------------------------------ *)
(** * Execution *)

Inductive value :=
| VoUnit | VoBool (b : bool)
| VoArg (a : aval)                      (** a value of the user that can be formatted *)
| VoTuple (vs : list value)
| VoOk (v : value) | VoErr (v : value)  (** [Result] *)
| VoSome (v : value) | VoNone           (** [Option] *)
| VoStr (p : purpose) (s : bytes)       (** [defmt::Str] *)
| VoFormatter                           (** [defmt::Formatter] *)
| VoOther.                              (** any other value of the user *)

(** Ways not to come back from an expression: to leave the function (or loop), and to panic. *)
Inductive leave := Leaves | Unwinds.

Inductive result := Val (v : value) | Exit (x : leave) | Stuck.

Inductive event :=
| EExpr (n : nat) (ts : list LoggerModel.task)  (** expression [n] is evaluated *)
| EEqual (ts : list LoggerModel.task)           (** the user's [PartialEq] is called *)
| EAcquire | ERelease
| EHeader (p : purpose) (s : bytes)             (** the index of a string, at the beginning of a frame *)
| ETag (s : bytes)                              (** the index of a string, in a [write!] *)
| EPut (ps : list parameter) (i : Z) (a : aval)
| EPanic.                                       (** [_defmt_panic] *)

Definition names : Type := bytes -> option value.
Definition bind (en : names) (x : bytes) (v : value) : names := fun y => if beq x y then Some v else en y.

Fixpoint bind_all (en : names) (xs : list bytes) (vs : list value) : option names :=
  match xs, vs with
  | [], [] => Some en
  | x :: xs', v :: vs' => bind_all (bind en x v) xs' vs'
  | _, _ => None
  end.

(** Whether a pattern matches: [None] if the types do not agree. *)
Definition matches (p : pattern) (v : value) (en : names) : option (option names) :=
  match p, v with
  | PAny, _ => Some (Some en)
  | PName x, _ => Some (Some (bind en x v))
  | PNames [], VoUnit => Some (Some en)
  | PNames xs, VoTuple vs => match bind_all en xs vs with Some en' => Some (Some en') | None => None end
  | POkay x, VoOk v => Some (Some (bind en x v))
  | POkay _, VoErr _ => Some None
  | PError x, VoErr v => Some (Some (bind en x v))
  | PError _, VoOk _ => Some None
  | _, _ => None
  end.

(** [defmt/src/export/traits.rs:40-82] [NoneError], [into_result]. *)
Definition into_result_value (v : value) : option value :=
  match v with
  | VoOk _ | VoErr _ => Some v
  | VoSome v => Some (VoOk v)
  | VoNone => Some (VoErr (VoArg (AvFmt none_error_ty (VList []))))
  | _ => None
  end.

Section Exec.
  Context {world : Type}.
  (** The user's expressions, and their [PartialEq]. *)
  Context (user : nat -> names -> world -> list LoggerModel.task * world * (value + leave)).
  Context (equal : value -> value -> world -> list LoggerModel.task * world * (bool + leave)).

  Definition run : Type := list event * world * result.

  Definition andThen (r : run) (f : value -> world -> run) : run :=
    match r with
    | (evs, w, Val v) => let '(evs', w', r') := f v w in (evs ++ evs', w', r')
    | (evs, w, r) => (evs, w, r)
    end.

  Definition stuck (w : world) : run := ([], w, Stuck).

  Section Timestamp.
    (** The function behind [_defmt_timestamp]. *)
    Context (stamp : world -> run).

    (** [defmt/src/export/mod.rs:212-226]. *)
    Definition header (p : purpose) (s : bytes) (w : world) : run :=
      andThen ([EAcquire; EHeader p s], w, Val VoUnit) (fun _ w => stamp w).

    Fixpoint exec (c : code) (en : names) (w : world) {struct c} : run :=
      match c with
      | CUser n => match user n en w with
                   | (ts, w', inl v) => ([EExpr n ts], w', Val v)
                   | (ts, w', inr x) => ([EExpr n ts], w', Exit x)
                   end
      | CName x => ([], w, match en x with Some v => Val v | None => Stuck end)
      | CUnit => ([], w, Val VoUnit)
      | CBool b => ([], w, Val (VoBool b))
      | CRef c | CDeref c => exec c en w
      | CNot c => andThen (exec c en w) (fun v w => match v with VoBool b => ([], w, Val (VoBool (negb b))) | _ => stuck w end)
      | CEqual c d =>
          andThen (exec c en w) (fun v w => andThen (exec d en w) (fun v' w =>
            match equal v v' w with
            | (ts, w', inl b) => ([EEqual ts], w', Val (VoBool b))
            | (ts, w', inr x) => ([EEqual ts], w', Exit x)
            end))
      | CTuple [] => ([], w, Val VoUnit)
      | CTuple cs =>
          (fix all (cs : list code) (done : list value) (w : world) : run :=
             match cs with
             | [] => ([], w, Val (VoTuple (rev done)))
             | c :: cs' => andThen (exec c en w) (fun v w => all cs' (v :: done) w)
             end) cs [] w
      | CMatch c arms =>
          andThen (exec c en w) (fun v w =>
            (fix first (arms : list (pattern * code)) : run :=
               match arms with
               | [] => stuck w
               | (p, d) :: arms' =>
                   match matches p v en with
                   | Some (Some en') => exec d en' w
                   | Some None => first arms'
                   | None => stuck w
                   end
               end) arms)
      | CIf c d => andThen (exec c en w) (fun v w =>
          match v with VoBool true => exec d en w | VoBool false => ([], w, Val VoUnit) | _ => stuck w end)
      | CLet x c d => andThen (exec c en w) (fun v w => exec d (bind en x v) w)
      | CSeq c d => andThen (exec c en w) (fun _ w => exec d en w)
      | CIntern p s => ([], w, Val (VoStr p s))
      | CAcquireHeaderRelease c => andThen (exec c en w) (fun v w =>
          match v with
          | VoStr p s => andThen (header p s w) (fun _ w => ([ERelease], w, Val VoUnit))
          | _ => stuck w
          end)
      | CAcquireHeader c => andThen (exec c en w) (fun v w => match v with VoStr p s => header p s w | _ => stuck w end)
      | CRelease => ([ERelease], w, Val VoUnit)
      | CIstr c => andThen (exec c en w) (fun v w => match v with VoStr _ s => ([ETag s], w, Val VoUnit) | _ => stuck w end)
      | CPut ps i c => andThen (exec c en w) (fun v w => match v with VoArg a => ([EPut ps i a], w, Val VoUnit) | _ => stuck w end)
      | CPanic => ([EPanic], w, Exit Unwinds)
      | CIntoResult c => andThen (exec c en w) (fun v w =>
          match into_result_value v with Some v => ([], w, Val v) | None => stuck w end)
      end.
  End Timestamp.

  (** A frame is not begun inside the timestamp function: its code has no such call. *)
  Definition no_stamp (w : world) : run := ([], w, Val VoUnit).

  (** [macros/src/items/timestamp.rs:33-52], [defmt/src/lib.rs:378-381]: the function
      [_defmt_timestamp].  Its expressions see the items of the module, the parameter [fmt] and the
      macro's [static S]; leaving the function ends only the function. *)
  Context (items : names).
  Definition stamp_names : names := bind (bind items (lit "S") (VoArg (AvPrim (VNum 0)))) (lit "fmt") VoFormatter.
  Definition stamp_function (body : option code) (w : world) : run :=
    match body with
    | None => ([], w, Val VoUnit)
    | Some c => match exec no_stamp c stamp_names w with
                | (evs, w', Exit Leaves) => (evs, w', Val VoUnit)
                | r => r
                end
    end.

  (** A statement of a program whose [timestamp!] has the body [stamp]. *)
  Definition execute (stamp : option code) (c : code) (en : names) (w : world) : run :=
    exec (stamp_function stamp) c en w.
End Exec.
