(** What the panicking macros and [dbg!] should do. *)
From Verif Require Import Base Utf8 ParserModel DecoderModel EncodeModel EncodeSpec DisplayModel TextSpec TextMain MacroModel.

Section Spec.
  Context (X : externals) (addr : bytes -> Z) (tbl : table).

  (** A log statement with the format string [f] and the arguments [args] compiles, can be
      sent, and reads [s]. *)
  Definition reads (f : bytes) (args : list aval) (s : bytes) : Prop :=
    exists frags tys a, parse f Strict = Ok frags /\ arg_types f Strict tys /\
      means_args addr tbl tys args a /\ says_line X tbl None frags args s.

  Context (enabled : level -> bool).

  Definition values (en : scope) (es : list (expr aval)) : list aval := map (fun e => e en) es.

  (** A statement that compiles, logs [s] as an error (unless errors are disabled) and
      panics. *)
  Definition stops {A} (st : option (expr (effect A))) (en : scope) (s : bytes) : Prop :=
    exists run f args, st = Some run /\ reads f args s /\
      run en = (if enabled LError then [(LError, f, args)] else [], None).

  (** A statement that compiles, logs nothing and has the value [v]. *)
  Definition passes {A} (st : option (expr (effect A))) (en : scope) (v : A) : Prop :=
    exists run, st = Some run /\ run en = ([], Some v).

  (** The arguments of a message do not use the names that the macro binds. *)
  Definition independent (names : list bytes) (es : list (expr aval)) : Prop :=
    forall en1 en2 e, In e es -> (forall n, ~ In n names -> en1 n = en2 n) -> e en1 = e en2.

  (** The statements logged for the expressions [es], one for each, in order. *)
  Inductive debugged (en : scope) : list (bytes * rty * expr rval) -> list logged -> Prop :=
  | D_nil : debugged en [] []
  | D_cons text t e es f args ls :
      (forall s, printable X addr tbl None t (e en) s -> reads f args (text ++ lit " = " ++ s)) ->
      debugged en es ls -> debugged en ((text, t, e) :: es) ((LTrace, f, args) :: ls).
End Spec.

(** A message that the log macros accept. *)
Definition accepted (a : log_args) : Prop :=
  exists frags, parse (la_format a) Strict = Ok frags /\
    expected_arg_count frags = Z.of_nat (length (la_exprs a)).

Definition quoted (s : bytes) : bytes := lit "panicked at '" ++ s ++ lit "'".

(** The texts of failed comparisons; [msg] is the text of the message, if there is one. *)
Definition comparison_text (op : binop) (msg : option bytes) (l r : bytes) : bytes :=
  let m := match msg with Some s => lit ": " ++ s | None => [] end in
  match op with
  | Eq => quoted (lit "assertion failed: `(left == right)`" ++ m) ++ [10] ++
            lit " left: `" ++ l ++ lit "`" ++ [10] ++ lit "right: `" ++ r ++ lit "`"
  | Ne => quoted (lit "assertion failed: `(left != right)`" ++ m) ++ [10] ++
            lit "left/right: `" ++ l ++ lit "`"
  end.

Definition comparison_holds (op : binop) (equal : bool) : bool := match op with Eq => equal | Ne => negb equal end.

(** The text of a failed [unwrap!]. *)
Definition unwrap_text (text err : bytes) : bytes :=
  quoted (lit "unwrap failed: " ++ text) ++ [10] ++ lit "error: `" ++ err ++ lit "`".

(** No opening brace is followed by a digit. *)
Definition no_index (s : bytes) : Prop := forall a d b, s = a ++ 123 :: d :: b -> is_digit d = false.

(** Every opening brace is followed by a digit. *)
Definition all_indexed (s : bytes) : Prop := forall a b, s = a ++ 123 :: b -> exists d r, b = d :: r /\ is_digit d = true.

(** Messages of comparisons for which the macros work: the parameters have no index. *)
Definition simple_message (args : option log_args) : Prop :=
  match args with
  | None => True
  | Some a => accepted a /\ no_index (la_format a) /\ Z.of_nat (length (la_exprs a)) < 2 ^ 32 /\
              independent [left_val; right_val] (la_exprs a)
  end.

