(** What the generated code should do. *)
From Verif Require Import Base Numerals ParserModel FormatSpec DecoderModel EncodeModel MacroModel ExpandModel.
From Verif Require LoggerModel.

(** How often an expression of the user is written in a piece of code. *)
Fixpoint mentions (n : nat) (c : code) : nat :=
  match c with
  | CUser m => if Nat.eqb m n then 1 else 0
  | CRef c | CDeref c | CNot c | CAcquireHeaderRelease c | CAcquireHeader c | CIstr c | CPut _ _ c | CIntoResult c => mentions n c
  | CEqual c d | CIf c d | CLet _ c d | CSeq c d => mentions n c + mentions n d
  | CTuple cs => (fix all cs := match cs with [] => 0 | c :: cs' => mentions n c + all cs' end) cs
  | CMatch c arms => mentions n c + (fix all (arms : list (pattern * code)) := match arms with [] => 0 | (_, d) :: arms' => mentions n d + all arms' end) arms
  | _ => 0
  end%nat.

Definition mentions_all (n : nat) (cs : list code) : nat := fold_right (fun c k => mentions n c + k)%nat 0%nat cs.
Definition mentions_args (n : nat) (a : option invocation) : nat :=
  match a with Some a => mentions_all n (in_exprs a) | None => 0%nat end.

(** How often it is evaluated. *)
Fixpoint evaluations (n : nat) (evs : list event) : nat :=
  match evs with
  | [] => 0
  | EExpr m _ :: evs' => (if Nat.eqb m n then 1 else 0) + evaluations n evs'
  | _ :: evs' => evaluations n evs'
  end%nat.

(** The arguments of a frame, in order. *)
Definition puts (s : bytes) (vs : list aval) : list event :=
  match parse s Strict with
  | Ok frags => mapi (EPut (frag_parameters frags)) 0 vs
  | _ => []
  end.

(** A whole frame: [stamp] is what happens for the timestamp. *)
Definition frame (p : purpose) (s : bytes) (stamp : list event) (vs : list aval) : list event :=
  EAcquire :: EHeader p s :: stamp ++ puts s vs ++ [ERelease].

(** An invocation that the log macros accept. *)
Definition accepts (s : bytes) (given : nat) : Prop :=
  exists frags, parse s Strict = Ok frags /\ expected_arg_count frags = Z.of_nat given.

(** The task of an event that is inside of a frame or outside of one; [addr] is where the linker put the strings. *)
Section Tasks.
  Context (addr : bytes -> Z).
  Definition event_tasks (e : event) : list LoggerModel.task :=
    match e with
    | EExpr _ ts | EEqual ts => ts
    | EHeader _ s | ETag s => [LoggerModel.TWrite (put_istr addr s)]
    | EPut ps i a => [LoggerModel.TWrite (encode_arg addr ps i a)]
    | EPanic => [LoggerModel.TPanic]
    | EAcquire | ERelease => []
    end.

  (** The tasks of a trace: what is between [EAcquire] and [ERelease] is the body of a log statement. *)
  Inductive tasks_of : list event -> list LoggerModel.task -> Prop :=
  | Tasks_nil : tasks_of [] []
  | Tasks_event e evs ts : e <> EAcquire -> e <> ERelease -> tasks_of evs ts -> tasks_of (e :: evs) (event_tasks e ++ ts)
  | Tasks_frame body rest ts : ~ In EAcquire body -> ~ In ERelease body -> tasks_of rest ts ->
      tasks_of (EAcquire :: body ++ ERelease :: rest) (LoggerModel.TLog (flat_map event_tasks body) :: ts).

  Definition written (ts : list LoggerModel.task) : bytes :=
    flat_map (fun t => match t with LoggerModel.TWrite b => b | _ => [] end) ts.
End Tasks.

Section Spec.
  Context {world : Type}.
  Context (user : nat -> names -> world -> list LoggerModel.task * world * (value + leave)).

  (** The expressions [ns] are evaluated one after the other, and have the values [vs]. *)
  Inductive evaluated (en : names) : list nat -> world -> list event -> world -> list aval -> Prop :=
  | Ev_nil w : evaluated en [] w [] w []
  | Ev_cons n ns w ts w1 a evs w2 vs : user n en w = (ts, w1, inl (VoArg a)) -> evaluated en ns w1 evs w2 vs ->
      evaluated en (n :: ns) w (EExpr n ts :: evs) w2 (a :: vs).

  (** They are evaluated one after the other up to one that does not come back. *)
  Inductive interrupted (en : names) : list nat -> world -> list event -> world -> leave -> Prop :=
  | In_here n ns w ts w1 x : user n en w = (ts, w1, inr x) -> interrupted en (n :: ns) w [EExpr n ts] w1 x
  | In_later n ns w ts w1 a evs w2 x : user n en w = (ts, w1, inl (VoArg a)) -> interrupted en ns w1 evs w2 x ->
      interrupted en (n :: ns) w (EExpr n ts :: evs) w2 x.

  (** The values of all expressions can be formatted, so one of the two is the case. *)
  Definition formattable (ns : list nat) : Prop :=
    forall n en w ts w' v, In n ns -> user n en w = (ts, w', inl v) -> exists a, v = VoArg a.

  (** The expressions of the user do not use the names [xs]. *)
  Definition avoids (xs : list bytes) (ns : list nat) : Prop :=
    forall n en en' w, In n ns -> (forall x, ~ In x xs -> en x = en' x) -> user n en w = user n en' w.
End Spec.

(** Macro invocations with the user's expressions [ns] as arguments. *)
Definition invoke (s : bytes) (ns : list nat) : invocation := MkInvocation s (map CUser ns).
Definition invoke_message (m : option (bytes * list nat)) : option invocation :=
  match m with Some (s, ns) => Some (invoke s ns) | None => None end.
Definition message_exprs (m : option (bytes * list nat)) : list nat := match m with Some (_, ns) => ns | None => [] end.

(** The text of an expression, and the expression. *)
Definition user_expr (e : bytes * nat) : bytes * code := (fst e, CUser (snd e)).

(** Parentheses around one value are not a tuple. *)
Definition parens_value (vs : list value) : value := match vs with [] => VoUnit | [v] => v | _ => VoTuple vs end.

(** What the user's expressions do with the logger. *)
Definition expr_tasks (evs : list event) : list LoggerModel.task :=
  flat_map (fun e => match e with EExpr _ ts => ts | _ => [] end) evs.

(* ------------------------------------------------------------------ *)
(** * Messages of the panicking macros *)

(** [assert!]; the text of the condition is shown literally. *)
Definition assert_text (text : bytes) (m : option (bytes * list nat)) : bytes :=
  match m with
  | Some (s, _) => lit "panicked at '" ++ s ++ lit "'"
  | None => lit "panicked at 'assertion failed: " ++ escape text ++ lit "'"
  end.

Definition message_ok (m : option (bytes * list nat)) : Prop := match m with Some (s, ns) => accepts s (length ns) | None => True end.

(** [unwrap!]. *)
Definition unwrap_message (text : bytes) (m : option (bytes * list nat)) : bytes :=
  match m with
  | Some (s, _) => lit "panicked at '" ++ s ++ lit "'"
  | None => lit "panicked at 'unwrap failed: " ++ escape text ++ lit "'" ++ [10] ++ lit "error: `{:?}`"
  end.

(** The error that [unwrap!] shows for [None]. *)
Definition no_value : aval := AvFmt none_error_ty (VList []).

(** Comparisons: the names that the macro binds, and the values it shows. *)
Definition compared_names (en : names) (a b : value) : names := bind (bind en left_val a) right_val b.
Definition comparison_extra (op : binop) (a b : aval) : list aval := match op with Eq => [a; b] | Ne => [a] end.
Definition comparison_message (op : binop) (m : option (bytes * list nat)) : bytes :=
  let extra := match m with Some (s, _) => lit ": " ++ s | None => [] end in
  match op with
  | Eq => lit "panicked at 'assertion failed: `(left == right)`" ++ extra ++ lit "'" ++ [10] ++
          lit " left: `{:?}`" ++ [10] ++ lit "right: `{:?}`"
  | Ne => lit "panicked at 'assertion failed: `(left != right)`" ++ extra ++ lit "'" ++ [10] ++ lit "left/right: `{:?}`"
  end.

(** The generated code of a macro invocation, and how often it was given expression [n]. *)
Inductive expansion (n : nat) : option code -> nat -> Prop :=
| X_log filter l a : expansion n (log_code filter l a) (mentions_all n (in_exprs a))
| X_println a : expansion n (println_code a) (mentions_all n (in_exprs a))
| X_write f a : expansion n (write_code f a) (mentions n f + mentions_all n (in_exprs a))
| X_panic filter z tr m : expansion n (panic_like_code filter z tr m) (mentions_args n m)
| X_assert filter text c m : expansion n (assert_code filter text c m) (mentions n c + mentions_args n m)
| X_unwrap filter text c m : expansion n (unwrap_code filter text c m) (mentions n c + mentions_args n m)
| X_binop filter op l r m : expansion n (binop_code filter op l r m) (mentions n l + mentions n r + mentions_args n m)
| X_dbg filter es : expansion n (dbg_code filter es) (mentions_all n (map snd es))
| X_debug b c k : expansion n c k -> expansion n (debug_code b c) k.

(** The [timestamp!] of a program. *)
Definition stamp_code (tm : option (bytes * list nat)) : option code :=
  match tm with Some (s, ns) => timestamp_code (invoke s ns) | None => None end.
Definition stamp_ok (tm : option (bytes * list nat)) : Prop :=
  match tm with Some (s, ns) => accepts s (length ns) | None => True end.

Section Programs.
  Context {world : Type}.
  Context (user : nat -> names -> world -> list LoggerModel.task * world * (value + leave)).
  Context (equal : value -> value -> world -> list LoggerModel.task * world * (bool + leave)).
  Context (items : names) (tm : option (bytes * list nat)) (filter : level -> option bool).

  (** A piece of generated code compiles, and executing it does [evs]. *)
  Definition does (c : option code) (en : names) (w : world) (evs : list event) (w' : world) (r : result) : Prop :=
    exists c', c = Some c' /\ execute user equal items (stamp_code tm) c' en w = (evs, w', r).

  (** The timestamp is taken: its expressions are evaluated and written. *)
  Definition stamped (w : world) (evs : list event) (w' : world) : Prop :=
    match tm with
    | None => evs = [] /\ w' = w
    | Some (s, ns) => exists e1 vs, evaluated user (stamp_names items) ns w e1 w' vs /\ evs = e1 ++ puts s vs
    end.

  (** A statement of level [l] with the format string [s]: the expressions [ns] are evaluated, and
      then the frame is written with their values and [more], if the level is enabled. *)
  Inductive reports (en : names) (l : level) (s : bytes) (ns : list nat) (more : list aval) (w : world) : list event -> world -> Prop :=
  | Reports_on e1 w1 vs tevs w2 : filter l = Some true -> evaluated user en ns w e1 w1 vs -> stamped w1 tevs w2 ->
      reports en l s ns more w (e1 ++ frame (ForLevel l) s tevs (vs ++ more)) w2
  | Reports_off e1 w1 vs : filter l <> Some true -> evaluated user en ns w e1 w1 vs -> reports en l s ns more w e1 w1.

  (** [dbg!]: each expression is evaluated and reported before the next one is evaluated. *)
  Inductive debugs (en : names) : list (bytes * nat) -> world -> list event -> world -> list value -> Prop :=
  | Debugs_nil w : debugs en [] w [] w []
  | Debugs_cons text n es w ts w1 a e1 w2 e2 w3 vs : user n en w = (ts, w1, inl (VoArg a)) ->
      reports (bind en tmp (VoArg a)) LTrace (escape text ++ lit " = {}") [] [a] w1 e1 w2 ->
      debugs en es w2 e2 w3 vs -> debugs en ((text, n) :: es) w (EExpr n ts :: e1 ++ e2) w3 (VoArg a :: vs).
End Programs.
