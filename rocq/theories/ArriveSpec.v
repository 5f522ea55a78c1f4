(** What arrives on the host when the generated code of [ExpandModel] has been executed: the
    messages of [MacroSpec], with arguments that are evaluated as in [ExpandSpec]. *)
From Verif Require Import Base Utf8 ParserModel FormatSpec DecoderModel EncodeModel EncodeSpec DisplayModel TextSpec TextMain MacroModel MacroSpec.
From Verif Require Import ExpandModel ExpandSpec.
From Verif Require LoggerModel.

Section Spec.
  Context (X : externals) (addr : bytes -> Z) (tbl : table).

  (** The table has the string [s] of a statement where the linker put it. *)
  Definition stored (l : option level) (s : bytes) : Prop :=
    0 <= addr s < 65536 /\ get_with_level tbl (addr s) = Some (l, s).

  (** The bytes written in a log statement are one frame, which prints [text]. *)
  Definition shown (l : option level) (body : list LoggerModel.task) (text : bytes) : Prop :=
    exists fr, decode tbl (written body) = Ok (fr, length (written body)) /\ f_level fr = l /\ display_message X tbl fr = Some text.

  Context {world : Type}.
  Context (user : nat -> names -> world -> list LoggerModel.task * world * (value + leave)).
  Context (items : names) (tm : option (bytes * list nat)).

  (** The host has the [timestamp!] of the program, and its expressions have values that can be
      sent, and write nothing themselves. *)
  Definition timed : Prop :=
    match tm, t_timestamp tbl with
    | None, None => True
    | Some (s, ns), Some e => e_string e = s /\
        forall w evs w' vs, evaluated user (stamp_names items) ns w evs w' vs ->
          written (expr_tasks evs) = [] /\ exists tys a, arg_types s Strict tys /\ means_args addr tbl tys vs a
    | _, _ => False
    end.

  (** What happened, in order: the tasks [before], then a log statement that prints [text], then [after]. *)
  Definition says_then (evs : list event) (before : list LoggerModel.task) (l : option level) (text : bytes) (after : list LoggerModel.task) : Prop :=
    exists body, tasks_of addr evs (before ++ LoggerModel.TLog body :: after) /\ shown l body text.

  (** [dbg!]: for each expression what it does itself, then its line, before the next one. *)
  Inductive debug_lines (en : names) : list (bytes * nat) -> world -> list event -> Prop :=
  | Lines_nil w : debug_lines en [] w []
  | Lines_cons text n es w ts w1 t x s tevs body w2 e2 : user n en w = (ts, w1, inl (VoArg (AvFmt t x))) -> printable X addr tbl None t x s ->
      stamped user items tm w1 tevs w2 -> let line := frame (ForLevel LTrace) (escape text ++ lit " = {}") tevs [AvFmt t x] in
      tasks_of addr line [LoggerModel.TLog body] -> shown (Some LTrace) body (text ++ lit " = " ++ s) ->
      debug_lines en es w2 e2 -> debug_lines en ((text, n) :: es) w (EExpr n ts :: line ++ e2).
End Spec.

(** The texts of the macros without a comparison, for the text of the user's message. *)
Definition panic_texts : list (bytes * (bytes -> bytes) * bytes * (bytes -> bytes)) :=
  [(lit "panicked at 'explicit panic'", fun f => lit "panicked at '" ++ f ++ lit "'",
    quoted (lit "explicit panic"), quoted);
   (lit "panicked at 'not yet implemented'", fun f => lit "panicked at 'not yet implemented: " ++ f ++ lit "'",
    quoted (lit "not yet implemented"), fun s => quoted (lit "not yet implemented: " ++ s));
   (lit "panicked at 'internal error: entered unreachable code'", fun f => lit "panicked at 'internal error: entered unreachable code: " ++ f ++ lit "'",
    quoted (lit "internal error: entered unreachable code"), fun s => quoted (lit "internal error: entered unreachable code: " ++ s))].
