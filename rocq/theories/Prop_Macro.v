(** Property C53: the messages of the panicking macros and [dbg!]. *)
From Verif Require Import Base Utf8 ParserModel DecoderModel EncodeModel EncodeSpec EncodeExamples DisplayModel
  TextSpec TextMain MacroModel MacroSpec MacroParse MacroProofs MacroExamples MacroExact.

(** What [reads] promises: the host prints the text, and there is only one. *)
Theorem C53_reads : forall X addr tbl f args s, reads X addr tbl f args s ->
  (forall s', reads X addr tbl f args s' -> s' = s) /\
  forall index level rest, 0 <= index < 65536 -> get_with_level tbl index = Some (level, f) -> t_timestamp tbl = None ->
  exists fr n, decode tbl (encode_frame addr index None [] f args ++ rest) = Ok (fr, n) /\
    f_level fr = level /\ display_message X tbl fr = Some s.
Proof.
  intros X addr tbl f args s R. split; [intros s' R'; exact (reads_unique X addr tbl f args s' s R' R)|].
  exact (reads_shown X addr tbl f args s R).
Qed.
Print Assumptions C53_reads.

(** [panic!], [todo!] and [unreachable!]. *)
Theorem C53_panic : forall X addr tbl enabled en,
  stops X addr tbl enabled (panic_macro enabled None) en (quoted (lit "explicit panic")) /\
  stops X addr tbl enabled (todo_macro enabled None) en (quoted (lit "not yet implemented")) /\
  stops X addr tbl enabled (unreachable_macro enabled None) en (quoted (lit "internal error: entered unreachable code")) /\
  forall args s, reads X addr tbl (la_format args) (values en (la_exprs args)) s ->
  stops X addr tbl enabled (panic_macro enabled (Some args)) en (quoted s) /\
  stops X addr tbl enabled (todo_macro enabled (Some args)) en (quoted (lit "not yet implemented: " ++ s)) /\
  stops X addr tbl enabled (unreachable_macro enabled (Some args)) en (quoted (lit "internal error: entered unreachable code: " ++ s)).
Proof. exact panics_stop. Qed.
Print Assumptions C53_panic.

(** [assert!]: the text of the condition is shown as it is written. *)
Theorem C53_assert : forall X addr tbl enabled text cond en,
  (cond en = true -> passes (assert_macro enabled text cond None) en tt) /\
  (cond en = false -> stops X addr tbl enabled (assert_macro enabled text cond None) en (quoted (lit "assertion failed: " ++ text))) /\
  forall args,
  (cond en = true -> accepted args -> passes (assert_macro enabled text cond (Some args)) en tt) /\
  (cond en = false -> forall s, reads X addr tbl (la_format args) (values en (la_exprs args)) s ->
    stops X addr tbl enabled (assert_macro enabled text cond (Some args)) en (quoted s)).
Proof. exact assert_stops. Qed.
Print Assumptions C53_assert.

(** The [debug_] variants do the same with debug assertions, and nothing without. *)
Theorem C53_debug : forall X addr tbl enabled st en,
  (forall s, stops X addr tbl enabled st en s -> stops X addr tbl enabled (debug_only true st) en s) /\
  (passes st en tt -> passes (debug_only true st) en tt) /\
  (st <> None -> passes (debug_only false st) en tt).
Proof. exact debug_stops. Qed.
Print Assumptions C53_debug.

Example C53_debug_ex : map (fun d => outcome_of (debug_only d (assert_macro all_levels (lit "x") (fun _ => false) None)) no_scope) [true; false] =
  [Some (says_error (lit "panicked at 'assertion failed: x'"), None); Some ([], Some tt)].
Proof. vm_compute. reflexivity. Qed.

Example C53_assert_ex :
  outcome_of (assert_macro all_levels (lit "S { x } . ok ()") (fun _ => false) None) no_scope =
    Some (says_error (lit "panicked at 'assertion failed: S { x } . ok ()'"), None) /\
  outcome_of (assert_macro all_levels [] (fun _ => false) (Some (MkLogArgs (lit "{1} before {0}") [u8 1; u8 2]))) no_scope =
    Some (says_error (lit "panicked at '2 before 1'"), None).
Proof. exact assert_ex. Qed.

(** [unwrap!]. *)
Theorem C53_unwrap : forall X addr tbl enabled A text (value : expr (unwrapped A)) en,
  (forall r, value en = UOk r \/ value en = USome r -> passes (unwrap_macro enabled text value None) en r) /\
  (forall t v se, value en = UErr t v -> printable X addr tbl (Some HDebug) t v se ->
    stops X addr tbl enabled (unwrap_macro enabled text value None) en (unwrap_text text se)) /\
  (value en = UNone -> linked addr tbl none_error ->
    stops X addr tbl enabled (unwrap_macro enabled text value None) en (unwrap_text text none_error)) /\
  forall args, independent [unwrap_err] (la_exprs args) ->
  (forall r, value en = UOk r \/ value en = USome r -> accepted args -> passes (unwrap_macro enabled text value (Some args)) en r) /\
  ((exists t v, value en = UErr t v) \/ value en = UNone ->
    forall s, reads X addr tbl (la_format args) (values en (la_exprs args)) s ->
    stops X addr tbl enabled (unwrap_macro enabled text value (Some args)) en (quoted s)).
Proof. exact unwrap_stops. Qed.
Print Assumptions C53_unwrap.

Example C53_unwrap_ex :
  outcome_of (unwrap_macro (A := unit) all_levels (lit "f ({ 1 })") (fun _ => UNone) None) no_scope =
  Some (says_error (lit "panicked at 'unwrap failed: f ({ 1 })'" ++ [10] ++ lit "error: `Unwrap of a None option value`"), None).
Proof. exact unwrap_ex. Qed.

(** [assert_eq!] and [assert_ne!], when no parameter of the message has an index and no
    argument uses the names of the macro. *)
Theorem C53_comparison : forall X addr tbl enabled op tl tr left right eq args en, simple_message args ->
  let l := left en in let r := right en in
  let st := binop_macro enabled op tl tr left right eq args in
  (comparison_holds op (eq l r) = true -> passes st en tt) /\
  (comparison_holds op (eq l r) = false -> forall sl sr msg,
    printable X addr tbl (Some HDebug) tl l sl -> printable X addr tbl (Some HDebug) tr r sr ->
    match args, msg with
    | Some a, Some s => reads X addr tbl (la_format a) (values en (la_exprs a)) s
    | None, None => True
    | _, _ => False
    end -> stops X addr tbl enabled st en (comparison_text op msg sl sr)).
Proof. exact comparison_stops. Qed.
Print Assumptions C53_comparison.

Example C53_comparison_ex :
  outcome_of (binop_macro all_levels Eq u8_ty u8_ty (fun _ => VNum 1) (fun _ => VNum 2)
    (fun a b => match a, b with VNum x, VNum y => x =? y | _, _ => false end)
    (Some (MkLogArgs (lit "{=u8}{{{}}}") [fun _ => AvPrim (VNum 7); u8 8]))) no_scope =
  Some (says_error (lit "panicked at 'assertion failed: `(left == right)`: 7{8}'" ++ [10] ++ lit " left: `1`" ++ [10] ++ lit "right: `2`"), None).
Proof. exact eq_ex. Qed.

(** Messages whose parameters all have an index do not compile, whatever they are. *)
Theorem C53_indexed_refuted : forall enabled op tl tr left right eq a,
  accepted a -> all_indexed (la_format a) -> la_exprs a <> [] ->
  binop_macro enabled op tl tr left right eq (Some a) = None.
Proof. exact (comparison_indexed (fun _ => 0)). Qed.
Print Assumptions C53_indexed_refuted.

(** Such a message, which [panic!] accepts. *)
Example C53_indexed_ex : let a := MkLogArgs (lit "bits {0=4..8}") [fun _ => AvBits W8 1] in
  accepted a /\ binop_macro all_levels Ne u8_ty u8_ty (fun _ => VNum 1) (fun _ => VNum 2) (fun _ _ => false) (Some a) = None /\
  panic_macro all_levels (Some a) <> None.
Proof.
  split; [eexists; split; [vm_compute; reflexivity|reflexivity]|]. split; [vm_compute; reflexivity|vm_compute; discriminate].
Qed.

(** For every message that the log macros accept: it does not compile unless as many parameters as there are arguments have
    no index, and then it says what it should, also if further parameters have indices. *)
Theorem C53_comparison_exact : forall X addr tbl enabled op tl tr left right eq a en,
  accepted a -> Z.of_nat (length (la_exprs a)) < 2 ^ 32 ->
  let l := left en in let r := right en in
  let st := binop_macro enabled op tl tr left right eq (Some a) in
  (unindexed (la_format a) <> Z.of_nat (length (la_exprs a)) -> st = None) /\
  (unindexed (la_format a) = Z.of_nat (length (la_exprs a)) ->
    (comparison_holds op (eq l r) = true -> passes st en tt) /\
    (comparison_holds op (eq l r) = false -> independent [left_val; right_val] (la_exprs a) -> forall sl sr s,
      printable X addr tbl (Some HDebug) tl l sl -> printable X addr tbl (Some HDebug) tr r sr ->
      reads X addr tbl (la_format a) (values en (la_exprs a)) s -> stops X addr tbl enabled st en (comparison_text op (Some s) sl sr))).
Proof. exact comparison_exact. Qed.
Print Assumptions C53_comparison_exact.

Example C53_comparison_exact_ex : unindexed (lit "{} {{{0}}} {1=u8:x}") = 1 /\
  outcome_of (binop_macro all_levels Ne u8_ty u8_ty (fun _ => VNum 1) (fun _ => VNum 1) (fun _ _ => true)
    (Some (MkLogArgs (lit "{} {{{0}}}") [u8 8]))) no_scope =
  Some (says_error (lit "panicked at 'assertion failed: `(left != right)`: 8 {8}'" ++ [10] ++ lit "left/right: `1`"), None).
Proof. split; vm_compute; reflexivity. Qed.

(** The names bound by the macro hide the caller's. *)
Theorem C53_capture_refuted : exists en a,
  outcome_of (panic_macro all_levels (Some a)) en = Some (says_error (lit "panicked at '7'"), None) /\
  outcome_of (binop_macro all_levels Eq u8_ty u8_ty (fun _ => VNum 1) (fun _ => VNum 2) (fun _ _ => false) (Some a)) en =
    Some (says_error (lit "panicked at 'assertion failed: `(left == right)`: 1'" ++ [10] ++ lit " left: `1`" ++ [10] ++ lit "right: `2`"), None).
Proof. exists left_scope, (MkLogArgs (lit "{}") [bound left_val]). exact capture_ex. Qed.
Print Assumptions C53_capture_refuted.

(** [dbg!]: one trace statement for every expression, in order, with the text of the
    expression and its value; the values are returned. *)
Theorem C53_dbg : forall X addr tbl enabled es en, exists run ls, dbg_macro enabled es = Some run /\
  run en = (ls, Some (map (fun x => snd x en) es)) /\
  (enabled LTrace = false -> ls = []) /\
  (enabled LTrace = true ->
    match es with
    | [] => exists f, ls = [(LTrace, f, [])] /\ reads X addr tbl f [] []
    | _ => debugged X addr tbl en es ls
    end).
Proof. exact dbg_logs. Qed.
Print Assumptions C53_dbg.

Example C53_dbg_ex :
  outcome_of (dbg_macro all_levels [(lit "{ x }", u8_ty, fun _ => VNum 3); (lit "y", u8_ty, fun _ => VNum 4)]) no_scope =
  Some ([(LTrace, Some (Some (lit "{ x } = 3"))); (LTrace, Some (Some (lit "y = 4")))], Some [VNum 3; VNum 4]).
Proof. exact dbg_ex. Qed.
