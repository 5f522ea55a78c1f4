(** Property C68: when the code that the macros generate evaluates the user's expressions. *)
From Verif Require Import Base Numerals ParserModel FormatSpec DecoderModel EncodeModel MacroModel MacroSpec MacroExact
  ExpandModel ExpandSpec ExpandProofs ExpandMain ExpandOnce ExpandExamples.
From Verif Require LoggerModel LoggerSpec.

Section Statements.
  Context {world : Type}.
  Context (user : nat -> names -> world -> list LoggerModel.task * world * (value + leave)).
  Context (equal : value -> value -> world -> list LoggerModel.task * world * (bool + leave)).
  Context (items : names) (tm : option (bytes * list nat)) (filter : level -> option bool).
  Notation does := (does user equal items tm).
  Notation reports := (reports user items tm filter).

  (** C68.  A log statement evaluates its arguments in order, whether its level is enabled or not; after that
      it writes one frame with exactly these values, if the level is enabled. *)
  Theorem C68_log : stamp_ok tm -> forall en l s ns w evs w', accepts s (length ns) -> reports en l s ns [] w evs w' ->
    does (log_code filter l (invoke s ns)) en w evs w' (Val VoUnit).
  Proof. exact (log_does user equal items tm filter). Qed.

  Theorem C68_println : stamp_ok tm -> forall en s ns w e1 w1 vs tevs w2, accepts s (length ns) ->
    evaluated user en ns w e1 w1 vs -> stamped user items tm w1 tevs w2 ->
    does (println_code (invoke s ns)) en w (e1 ++ frame ForPrintln s tevs vs) w2 (Val VoUnit).
  Proof. exact (println_does user equal items tm filter). Qed.

  Theorem C68_write : forall en f s ns w ts w0 v e1 w1 vs, accepts s (length ns) -> user f en w = (ts, w0, inl v) ->
    evaluated user (bind en typecheck_formatter v) ns w0 e1 w1 vs ->
    does (write_code (CUser f) (invoke s ns)) en w (EExpr f ts :: e1 ++ ETag s :: puts s vs) w1 (Val VoUnit).
  Proof. exact (write_does user equal items tm). Qed.

  (** Evaluating the arguments is evaluating each of them once, in order; one of two things happens. *)
  Theorem C68_order : forall en ns w evs w' vs, evaluated user en ns w evs w' vs ->
    length vs = length ns /\ exists tss, length tss = length ns /\ evs = map (fun p => EExpr (fst p) (snd p)) (combine ns tss).
  Proof. exact (evaluated_order user). Qed.

  Theorem C68_alternatives : forall en ns, formattable user ns -> forall w,
    (exists evs w' vs, evaluated user en ns w evs w' vs) \/ (exists evs w' x, interrupted user en ns w evs w' x).
  Proof. exact (evaluated_or_interrupted user). Qed.

  (** If an argument does not come back, neither does the statement, and the logger is not touched. *)
  Theorem C68_interrupted : forall en s ns w evs w' x, accepts s (length ns) ->
    (interrupted user en ns w evs w' x ->
      (forall l, does (log_code filter l (invoke s ns)) en w evs w' (Exit x)) /\ does (println_code (invoke s ns)) en w evs w' (Exit x)) /\
    (forall f ts w0 v, user f en w = (ts, w0, inl v) -> interrupted user (bind en typecheck_formatter v) ns w0 evs w' x ->
      does (write_code (CUser f) (invoke s ns)) en w (EExpr f ts :: evs) w' (Exit x)).
  Proof.
    intros en s ns w evs w' x A. split.
    - intros E. split; [intros l; exact (log_interrupted user equal items tm filter en l s ns w evs w' x A E)|exact (println_interrupted user equal items tm en s ns w evs w' x A E)].
    - intros f ts w0 v U E. exact (write_interrupted user equal items tm en f s ns w ts w0 v evs w' x A U E).
  Qed.

  (** The panicking macros: the message is reported like an error, then the panic. *)
  Theorem C68_panic : stamp_ok tm -> forall en z tr w evs w',
    (forall s ns, accepts (tr s) (length ns) -> reports en LError (tr s) ns [] w evs w' ->
      does (panic_like_code filter z tr (Some (invoke s ns))) en w (evs ++ [EPanic]) w' (Exit Unwinds)) /\
    (accepts z 0 -> reports en LError z [] [] w evs w' -> does (panic_like_code filter z tr None) en w (evs ++ [EPanic]) w' (Exit Unwinds)).
  Proof.
    intros T en z tr w evs w'. split.
    - intros s ns. exact (panic_does user equal items tm filter T en z tr s ns w evs w').
    - exact (panic_plain user equal items tm filter T en z tr w evs w').
  Qed.

  (** [assert!]: the condition is evaluated once, the message's arguments only if it is false. *)
  Theorem C68_assert : stamp_ok tm -> forall en text n m w ts w1 b, message_ok m -> user n en w = (ts, w1, inl (VoBool b)) ->
    if b then does (assert_code filter text (CUser n) (invoke_message m)) en w [EExpr n ts] w1 (Val VoUnit)
    else forall evs w', reports en LError (assert_text text m) (message_exprs m) [] w1 evs w' ->
      does (assert_code filter text (CUser n) (invoke_message m)) en w (EExpr n ts :: evs ++ [EPanic]) w' (Exit Unwinds).
  Proof. exact (assert_does user equal items tm filter). Qed.

  (** The [debug_] variants do the same, or nothing at all. *)
  Theorem C68_debug : forall c en w evs w' r, does c en w evs w' r ->
    does (debug_code true c) en w evs w' r /\ does (debug_code false c) en w [] w (Val VoUnit).
  Proof. exact (debug_does user equal items tm). Qed.

  (** [unwrap!]: the value is evaluated once and handed out, or the message reported with the error. *)
  Theorem C68_unwrap : stamp_ok tm -> forall en text n m w ts w1 v, message_ok m -> user n en w = (ts, w1, inl v) ->
    let st := unwrap_code filter text (CUser n) (invoke_message m) in
    (forall r, v = VoOk r \/ v = VoSome r -> does st en w [EExpr n ts] w1 (Val r)) /\
    (forall e, v = VoErr (VoArg e) \/ v = VoNone /\ e = no_value -> forall evs w',
      reports (bind en unwrap_err (VoArg e)) LError (unwrap_message text m) (message_exprs m) (match m with Some _ => [] | None => [e] end) w1 evs w' ->
      does st en w (EExpr n ts :: evs ++ [EPanic]) w' (Exit Unwinds)).
  Proof. exact (unwrap_does user equal items tm filter). Qed.

  (** [assert_eq!], [assert_ne!]: left, right, one comparison; then, if it fails, the message. *)
  Theorem C68_comparison : stamp_ok tm -> forall en op l r m w t1 w1 a t2 w2 b t3 w3 same,
    (forall s ns, m = Some (s, ns) -> accepts s (length ns) /\ unindexed s = Z.of_nat (length ns) /\ Z.of_nat (length ns) < 2 ^ 32) ->
    user l en w = (t1, w1, inl (VoArg a)) -> user r en w1 = (t2, w2, inl (VoArg b)) -> equal (VoArg a) (VoArg b) w2 = (t3, w3, inl same) ->
    let st := binop_code filter op (CUser l) (CUser r) (invoke_message m) in
    if comparison_holds op same then does st en w [EExpr l t1; EExpr r t2; EEqual t3] w3 (Val VoUnit)
    else forall evs w', reports (compared_names en (VoArg a) (VoArg b)) LError (comparison_message op m) (message_exprs m) (comparison_extra op a b) w3 evs w' ->
      does st en w ([EExpr l t1; EExpr r t2; EEqual t3] ++ evs ++ [EPanic]) w' (Exit Unwinds).
  Proof. exact (comparison_does user equal items tm filter). Qed.

  (** [dbg!]: every expression is evaluated and reported before the next, and the values are handed out. *)
  Theorem C68_dbg : stamp_ok tm -> forall en es w evs w' vs, es <> [] -> debugs user items tm filter en es w evs w' vs ->
    does (dbg_code filter (map user_expr es)) en w evs w' (Val (parens_value vs)).
  Proof. exact (dbg_does user equal items tm filter). Qed.

  (** However it ends, no macro evaluates an expression more often than it is written. *)
  Theorem C68_once : forall n c k en w evs w' r, expansion n c k -> ~ In n (message_exprs tm) ->
    does c en w evs w' r -> (evaluations n evs <= k)%nat.
  Proof. exact (at_most_written user equal items tm). Qed.

  (** What the arguments do with the logger they do before the frame, which is one log statement: its bytes
      are those of the frame. *)
  Theorem C68_frame : forall addr en ns w e1 w1 vs tevs w2 p s more,
    evaluated user en ns w e1 w1 vs -> stamped user items tm w1 tevs w2 ->
    exists body, tasks_of addr (e1 ++ frame p s tevs (vs ++ more)) (expr_tasks e1 ++ [LoggerModel.TLog body]) /\
      (forall t, In t (expr_tasks tevs) -> In t body) /\
      (written (expr_tasks tevs) = [] -> exists tvs, length tvs = length (message_exprs tm) /\
        written body = encode_frame addr (addr s) (option_map fst tm) tvs s (vs ++ more)).
  Proof. exact (fun addr => frame_tasks addr user items tm). Qed.

  (** Expressions that do not use the few names that the macros bind have the values they have outside. *)
  Theorem C68_scope :
    (forall xs en en' l s ns more w evs w', avoids user xs ns -> (forall x, ~ In x xs -> en x = en' x) ->
      reports en l s ns more w evs w' -> reports en' l s ns more w evs w') /\
    (forall xs en en' ns w evs w' vs, avoids user xs ns -> (forall x, ~ In x xs -> en x = en' x) ->
      evaluated user en ns w evs w' vs -> evaluated user en' ns w evs w' vs) /\
    (forall en v x, ~ In x [lit "_typecheck_formatter"] -> en x = bind en typecheck_formatter v x) /\
    (forall en v x, ~ In x [lit "_unwrap_err"] -> en x = bind en unwrap_err v x) /\
    (forall en a b x, ~ In x [lit "left_val"; lit "right_val"] -> en x = compared_names en a b x) /\
    (forall x, ~ In x [lit "S"; lit "fmt"] -> items x = stamp_names items x).
  Proof.
    split; [exact (reports_scope user items tm filter)|]. split; [exact (evaluated_scope user)|].
    split; [exact (fun en v x => bind_differs en (lit "_typecheck_formatter") v x)|].
    split; [exact (fun en v x => bind_differs en (lit "_unwrap_err") v x)|].
    split; [exact compared_differs|exact (stamp_differs items)].
  Qed.
End Statements.

(** Timestamps are different: their expressions are evaluated while the logger is held, ... *)
Theorem C68_timestamp_held_refuted : exists tm s evs w r n, stamp_ok tm /\ accepts s 0 /\
  does ex_user ex_equal ex_items tm (log_code all_on LInfo (invoke s [])) ex_scope 5 evs w r /\
  nth_error evs 0 = Some EAcquire /\ nth_error evs (S n) = Some (EExpr 0 []) /\ nth_error evs (S (S (S n))) = Some ERelease.
Proof. exact timestamp_held. Qed.

(** ... a log statement in them is inside the other one, which never ends, ... *)
Theorem C68_timestamp_logs_refuted : exists tm s evs w r, stamp_ok tm /\ accepts s 0 /\
  does ex_user ex_equal ex_items tm (log_code all_on LInfo (invoke s [])) ex_scope 5 evs w r /\
  exists body, tasks_of (fun _ => 1) evs [LoggerModel.TLog body] /\ snd (LoggerSpec.attempt body) = false.
Proof. exact timestamp_logs. Qed.

(** ... an item of the user's with the name [S] is not seen, ... *)
Theorem C68_timestamp_scope_refuted : exists tm s evs w r, stamp_ok tm /\ accepts s 0 /\ ex_items (lit "S") = Some (VoArg (num 99)) /\
  does ex_user ex_equal ex_items tm (log_code all_on LInfo (invoke s [])) ex_scope 5 evs w r /\
  In (EExpr 4 []) evs /\ exists q, In (EPut q 0 (num 0)) evs /\ ~ In (EPut q 0 (num 99)) evs.
Proof. exact timestamp_captures. Qed.

(** ... and with [return] in them the frame has no timestamp. *)
Theorem C68_timestamp_return_refuted : exists tm s evs w, stamp_ok tm /\ accepts s 0 /\
  does ex_user ex_equal ex_items tm (log_code all_on LInfo (invoke s [])) ex_scope 5 evs w (Val VoUnit) /\
  exists body, tasks_of (fun _ => 1) evs [LoggerModel.TLog body] /\
    forall z, written body <> encode_frame (fun _ => 1) 1 (option_map fst tm) [num z] s [].
Proof. exact timestamp_leaves. Qed.

Print Assumptions C68_log. Print Assumptions C68_println. Print Assumptions C68_write. Print Assumptions C68_order.
Print Assumptions C68_alternatives. Print Assumptions C68_interrupted. Print Assumptions C68_panic. Print Assumptions C68_assert.
Print Assumptions C68_debug. Print Assumptions C68_unwrap. Print Assumptions C68_comparison. Print Assumptions C68_dbg.
Print Assumptions C68_once. Print Assumptions C68_frame. Print Assumptions C68_scope.
Print Assumptions C68_timestamp_held_refuted. Print Assumptions C68_timestamp_logs_refuted.
Print Assumptions C68_timestamp_scope_refuted. Print Assumptions C68_timestamp_return_refuted.

Example C68_log_ex : go None (log_code all_on LInfo (invoke two [0; 0]%nat)) 5 =
  ([EExpr 0 []; EExpr 0 []; EAcquire; EHeader (ForLevel LInfo) two; EPut (ps two) 0 (num 5); EPut (ps two) 1 (num 6); ERelease], 7, Val VoUnit).
Proof. exact ex_log. Qed.

Example C68_off_ex : go None (log_code all_off LInfo (invoke two [0; 0]%nat)) 5 = ([EExpr 0 []; EExpr 0 []], 7, Val VoUnit) /\
  go None (log_code all_off LTrace (invoke two [0; 0]%nat)) 5 = ([EExpr 0 []; EExpr 0 []], 7, Val VoUnit).
Proof. exact ex_off. Qed.

Example C68_return_ex : go None (log_code all_on LInfo (invoke two [0; 2]%nat)) 5 = ([EExpr 0 []; EExpr 2 []], 6, Exit Leaves).
Proof. exact ex_return. Qed.

Example C68_nested_ex : let '(evs, _, _) := go None (log_code all_on LInfo (invoke (lit "{=u8}") [1]%nat)) 5 in
  tasks_of (fun _ => 300) evs [LoggerModel.TLog [LoggerModel.TWrite [7; 0]]; LoggerModel.TLog [LoggerModel.TWrite [44; 1]; LoggerModel.TWrite [42]]].
Proof. exact ex_nested. Qed.

Example C68_assert_ex : go None (assert_code all_on (lit "x") (CUser 5) (Some (invoke (lit "{=u8}") [0]%nat))) 5 = ([EExpr 5 []], 5, Val VoUnit) /\
  fst (go None (assert_code all_on (lit "x") (CUser 6) (Some (invoke (lit "{=u8}") [0]%nat))) 5) =
    ([EExpr 6 []; EExpr 0 []; EAcquire; EHeader (ForLevel LError) (lit "panicked at '{=u8}'"); EPut (ps (lit "panicked at '{=u8}'")) 0 (num 5); ERelease; EPanic], 6).
Proof. exact ex_assert. Qed.

Example C68_debug_ex : go None (debug_code false (assert_code all_on (lit "x") (CUser 6) None)) 5 = ([], 5, Val VoUnit).
Proof. exact ex_debug_assert. Qed.

Example C68_dbg_ex : let '(evs, w, r) := go None (dbg_code all_on [(lit "a", CUser 0); (lit "b", CUser 0)]) 5 in
  evaluations 0 evs = 2%nat /\ w = 7 /\ r = Val (VoTuple [VoArg (num 5); VoArg (num 6)]) /\
  map (fun e => match e with EExpr _ _ => 0 | EHeader _ s => Z.of_nat (length s) | _ => 1 end) evs = [0; 1; 6; 1; 1; 0; 1; 6; 1; 1].
Proof. exact ex_dbg. Qed.

(** The message of a comparison sees the macro's [left_val], not the caller's. *)
Example C68_scope_ex : match go None (binop_code all_on Eq (CUser 0) (CUser 1) (Some (invoke (lit "{=u8}") [3]%nat))) 5 with
  | (evs, _, _) => nth_error evs 6 = Some (EPut (ps (comparison_message Eq (Some (lit "{=u8}", [3]%nat)))) 0 (num 5)) end.
Proof. exact ex_captured. Qed.
