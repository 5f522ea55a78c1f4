(** Property C78: what a macro says arrives, whatever its arguments do. *)
From Verif Require Import Base Utf8 ParserModel FormatSpec DecoderModel EncodeModel EncodeSpec DisplayModel TextSpec TextMain MacroModel MacroSpec MacroExamples MacroExact.
From Verif Require Import ExpandModel ExpandSpec ExpandExamples ArriveSpec ArriveMain ArriveExamples.
From Verif Require LoggerModel.

Section Statements.
  Context (X : externals) (addr : bytes -> Z) (tbl : table).
  Notation reads := (reads X addr tbl).
  Notation stored := (stored addr tbl).
  Notation says_then := (says_then X addr tbl).
  Context {world : Type}.
  Context (user : nat -> names -> world -> list LoggerModel.task * world * (value + leave)).
  Context (equal : value -> value -> world -> list LoggerModel.task * world * (bool + leave)).
  Context (items : names) (tm : option (bytes * list nat)) (filter : level -> option bool).
  Notation evaluated := (evaluated user).
  Notation stamped := (stamped user items tm).
  Notation does := (does user equal items tm).
  Context (timing : timed addr tbl user items tm).

  (** C78.  Log statements: what the arguments do with the logger, then the line with their values. *)
  Theorem C78_log : stamp_ok tm -> forall en l s ns w e1 w1 vs tevs w2 text, filter l = Some true ->
    evaluated en ns w e1 w1 vs -> stamped w1 tevs w2 -> stored (Some l) s -> reads s vs text ->
    exists evs, does (log_code filter l (invoke s ns)) en w evs w2 (Val VoUnit) /\ says_then evs (expr_tasks e1) (Some l) text [].
  Proof. exact (log_arrives X addr tbl user equal items tm filter timing). Qed.

  Theorem C78_println : stamp_ok tm -> forall en s ns w e1 w1 vs tevs w2 text,
    evaluated en ns w e1 w1 vs -> stamped w1 tevs w2 -> stored None s -> reads s vs text ->
    exists evs, does (println_code (invoke s ns)) en w evs w2 (Val VoUnit) /\ says_then evs (expr_tasks e1) None text [].
  Proof. exact (println_arrives X addr tbl user equal items tm filter timing). Qed.

  (** [panic!], [todo!], [unimplemented!], [unreachable!]: then the panic. *)
  Theorem C78_panic : stamp_ok tm -> filter LError = Some true -> forall z tr zt tt, In (z, tr, zt, tt) panic_texts ->
    forall en w,
    (forall tevs w2, stamped w tevs w2 -> stored (Some LError) z ->
      exists evs, does (panic_like_code filter z tr None) en w evs w2 (Exit Unwinds) /\ says_then evs [] (Some LError) zt [LoggerModel.TPanic]) /\
    (forall s ns e1 w1 vs tevs w2 text, evaluated en ns w e1 w1 vs -> stamped w1 tevs w2 -> stored (Some LError) (tr s) -> reads s vs text ->
      exists evs, does (panic_like_code filter z tr (Some (invoke s ns))) en w evs w2 (Exit Unwinds) /\
        says_then evs (expr_tasks e1) (Some LError) (tt text) [LoggerModel.TPanic]).
  Proof. exact (panic_arrives X addr tbl user equal items tm filter timing). Qed.

  Theorem C78_assert : stamp_ok tm -> filter LError = Some true -> forall en text n m w ts w0, user n en w = (ts, w0, inl (VoBool false)) ->
    forall e1 w1 vs tevs w2 msg, evaluated en (message_exprs m) w0 e1 w1 vs -> stamped w1 tevs w2 -> stored (Some LError) (assert_text text m) ->
    match m with Some (s, _) => exists t, reads s vs t /\ msg = quoted t | None => msg = quoted (lit "assertion failed: " ++ text) end ->
    exists evs, does (assert_code filter text (CUser n) (invoke_message m)) en w evs w2 (Exit Unwinds) /\
      says_then evs (ts ++ expr_tasks e1) (Some LError) msg [LoggerModel.TPanic].
  Proof. exact (assert_arrives X addr tbl user equal items tm filter timing). Qed.

  Theorem C78_unwrap : stamp_ok tm -> filter LError = Some true -> forall en text n m w ts w0 v t e, user n en w = (ts, w0, inl v) ->
    v = VoErr (VoArg (AvFmt t e)) \/ v = VoNone /\ AvFmt t e = no_value ->
    forall e1 w1 vs tevs w2 msg, evaluated (bind en unwrap_err (VoArg (AvFmt t e))) (message_exprs m) w0 e1 w1 vs -> stamped w1 tevs w2 ->
    stored (Some LError) (unwrap_message text m) ->
    match m with
    | Some (s, _) => exists x, reads s vs x /\ msg = quoted x
    | None => exists se, printable X addr tbl (Some HDebug) t e se /\ msg = unwrap_text text se
    end ->
    exists evs, does (unwrap_code filter text (CUser n) (invoke_message m)) en w evs w2 (Exit Unwinds) /\
      says_then evs (ts ++ expr_tasks e1) (Some LError) msg [LoggerModel.TPanic].
  Proof. exact (unwrap_arrives X addr tbl user equal items tm filter timing). Qed.

  (** [assert_eq!], [assert_ne!], for messages without indices (C53). *)
  Theorem C78_comparison : stamp_ok tm -> filter LError = Some true -> forall en op l r m w t1 w1 tl a t2 w2 tr b t3 w3 same,
    user l en w = (t1, w1, inl (VoArg (AvFmt tl a))) -> user r en w1 = (t2, w2, inl (VoArg (AvFmt tr b))) ->
    equal (VoArg (AvFmt tl a)) (VoArg (AvFmt tr b)) w2 = (t3, w3, inl same) -> comparison_holds op same = false ->
    forall e1 w4 vs tevs w5 sl sr msg,
    evaluated (compared_names en (VoArg (AvFmt tl a)) (VoArg (AvFmt tr b))) (message_exprs m) w3 e1 w4 vs -> stamped w4 tevs w5 ->
    stored (Some LError) (comparison_message op m) ->
    printable X addr tbl (Some HDebug) tl a sl -> printable X addr tbl (Some HDebug) tr b sr ->
    match m, msg with
    | Some (s, ns), Some t => reads s vs t /\ unindexed s = Z.of_nat (length ns) /\ Z.of_nat (length ns) < 2 ^ 32
    | None, None => True
    | _, _ => False
    end ->
    exists evs, does (binop_code filter op (CUser l) (CUser r) (invoke_message m)) en w evs w5 (Exit Unwinds) /\
      says_then evs (t1 ++ t2 ++ t3 ++ expr_tasks e1) (Some LError) (comparison_text op msg sl sr) [LoggerModel.TPanic].
  Proof. exact (comparison_arrives X addr tbl user equal items tm filter timing). Qed.

  (** [dbg!]; [C68_dbg] is about its values. *)
  Theorem C78_dbg : filter LTrace = Some true -> forall en es w evs w' vs, debugs user items tm filter en es w evs w' vs ->
    (forall text n, In (text, n) es -> stored (Some LTrace) (escape text ++ lit " = {}")) ->
    (forall n en w ts w' v, In n (map snd es) -> user n en w = (ts, w', inl v) -> exists t x s, v = VoArg (AvFmt t x) /\ printable X addr tbl None t x s) ->
    debug_lines X addr tbl user items tm en es w evs.
  Proof. exact (debugs_arrive X addr tbl user items tm filter timing). Qed.
End Statements.

Print Assumptions C78_log. Print Assumptions C78_println. Print Assumptions C78_panic. Print Assumptions C78_assert.
Print Assumptions C78_unwrap. Print Assumptions C78_comparison. Print Assumptions C78_dbg.

Example C78_assert_ex :
  seen (lit "panicked at '{=u8} then {=u8}'") (assert_code all_on (lit "x") (CUser 6) (Some (invoke (lit "{=u8} then {=u8}") [0; 0]%nat))) =
    (Some (Some (lit "panicked at '5 then 6'")), Exit Unwinds) /\
  seen (lit "panicked at 'assertion failed: S {{ x }} . ok ()'") (assert_code all_on (lit "S { x } . ok ()") (CUser 6) None) =
    (Some (Some (lit "panicked at 'assertion failed: S { x } . ok ()'")), Exit Unwinds).
Proof. split; [exact assert_seen|exact assert_text_seen]. Qed.

Example C78_panic_ex : seen (lit "panicked at 'not yet implemented: {=u8}'")
  (panic_like_code all_on (lit "panicked at 'not yet implemented'") (fun f => lit "panicked at 'not yet implemented: " ++ f ++ lit "'") (Some (invoke (lit "{=u8}") [0]%nat))) =
  (Some (Some (lit "panicked at 'not yet implemented: 5'")), Exit Unwinds).
Proof. exact todo_seen. Qed.
