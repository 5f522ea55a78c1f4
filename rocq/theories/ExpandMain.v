From Verif Require Import Base Utf8 ParserModel ParserProofs ParserMore FormatSpec RenderProofs PrepareProofs
  DecoderModel EncodeModel EncodeSpec DeriveProofs EncodeMain EncodeTop EncodeExamples DisplayModel TextSpec TextProofs
  TextMain MacroModel MacroSpec MacroParse.
From Verif Require Import MacroProofs MacroExact.
From Verif Require Import ExpandModel ExpandSpec ExpandProofs.
From Verif Require LoggerModel.

(* ------------------------------------------------------------------ *)
(** * Acceptance *)

Lemma accepts_of_expand : forall enabled l a log, expand_parsed enabled l a = Some log -> accepts (la_format a) (length (la_exprs a)).
Proof.
  intros enabled l a log H. unfold expand_parsed in H. destruct (parse (la_format a) Strict) as [frags| | |] eqn:P; try discriminate.
  destruct (expected_arg_count frags =? Z.of_nat (length (la_exprs a))) eqn:E; [|discriminate]. exists frags. split; [exact P|lia].
Qed.

Lemma accepts_accepted : forall s es, accepts s (length es) -> accepted (MkLogArgs s es).
Proof. intros s es (frags & P & E). exists frags. auto. Qed.

Definition some_expr : MacroModel.expr aval := fun _ => AvText [].

Ltac nb := split; vm_compute; intuition discriminate.

Lemma accepts_between : forall s n a b, accepts s n -> no_braces a -> a <> [] -> no_braces b -> b <> [] -> accepts (a ++ s ++ b) n.
Proof.
  intros s n a b H Ha An Hb Bn. pose (es := repeat some_expr n). assert (L : length es = n) by apply repeat_length.
  rewrite <- L in H. destruct (accepted_compiles (fun _ => 0) (fun _ => true) LError s a b es (accepts_accepted _ _ H) Ha An Hb Bn) as (log & E).
  apply accepts_of_expand in E. cbn [la_format la_exprs] in E. now rewrite L in E.
Qed.

Lemma accepts_quoted : forall s n, accepts s n -> accepts (lit "panicked at '" ++ s ++ lit "'") n.
Proof. intros s n H. apply accepts_between; [exact H|nb|discriminate|nb|discriminate]. Qed.

Lemma accepts_assert : forall text, accepts (lit "panicked at 'assertion failed: " ++ escaped_expr_string text ++ lit "'") 0.
Proof.
  intros text. apply (accepts_between (escaped_expr_string text) 0); [|nb|discriminate|nb|discriminate].
  rewrite escaped_escape. exists (match text with [] => [] | _ => [FLit text] end). split; [apply parse_escape|]. now destruct text.
Qed.

Lemma accepts_unwrap : forall text,
  accepts (lit "panicked at 'unwrap failed: " ++ escaped_expr_string text ++ lit "'" ++ [10] ++ lit "error: `{:?}`") 1.
Proof.
  intros text. destruct (expand_parsed (fun _ => true) LError (MkLogArgs (lit "panicked at 'unwrap failed: " ++ escaped_expr_string text ++ lit "'" ++ [10] ++ lit "error: `{:?}`") [bound unwrap_err])) as [log|] eqn:E.
  - apply accepts_of_expand in E. exact E.
  - exfalso. pose (X := MkExternals (fun _ => []) (fun _ => []) (fun s => s) (fun s => s) (fun _ s => s)).
    destruct (unwrap_stops X (fun _ => 0) (MkTable None [] [] EncRzcobs) (fun _ => true) unit text (fun _ => UOk tt) (fun _ => None)) as (H & _).
    destruct (H tt (or_introl eq_refl)) as (run & R & _). unfold unwrap_macro in R. rewrite E in R. discriminate.
Qed.

Lemma accepts_dbg : forall text, accepts (escaped_expr_string text ++ lit " = {}") 1.
Proof.
  intros text. destruct (dbg_compiles (fun _ => 0) (fun _ => true) text) as (log & E & _). apply accepts_of_expand in E. exact E.
Qed.

Lemma accepts_empty : accepts [] 0.
Proof. exists []. split; reflexivity. Qed.

(** Comparisons: messages in which as many parameters as there are arguments have no index. *)
Lemma accepts_comparison : forall op m, (forall s ns, m = Some (s, ns) -> accepts s (length ns) /\ unindexed s = Z.of_nat (length ns) /\ Z.of_nat (length ns) < 2 ^ 32) ->
  accepts (in_format (binop_invocation op (invoke_message m))) (length (in_exprs (binop_invocation op (invoke_message m)))).
Proof.
  intros op m H. pose (args := match m with Some (s, ns) => Some (MkLogArgs s (repeat some_expr (length ns))) | None => None end).
  assert (S : exists log, expand_parsed (fun _ => true) LError (binop_args op args) = Some log).
  { destruct m as [[s ns]|]; unfold args.
    - destruct (H s ns eq_refl) as ((frags & P & C) & N & L).
      destruct (binop_expected (fun _ => 0) (fun _ => true) op (MkLogArgs s (repeat some_expr (length ns))) frags P) as [_ Yes];
        cbn [la_exprs la_format] in *; rewrite ?repeat_length in *; [exact C|exact L|]. destruct (Yes N) as (log & E & _). eauto.
    - destruct (comparison_compiles (fun _ => 0) (fun _ => true) op None I) as (log & E & _). eauto. }
  destruct S as (log & E). apply accepts_of_expand in E.
  replace (in_format (binop_invocation op (invoke_message m))) with (la_format (binop_args op args)); [|unfold args; now destruct m as [[s ns]|], op].
  replace (length (in_exprs (binop_invocation op (invoke_message m)))) with (length (la_exprs (binop_args op args))); [exact E|].
  unfold args; destruct m as [[s ns]|], op; cbn [binop_args binop_invocation invoke_message invoke la_exprs in_exprs]; rewrite !app_length, ?repeat_length, ?map_length; reflexivity.
Qed.

(* ------------------------------------------------------------------ *)
(** * The macros *)

Section Main.
  Context {world : Type}.
  Context (user : nat -> names -> world -> list LoggerModel.task * world * (value + leave)).
  Context (equal : value -> value -> world -> list LoggerModel.task * world * (bool + leave)).
  Context (items : names) (tm : option (bytes * list nat)) (filter : level -> option bool) (TM : stamp_ok tm).

  Notation stamp := (stamp_function user equal items (stamp_code tm)).
  Notation does := (does user equal items tm).
  Notation stamped := (stamped user items tm).
  Notation reports := (reports user items tm filter).
  Notation evaluated := (evaluated user).
  Notation interrupted := (interrupted user).
  Notation arg_runs := (arg_runs user equal stamp).
  Notation arg_stops := (arg_stops user equal stamp).

  Lemma stamp_code_some : forall s ns, tm = Some (s, ns) -> exists c, timestamp_code (invoke s ns) = Some c.
  Proof using All.
    intros s ns E. pose proof TM as T. rewrite E in T. destruct T as (frags & P & C). unfold timestamp_code, invoke. cbn [in_format in_exprs]. rewrite P.
    unfold codegen. rewrite map_length. replace (expected_arg_count frags =? Z.of_nat (length ns)) with true by lia. eauto.
  Qed.

  Lemma stamped_runs : forall w tevs w', stamped w tevs w' -> stamp w = (tevs, w', Val VoUnit).
  Proof using All.
    intros w tevs w' H. unfold ExpandSpec.stamped in H. unfold stamp_function, stamp_code.
    assert (K : tm = None \/ exists s ns, tm = Some (s, ns)) by (clear H; clear; destruct tm as [[s ns]|]; eauto).
    destruct K as [E|(s & ns & E)]; rewrite E in H |- *; [destruct H as [-> ->]; reflexivity|].
    destruct (stamp_code_some s ns E) as (c & C). rewrite C. destruct H as (e1 & vs & V & ->).
    erewrite (timestamp_runs user equal no_stamp (invoke s ns)); [reflexivity|exact C|]. now apply evaluated_runs.
  Qed.

  (** If an expression of the timestamp does not come back, the frame stays without it. *)
  Lemma stamp_interrupted : forall s ns w evs w' x, tm = Some (s, ns) -> interrupted (stamp_names items) ns w evs w' x ->
    stamp w = (evs, w', match x with Leaves => Val VoUnit | Unwinds => Exit Unwinds end).
  Proof using All.
    intros s ns w evs w' x E H. destruct (stamp_code_some s ns E) as (c & C). unfold stamp_function, stamp_code. rewrite E, C.
    erewrite (timestamp_stops user equal no_stamp (invoke s ns)); [|exact C|apply interrupted_stops; exact H]. now destruct x.
  Qed.

  (** Log statements with any arguments. *)
  Lemma reports_exec : forall en l s ns extra more w evs w' c, reports en l s ns more w evs w' ->
    log_code filter l (MkInvocation s (map CUser ns ++ extra)) = Some c ->
    (forall w, arg_runs en extra w [] w (map VoArg more)) ->
    exec user equal stamp c en w = (evs, w', Val VoUnit).
  Proof using All.
    intros en l s ns extra more w evs w' c R C X.
    destruct R as [e1 w1 vs tevs w2 F V T|e1 w1 vs F V]; pose proof (evaluated_runs user equal stamp _ _ _ _ _ _ V) as A;
      pose proof (arg_runs_app _ _ _ _ _ _ _ _ _ A _ _ _ _ (X _)) as B; rewrite app_nil_r, <- map_app in B.
    - erewrite (log_runs user equal stamp filter l _ c en w); [|exact C|exact B]. rewrite F, (stamped_runs _ _ _ T). reflexivity.
    - erewrite (log_runs user equal stamp filter l _ c en w); [|exact C|exact B]. destruct (filter l) as [[|]|]; [contradiction|reflexivity|reflexivity].
  Qed.

  Lemma compiles : forall l s ns extra, accepts s (length ns + length extra) ->
    exists c, log_code filter l (MkInvocation s (map CUser ns ++ extra)) = Some c.
  Proof using. intros l s ns extra H. apply log_code_some. cbn [in_format in_exprs]. now rewrite app_length, map_length. Qed.

  (** Log statements. *)
  Theorem log_does : forall en l s ns w evs w', accepts s (length ns) -> reports en l s ns [] w evs w' ->
    does (log_code filter l (invoke s ns)) en w evs w' (Val VoUnit).
  Proof using All.
    intros en l s ns w evs w' A R. destruct (compiles l s ns []) as (c & C); [now rewrite Nat.add_0_r|].
    exists c. unfold invoke. rewrite <- (app_nil_r (map CUser ns)). split; [exact C|].
    eapply reports_exec; [exact R|exact C|]. intros u. constructor.
  Qed.

  Theorem log_interrupted : forall en l s ns w evs w' x, accepts s (length ns) -> interrupted en ns w evs w' x ->
    does (log_code filter l (invoke s ns)) en w evs w' (Exit x).
  Proof using.
    intros en l s ns w evs w' x A R. destruct (compiles l s ns []) as (c & C); [now rewrite Nat.add_0_r|].
    rewrite app_nil_r in C. exists c. split; [exact C|]. eapply (log_stops user equal stamp); [exact C|]. now apply interrupted_stops.
  Qed.

  (** A frame that is begun and not ended. *)
  Theorem log_unfinished : forall en l s ns w e1 w1 vs ts tns e2 w2 x, accepts s (length ns) -> filter l = Some true -> evaluated en ns w e1 w1 vs ->
    tm = Some (ts, tns) -> interrupted (stamp_names items) tns w1 e2 w2 x ->
    match x with
    | Unwinds => does (log_code filter l (invoke s ns)) en w (e1 ++ EAcquire :: EHeader (ForLevel l) s :: e2) w2 (Exit Unwinds)
    | Leaves => does (log_code filter l (invoke s ns)) en w (e1 ++ frame (ForLevel l) s e2 vs) w2 (Val VoUnit)
    end.
  Proof using All.
    intros en l s ns w e1 w1 vs ts tns e2 w2 x A F V E In. destruct (compiles l s ns []) as (c & C); [now rewrite Nat.add_0_r|]. rewrite app_nil_r in C.
    pose proof (log_runs user equal stamp filter l _ c en w _ _ _ C (evaluated_runs user equal stamp _ _ _ _ _ _ V)) as Q.
    rewrite F, (stamp_interrupted _ _ _ _ _ _ E In) in Q. destruct x; exists c; split; auto.
  Qed.

  Theorem println_does : forall en s ns w e1 w1 vs tevs w2, accepts s (length ns) -> evaluated en ns w e1 w1 vs -> stamped w1 tevs w2 ->
    does (println_code (invoke s ns)) en w (e1 ++ frame ForPrintln s tevs vs) w2 (Val VoUnit).
  Proof using All.
    intros en s ns w e1 w1 vs tevs w2 (frags & P & E) V T.
    assert (C : exists c, println_code (invoke s ns) = Some c).
    { unfold println_code, invoke. cbn [in_format in_exprs]. rewrite P. unfold codegen. rewrite map_length.
      replace (expected_arg_count frags =? Z.of_nat (length ns)) with true by lia. eauto. }
    destruct C as (c & C). exists c. split; [exact C|].
    unfold execute. erewrite (println_runs user equal stamp _ c en w); [|exact C|apply evaluated_runs; exact V]. now rewrite (stamped_runs _ _ _ T).
  Qed.

  Theorem write_does : forall en f s ns w ts w0 v e1 w1 vs, accepts s (length ns) -> user f en w = (ts, w0, inl v) ->
    evaluated (bind en typecheck_formatter v) ns w0 e1 w1 vs ->
    does (write_code (CUser f) (invoke s ns)) en w (EExpr f ts :: e1 ++ ETag s :: puts s vs) w1 (Val VoUnit).
  Proof using.
    intros en f s ns w ts w0 v e1 w1 vs (frags & P & E) U V.
    assert (C : exists c, write_code (CUser f) (invoke s ns) = Some c).
    { unfold write_code, invoke. cbn [in_format in_exprs]. rewrite P. unfold codegen. rewrite map_length.
      replace (expected_arg_count frags =? Z.of_nat (length ns)) with true by lia. eauto. }
    destruct C as (c & C). exists c. split; [exact C|].
    unfold execute. apply (write_runs user equal stamp f (invoke s ns) c en w ts w0 v e1 w1 vs); [exact C|exact U|]. apply evaluated_runs. exact V.
  Qed.

  (* ---------------------------------------------------------------- *)
  (** * Panics *)

  Lemma fail_exec : forall en s ns extra more w evs w', reports en LError s ns more w evs w' -> accepts s (length ns + length extra) ->
    (forall w, arg_runs en extra w [] w (map VoArg more)) ->
    exists c, fail filter (MkInvocation s (map CUser ns ++ extra)) = Some c /\ exec user equal stamp c en w = (evs ++ [EPanic], w', Exit Unwinds).
  Proof using All.
    intros en s ns extra more w evs w' R A X. destruct (compiles LError s ns extra A) as (c & C). unfold fail. rewrite C.
    exists (CSeq c CPanic). split; [reflexivity|]. cbn [exec]. rewrite (reports_exec _ _ _ _ _ _ _ _ _ _ R C X). reflexivity.
  Qed.

  Lemma fail_some : forall s ns extra, accepts s (length ns + length extra) -> exists c, fail filter (MkInvocation s (map CUser ns ++ extra)) = Some c.
  Proof using. intros s ns extra A. destruct (compiles LError s ns extra A) as (c & C). unfold fail. rewrite C. eauto. Qed.

  Lemma no_more : forall en w, arg_runs en [] w [] w (map VoArg []).
  Proof using. intros. constructor. Qed.

  Theorem panic_does : forall en z tr s ns w evs w', accepts (tr s) (length ns) -> reports en LError (tr s) ns [] w evs w' ->
    does (panic_like_code filter z tr (Some (invoke s ns))) en w (evs ++ [EPanic]) w' (Exit Unwinds).
  Proof using All.
    intros en z tr s ns w evs w' A R. unfold panic_like_code, invoke. cbn [in_format in_exprs].
    destruct (fail_exec _ _ _ [] _ _ _ _ R) as (c & C & Q); [now rewrite Nat.add_0_r|apply no_more|].
    rewrite app_nil_r in C. exists c. split; [exact C|exact Q].
  Qed.

  Theorem panic_plain : forall en z tr w evs w', accepts z 0 -> reports en LError z [] [] w evs w' ->
    does (panic_like_code filter z tr None) en w (evs ++ [EPanic]) w' (Exit Unwinds).
  Proof using All.
    intros en z tr w evs w' A R. destruct (fail_exec _ _ _ [] _ _ _ _ R A) as (c & C & Q); [apply no_more|]. exists c. split; [exact C|exact Q].
  Qed.

  Lemma assert_accepts : forall text m, message_ok m -> accepts (assert_text text m) (length (message_exprs m)).
  Proof using.
    intros text [[s ns]|] H; cbn [assert_text message_exprs]; [apply accepts_quoted; exact H|rewrite <- escaped_escape; apply accepts_assert].
  Qed.

  Lemma assert_code_is : forall text n m, assert_code filter text (CUser n) (invoke_message m) =
    match fail filter (MkInvocation (assert_text text m) (map CUser (message_exprs m) ++ [])) with Some c => Some (CIf (CNot (CUser n)) c) | None => None end.
  Proof using. intros text n [[s ns]|]; unfold assert_code, invoke_message, invoke; cbn [in_format in_exprs assert_text message_exprs map app]; rewrite ?escaped_escape, ?app_nil_r; reflexivity. Qed.

  Theorem assert_does : forall en text n m w ts w1 b, message_ok m -> user n en w = (ts, w1, inl (VoBool b)) ->
    if b then does (assert_code filter text (CUser n) (invoke_message m)) en w [EExpr n ts] w1 (Val VoUnit)
    else forall evs w', reports en LError (assert_text text m) (message_exprs m) [] w1 evs w' ->
      does (assert_code filter text (CUser n) (invoke_message m)) en w (EExpr n ts :: evs ++ [EPanic]) w' (Exit Unwinds).
  Proof using All.
    intros en text n m w ts w1 b M U. pose proof (assert_accepts text m M) as A. rewrite <- (Nat.add_0_r (length _)) in A.
    destruct b.
    - destruct (fail_some _ _ [] A) as (c & C). unfold ExpandSpec.does. rewrite assert_code_is, C. eexists. split; [reflexivity|].
      unfold execute. cbn [exec]. rewrite U. reflexivity.
    - intros evs w' R. destruct (fail_exec _ _ _ [] _ _ _ _ R A) as (c & C & Q); [apply no_more|].
      unfold ExpandSpec.does. rewrite assert_code_is, C. eexists. split; [reflexivity|].
      unfold execute. cbn [exec]. rewrite U. cbn [andThen negb app]. rewrite Q. reflexivity.
  Qed.

  Theorem debug_does : forall c en w evs w' r, does c en w evs w' r ->
    does (debug_code true c) en w evs w' r /\ does (debug_code false c) en w [] w (Val VoUnit).
  Proof using.
    intros c en w evs w' r (c' & -> & Q). split; eexists; (split; [reflexivity|]); unfold execute in *; cbn [exec andThen]; [|reflexivity].
    rewrite Q. reflexivity.
  Qed.

  (** [unwrap!]. *)
  Definition unwrap_extra (m : option (bytes * list nat)) : list code := match m with Some _ => [] | None => [CName unwrap_err] end.

  Lemma unwrap_accepts : forall text m, message_ok m -> accepts (unwrap_message text m) (length (message_exprs m) + length (unwrap_extra m)).
  Proof using.
    intros text [[s ns]|] H; cbn [unwrap_message unwrap_extra message_exprs length]; [rewrite Nat.add_0_r; now apply accepts_quoted|rewrite <- escaped_escape; apply accepts_unwrap].
  Qed.

  Lemma unwrap_code_is : forall text n m, unwrap_code filter text (CUser n) (invoke_message m) =
    match fail filter (MkInvocation (unwrap_message text m) (map CUser (message_exprs m) ++ unwrap_extra m)) with
    | Some c => Some (CMatch (CIntoResult (CUser n)) [(POkay (lit "res"), CName (lit "res")); (PError unwrap_err, c)])
    | None => None
    end.
  Proof using. intros text n [[s ns]|]; unfold unwrap_code, invoke_message, invoke; cbn [in_format in_exprs unwrap_message unwrap_extra message_exprs map app]; rewrite ?escaped_escape, ?app_nil_r; reflexivity. Qed.

  Theorem unwrap_does : forall en text n m w ts w1 v, message_ok m -> user n en w = (ts, w1, inl v) ->
    let st := unwrap_code filter text (CUser n) (invoke_message m) in
    (forall r, v = VoOk r \/ v = VoSome r -> does st en w [EExpr n ts] w1 (Val r)) /\
    (forall e, v = VoErr (VoArg e) \/ v = VoNone /\ e = no_value -> forall evs w',
      reports (bind en unwrap_err (VoArg e)) LError (unwrap_message text m) (message_exprs m) (match m with Some _ => [] | None => [e] end) w1 evs w' ->
      does st en w (EExpr n ts :: evs ++ [EPanic]) w' (Exit Unwinds)).
  Proof using All.
    intros en text n m w ts w1 v M U st. pose proof (unwrap_accepts text m M) as A. split.
    - intros r V. destruct (fail_some _ _ _ A) as (c & C). unfold ExpandSpec.does, st. rewrite unwrap_code_is, C. eexists. split; [reflexivity|].
      unfold execute. cbn [exec]. rewrite U. cbn [andThen]. destruct V as [-> | ->]; cbn [into_result_value andThen matches exec]; rewrite bind_same; reflexivity.
    - intros e V evs w' R. destruct (fail_exec _ _ _ (unwrap_extra m) _ _ _ _ R A) as (c & C & Q).
      { intros u. destruct m as [[s ns]|]; cbn [unwrap_extra map]; [constructor|].
        change (@nil event) with (@nil event ++ []). econstructor; [|constructor]. cbn [exec]. now rewrite bind_same. }
      unfold ExpandSpec.does, st. rewrite unwrap_code_is, C. eexists. split; [reflexivity|].
      unfold execute. cbn [exec]. rewrite U. cbn [andThen].
      destruct V as [-> | [-> ->]]; cbn [into_result_value andThen matches app]; unfold no_value in Q; rewrite Q; reflexivity.
  Qed.

  (** Comparisons. *)
  Theorem comparison_does : forall en op l r m w t1 w1 a t2 w2 b t3 w3 same,
    (forall s ns, m = Some (s, ns) -> accepts s (length ns) /\ unindexed s = Z.of_nat (length ns) /\ Z.of_nat (length ns) < 2 ^ 32) ->
    user l en w = (t1, w1, inl (VoArg a)) -> user r en w1 = (t2, w2, inl (VoArg b)) -> equal (VoArg a) (VoArg b) w2 = (t3, w3, inl same) ->
    let st := binop_code filter op (CUser l) (CUser r) (invoke_message m) in
    if comparison_holds op same then does st en w [EExpr l t1; EExpr r t2; EEqual t3] w3 (Val VoUnit)
    else forall evs w', reports (compared_names en (VoArg a) (VoArg b)) LError (comparison_message op m) (message_exprs m) (comparison_extra op a b) w3 evs w' ->
      does st en w ([EExpr l t1; EExpr r t2; EEqual t3] ++ evs ++ [EPanic]) w' (Exit Unwinds).
  Proof using All.
    intros en op l r m w t1 w1 a t2 w2 b t3 w3 same M U1 U2 U3 st. pose proof (accepts_comparison op m M) as A.
    pose (extra := match op with Eq => [CName left_val; CName right_val] | Ne => [CName left_val] end).
    assert (I : binop_invocation op (invoke_message m) = MkInvocation (comparison_message op m) (map CUser (message_exprs m) ++ extra)).
    { unfold comparison_message, extra. destruct m as [[s ns]|], op; reflexivity. }
    rewrite I in A. cbn [in_format in_exprs] in A. rewrite app_length, map_length in A.
    assert (NE : left_val <> right_val) by discriminate.
    assert (Run : forall d, exec user equal stamp (CMatch (CTuple [CRef (CUser l); CRef (CUser r)]) [(PNames [left_val; right_val],
        CIf (match op with Eq => CNot (CEqual (CDeref (CName left_val)) (CDeref (CName right_val))) | Ne => CEqual (CDeref (CName left_val)) (CDeref (CName right_val)) end) d)]) en w =
      andThen ([EExpr l t1; EExpr r t2; EEqual t3], w3, Val (VoBool (negb (comparison_holds op same))))
        (fun v w => match v with VoBool true => exec user equal stamp d (compared_names en (VoArg a) (VoArg b)) w | VoBool false => ([], w, Val VoUnit) | _ => stuck w end)).
    { intros d. cbn [exec]. rewrite U1. cbn [andThen]. rewrite U2. cbn [andThen rev app matches bind_all].
      unfold compared_names. destruct op; cbn [exec]; rewrite bind_same, (bind_other _ _ _ _ (not_eq_sym NE)), bind_same; cbn [andThen app]; rewrite U3; cbn [andThen app comparison_holds];
        rewrite ?negb_involutive; destruct same; cbn [negb]; destruct (exec user equal stamp d (bind (bind en left_val (VoArg a)) right_val (VoArg b)) w3) as [[? ?] ?]; reflexivity. }
    assert (SC : forall c, fail filter (MkInvocation (comparison_message op m) (map CUser (message_exprs m) ++ extra)) = Some c ->
      st = Some (CMatch (CTuple [CRef (CUser l); CRef (CUser r)]) [(PNames [left_val; right_val],
        CIf (match op with Eq => CNot (CEqual (CDeref (CName left_val)) (CDeref (CName right_val))) | Ne => CEqual (CDeref (CName left_val)) (CDeref (CName right_val)) end) c)])).
    { intros c C. unfold st, binop_code. rewrite I, C. destruct op; reflexivity. }
    destruct (comparison_holds op same) eqn:Hs.
    - destruct (fail_some _ _ _ A) as (c & C). exists (match st with Some c => c | None => CUnit end). rewrite (SC c C). split; [reflexivity|].
      unfold execute. rewrite Run. reflexivity.
    - intros evs w' R. destruct (fail_exec _ _ _ extra _ _ _ _ R A) as (c & C & Q).
      { intros u. unfold extra, comparison_extra, compared_names. destruct op; cbn [map].
        - change (@nil event) with (@nil event ++ ([] ++ [])). econstructor; [cbn [exec]; rewrite (bind_other _ _ _ _ (not_eq_sym NE)), bind_same; reflexivity|].
          econstructor; [cbn [exec]; rewrite bind_same; reflexivity|]. constructor.
        - change (@nil event) with (@nil event ++ []). econstructor; [cbn [exec]; rewrite (bind_other _ _ _ _ (not_eq_sym NE)), bind_same; reflexivity|]. constructor. }
      exists (match st with Some c => c | None => CUnit end). rewrite (SC c C). split; [reflexivity|].
      unfold execute. rewrite Run. cbn [andThen negb]. rewrite Q. reflexivity.
  Qed.

  (* ---------------------------------------------------------------- *)
  (** * [dbg!] *)

  Lemma parens_plain : forall en cs w, exec user equal stamp (parens (map CRef cs)) en w = exec user equal stamp (parens cs) en w.
  Proof using.
    intros en [|c [|d cs]] w; [reflexivity|reflexivity|]. cbn [map parens]. rewrite !exec_tuple. generalize (@nil value) as done. revert w.
    change (CRef c :: CRef d :: map CRef cs) with (map CRef (c :: d :: cs)). generalize (c :: d :: cs) as l.
    induction l as [|a l IH]; intros w done; [reflexivity|]. cbn [map exec_all]. change (exec user equal stamp (CRef a) en w) with (exec user equal stamp a en w).
    destruct (exec user equal stamp a en w) as [[evs w'] [v|x|]]; cbn [andThen]; [|reflexivity|reflexivity]. now rewrite IH.
  Qed.

  Lemma dbg_codes_run : forall en es w evs w' vs, debugs user items tm filter en es w evs w' vs ->
    exists cs, dbg_codes filter (map user_expr es) = Some cs /\ arg_runs en cs w evs w' vs.
  Proof using All.
    induction 1 as [w|text n es w ts w1 a e1 w2 e2 w3 vs U R D IH].
    - exists []. split; [reflexivity|constructor].
    - destruct IH as (cs & C & A).
      destruct (compiles LTrace (escape text ++ lit " = {}") [] [CName tmp]) as (c & L); [rewrite <- escaped_escape; apply accepts_dbg|].
      cbn [map app] in L. exists (CMatch (CUser n) [(PName tmp, CSeq c (CName tmp))] :: cs). split.
      + change (map user_expr ((text, n) :: es)) with ((text, CUser n) :: map user_expr es). cbn [dbg_codes]. unfold dbg_one_code. rewrite escaped_escape, L, C. reflexivity.
      + change (EExpr n ts :: e1 ++ e2) with (([EExpr n ts] ++ e1) ++ e2). econstructor; [|exact A].
        cbn [exec]. rewrite U. cbn [andThen matches].
        erewrite (reports_exec _ _ _ [] [CName tmp]); [|exact R|exact L|].
        * cbn [andThen]. rewrite bind_same, app_nil_r. reflexivity.
        * intros u. cbn [map]. change (@nil event) with (@nil event ++ []). econstructor; [cbn [exec]; rewrite bind_same; reflexivity|constructor].
  Qed.

  Theorem dbg_does : forall en es w evs w' vs, es <> [] -> debugs user items tm filter en es w evs w' vs ->
    does (dbg_code filter (map user_expr es)) en w evs w' (Val (parens_value vs)).
  Proof using All.
    intros en es w evs w' vs N D. destruct (dbg_codes_run _ _ _ _ _ _ D) as (cs & C & A). exists (parens cs). split.
    - unfold dbg_code. rewrite C. destruct es; [contradiction|reflexivity].
    - unfold execute. rewrite <- parens_plain. exact (parens_runs _ _ _ _ _ _ _ _ _ A).
  Qed.

  Theorem dbg_empty : forall en w evs w', reports en LTrace [] [] [] w evs w' -> does (dbg_code filter []) en w evs w' (Val VoUnit).
  Proof using All. intros en w evs w' R. exact (log_does en LTrace [] [] w evs w' accepts_empty R). Qed.

  (* ---------------------------------------------------------------- *)
  (** * Expressions that do not come back *)

  Theorem println_interrupted : forall en s ns w evs w' x, accepts s (length ns) -> interrupted en ns w evs w' x ->
    does (println_code (invoke s ns)) en w evs w' (Exit x).
  Proof using.
    intros en s ns w evs w' x (frags & P & E) R.
    assert (C : exists c, println_code (invoke s ns) = Some c).
    { unfold println_code, invoke. cbn [in_format in_exprs]. rewrite P. unfold codegen. rewrite map_length.
      replace (expected_arg_count frags =? Z.of_nat (length ns)) with true by (symmetry; now apply Z.eqb_eq). eauto. }
    destruct C as (c & C). exists c. split; [exact C|]. eapply (println_stops user equal stamp); [exact C|]. now apply interrupted_stops.
  Qed.

  Theorem write_interrupted : forall en f s ns w ts w0 v evs w' x, accepts s (length ns) -> user f en w = (ts, w0, inl v) ->
    interrupted (bind en typecheck_formatter v) ns w0 evs w' x ->
    does (write_code (CUser f) (invoke s ns)) en w (EExpr f ts :: evs) w' (Exit x).
  Proof using.
    intros en f s ns w ts w0 v evs w' x (frags & P & E) U R.
    assert (C : exists c, write_code (CUser f) (invoke s ns) = Some c).
    { unfold write_code, invoke. cbn [in_format in_exprs]. rewrite P. unfold codegen. rewrite map_length.
      replace (expected_arg_count frags =? Z.of_nat (length ns)) with true by (symmetry; now apply Z.eqb_eq). eauto. }
    destruct C as (c & C). exists c. split; [exact C|]. eapply (write_stops user equal stamp); [exact C|exact U|]. now apply interrupted_stops.
  Qed.

  Theorem evaluated_or_interrupted : forall en ns, formattable user ns -> forall w,
    (exists evs w' vs, evaluated en ns w evs w' vs) \/ (exists evs w' x, interrupted en ns w evs w' x).
  Proof using.
    intros en. induction ns as [|n ns IH]; intros F w; [left; exists [], w, []; constructor|].
    destruct (user n en w) as [[ts w1] [v|x]] eqn:U.
    - destruct (F n en w ts w1 v (or_introl eq_refl) U) as (a & ->).
      destruct (IH (fun m en w ts w' v I => F m en w ts w' v (or_intror I)) w1) as [(evs & w' & vs & E)|(evs & w' & x & E)].
      + left. exists (EExpr n ts :: evs), w', (a :: vs). econstructor; eassumption.
      + right. exists (EExpr n ts :: evs), w', x. eapply In_later; eassumption.
    - right. exists [EExpr n ts], w1, x. now apply In_here.
  Qed.

  (** What evaluating expressions does, apart from the state. *)
  Lemma evaluated_order : forall en ns w evs w' vs, evaluated en ns w evs w' vs ->
    length vs = length ns /\ exists tss, length tss = length ns /\ evs = map (fun p => EExpr (fst p) (snd p)) (combine ns tss).
  Proof using.
    induction 1 as [w|n ns w ts w1 a evs w2 vs U E (L & tss & T & ->)]; [split; [reflexivity|]; exists []; split; reflexivity|].
    split; [cbn [length]; now rewrite L|]. exists (ts :: tss). split; [cbn [length]; now rewrite T|reflexivity].
  Qed.

  (* ---------------------------------------------------------------- *)
  (** * Scopes *)

  Lemma evaluated_scope : forall xs en en' ns w evs w' vs, avoids user xs ns -> (forall x, ~ In x xs -> en x = en' x) ->
    evaluated en ns w evs w' vs -> evaluated en' ns w evs w' vs.
  Proof using.
    intros xs en en' ns w evs w' vs A S E. induction E as [w|n ns w ts w1 a evs w2 vs U E IH]; [constructor|].
    econstructor; [|apply IH; intros m f f' u I; apply A; now right]. rewrite <- U. symmetry. apply A; [now left|exact S].
  Qed.

  Theorem reports_scope : forall xs en en' l s ns more w evs w', avoids user xs ns -> (forall x, ~ In x xs -> en x = en' x) ->
    reports en l s ns more w evs w' -> reports en' l s ns more w evs w'.
  Proof using.
    intros xs en en' l s ns more w evs w' A S [e1 w1 vs tevs w2 F E T|e1 w1 vs F E].
    - econstructor; [exact F|exact (evaluated_scope _ _ _ _ _ _ _ _ A S E)|exact T].
    - econstructor 2; [exact F|exact (evaluated_scope _ _ _ _ _ _ _ _ A S E)].
  Qed.

  Lemma bind_differs : forall en x v y, ~ In y [x] -> en y = bind en x v y.
  Proof using. intros en x v y H. symmetry. apply bind_other. intros ->. apply H. now left. Qed.

  Lemma compared_differs : forall en a b y, ~ In y [left_val; right_val] -> en y = compared_names en a b y.
  Proof using.
    intros en a b y H. unfold compared_names. rewrite !bind_other; [reflexivity| |]; intros <-; apply H; [now left|right; now left].
  Qed.

  Lemma stamp_differs : forall y, ~ In y [lit "S"; lit "fmt"] -> items y = stamp_names items y.
  Proof using. intros y H. unfold stamp_names. rewrite !bind_other; [reflexivity| |]; intros <-; apply H; [now left|right; now left]. Qed.
End Main.

(* ------------------------------------------------------------------ *)
(** * Tasks and bytes *)

Section Tasks.
  Context (addr : bytes -> Z).

  Lemma tasks_plain : forall evs rest ts, Forall (fun e => e <> EAcquire /\ e <> ERelease) evs -> tasks_of addr rest ts ->
    tasks_of addr (evs ++ rest) (flat_map (event_tasks addr) evs ++ ts).
  Proof using.
    intros evs rest ts F T. induction F as [|e evs [A R] F IH]; [exact T|]. cbn [app flat_map]. rewrite <- app_assoc. now constructor.
  Qed.

  Lemma mapi_map : forall A B C (f : B -> C) (g : Z -> A -> B) l i, map f (mapi g i l) = mapi (fun i a => f (g i a)) i l.
  Proof using. induction l as [|a l IH]; intros i; [reflexivity|]. cbn [mapi map]. now rewrite IH. Qed.

  Lemma puts_plain : forall s vs, Forall (fun e => e <> EAcquire /\ e <> ERelease) (puts s vs).
  Proof using.
    intros s vs. unfold puts. destruct (parse s Strict) as [frags| | |]; try constructor. generalize 0. induction vs as [|v vs IH]; intros i; [constructor|].
    cbn [mapi]. constructor; [split; discriminate|apply IH].
  Qed.

  Lemma written_app : forall a b, written (a ++ b) = written a ++ written b.
  Proof using. intros a b. unfold written. apply flat_map_app. Qed.

  Lemma written_puts : forall s vs, written (flat_map (event_tasks addr) (puts s vs)) = macro_args addr s vs.
  Proof using.
    intros s vs. unfold puts, macro_args. destruct (parse s Strict) as [frags| | |]; try reflexivity. unfold encode_args. generalize 0.
    induction vs as [|v vs IH]; intros i; [reflexivity|]. cbn [mapi flat_map event_tasks concat app]. unfold written in *. cbn [flat_map]. now rewrite IH.
  Qed.

  Context {world : Type} (user : nat -> names -> world -> list LoggerModel.task * world * (value + leave)).

  Lemma evaluated_plain : forall en ns w evs w' vs, evaluated user en ns w evs w' vs ->
    Forall (fun e => e <> EAcquire /\ e <> ERelease) evs /\ flat_map (event_tasks addr) evs = expr_tasks evs.
  Proof using.
    induction 1 as [w|n ns w ts w1 a evs w2 vs U E [F Q]]; [split; [constructor|reflexivity]|]. split; [constructor; [split; discriminate|exact F]|].
    cbn [flat_map event_tasks expr_tasks]. now rewrite Q.
  Qed.

  Lemma expr_tasks_app : forall a b, expr_tasks (a ++ b) = expr_tasks a ++ expr_tasks b.
  Proof using. intros a b. unfold expr_tasks. apply flat_map_app. Qed.

  Lemma expr_tasks_puts : forall s vs, expr_tasks (puts s vs) = [].
  Proof using.
    intros s vs. unfold puts. destruct (parse s Strict) as [frags| | |]; try reflexivity. generalize 0. induction vs as [|v vs IH]; intros i; [reflexivity|].
    cbn [mapi]. apply IH.
  Qed.

  (** The tasks of a frame, and its bytes if the timestamp's expressions write nothing themselves. *)
  Theorem frame_tasks : forall items tm en ns w e1 w1 vs tevs w2 p s more,
    evaluated user en ns w e1 w1 vs -> stamped user items tm w1 tevs w2 ->
    exists body, tasks_of addr (e1 ++ frame p s tevs (vs ++ more)) (expr_tasks e1 ++ [LoggerModel.TLog body]) /\
      (forall t, In t (expr_tasks tevs) -> In t body) /\
      (written (expr_tasks tevs) = [] -> exists tvs, length tvs = length (message_exprs tm) /\
        written body = encode_frame addr (addr s) (option_map fst tm) tvs s (vs ++ more)).
  Proof using.
    intros items tm en ns w e1 w1 vs tevs w2 p s more E T.
    assert (K : Forall (fun e => e <> EAcquire /\ e <> ERelease) tevs /\
      (forall t, In t (expr_tasks tevs) -> In t (flat_map (event_tasks addr) tevs)) /\
      (written (expr_tasks tevs) = [] -> exists tvs, length tvs = length (message_exprs tm) /\
        written (flat_map (event_tasks addr) tevs) = match option_map fst tm with Some s => macro_args addr s tvs | None => [] end)).
    { destruct tm as [[ts tns]|]; cbn [stamped] in T.
      - destruct T as (te & tvs & TE & ->). destruct (evaluated_plain _ _ _ _ _ _ TE) as [F Q]. split; [|split].
        + apply Forall_app. split; [exact F|apply puts_plain].
        + intros t. rewrite expr_tasks_app, expr_tasks_puts, app_nil_r, flat_map_app, <- Q. intros I. apply in_or_app. now left.
        + rewrite expr_tasks_app, expr_tasks_puts, app_nil_r. intros W. exists tvs. split.
          * destruct (evaluated_order user _ _ _ _ _ _ TE) as [L _]. exact L.
          * rewrite flat_map_app, Q, written_app, W. cbn [option_map fst app]. apply written_puts.
      - destruct T as [-> _]. split; [constructor|]. split; [contradiction|]. intros _. exists []. split; reflexivity. }
    destruct K as (F & Itasks & W). destruct (evaluated_plain _ _ _ _ _ _ E) as [F1 Q1].
    exists (flat_map (event_tasks addr) (EHeader p s :: tevs ++ puts s (vs ++ more))). split; [|split].
    - rewrite <- Q1. apply tasks_plain; [exact F1|]. unfold frame.
      replace (EAcquire :: EHeader p s :: tevs ++ puts s (vs ++ more) ++ [ERelease]) with (EAcquire :: (EHeader p s :: tevs ++ puts s (vs ++ more)) ++ ERelease :: []) by (cbn [app]; now rewrite <- app_assoc).
      assert (B : Forall (fun e => e <> EAcquire /\ e <> ERelease) (EHeader p s :: tevs ++ puts s (vs ++ more))).
      { constructor; [split; discriminate|]. apply Forall_app. split; [exact F|apply puts_plain]. }
      rewrite Forall_forall in B. constructor; [intros X; now apply (proj1 (B _ X))|intros X; now apply (proj2 (B _ X))|constructor].
    - intros t X. cbn [flat_map event_tasks]. apply in_or_app. right. rewrite flat_map_app. apply in_or_app. left. now apply Itasks.
    - intros Hw. destruct (W Hw) as (tvs & L & Q). exists tvs. split; [exact L|].
      cbn [flat_map event_tasks]. rewrite written_app, flat_map_app, written_app, Q, written_puts. unfold encode_frame, written, put_istr. cbn [flat_map]. rewrite app_nil_r. reflexivity.
  Qed.
End Tasks.
