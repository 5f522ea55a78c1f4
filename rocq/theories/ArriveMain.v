From Verif Require Import Base Utf8 ParserModel ParserProofs ParserMore FormatSpec RenderProofs PrepareProofs
  DecoderModel EncodeModel EncodeSpec DeriveProofs EncodeMain EncodeTop EncodeExamples DisplayModel TextSpec TextProofs
  TextMain MacroModel MacroSpec MacroParse.
From Verif Require Import MacroProofs MacroExact.
From Verif Require Import ExpandModel ExpandSpec ExpandProofs ExpandMain ArriveSpec.
From Verif Require LoggerModel.

Section Main.
  Context (X : externals) (addr : bytes -> Z) (tbl : table).
  Notation reads := (reads X addr tbl).
  Notation shown := (shown X tbl).
  Notation stored := (stored addr tbl).
  Notation says_then := (says_then X addr tbl).

  Lemma tasks_app : forall a ta b tb, tasks_of addr a ta -> tasks_of addr b tb -> tasks_of addr (a ++ b) (ta ++ tb).
  Proof.
    intros a ta b tb T S. induction T as [|e evs ts A R T IH|body rest ts A R T IH]; [exact S| |].
    - cbn [app]. rewrite <- app_assoc. now constructor.
    - cbn [app]. rewrite <- app_assoc. cbn [app]. now constructor.
  Qed.

  Lemma reads_accepts : forall s vs text, reads s vs text -> accepts s (length vs).
  Proof.
    intros s vs text (frags & tys & a & E & A & M & _). exists frags. split; [exact E|].
    rewrite (expected_count addr _ _ _ _ A E). f_equal. symmetry; exact (means_args_length addr tbl _ _ _ M).
  Qed.

  (* ---------------------------------------------------------------- *)
  (** * Messages *)

  Lemma reads_quoted : forall s vs text, reads s vs text -> reads (lit "panicked at '" ++ s ++ lit "'") vs (quoted text).
  Proof. intros s vs text R. apply reads_between; [exact R|nb|discriminate|nb|discriminate]. Qed.

  Lemma reads_plain : forall s, no_braces s -> reads s [] s.
  Proof. intros s N. rewrite <- (escape_plain s N) at 1. apply reads_text. Qed.

  Lemma reads_panic : forall z tr zt tt, In (z, tr, zt, tt) panic_texts ->
    reads z [] zt /\ forall s vs text, reads s vs text -> reads (tr s) vs (tt text).
  Proof.
    intros z tr zt tt H. cbn [panic_texts In] in H. destruct H as [H|[H|[H|[]]]]; injection H as <- <- <- <-; (split; [apply reads_plain; nb|]); intros s vs text R.
    - now apply reads_quoted.
    - apply (reads_between X addr tbl s vs text (lit "panicked at 'not yet implemented: ") (lit "'")) in R; [exact R|nb|discriminate|nb|discriminate].
    - apply (reads_between X addr tbl s vs text (lit "panicked at 'internal error: entered unreachable code: ") (lit "'")) in R; [exact R|nb|discriminate|nb|discriminate].
  Qed.

  Lemma reads_assert : forall text, reads (lit "panicked at 'assertion failed: " ++ escape text ++ lit "'") [] (quoted (lit "assertion failed: " ++ text)).
  Proof.
    intros text. pose proof (reads_between X addr tbl _ _ _ (lit "panicked at 'assertion failed: ") (lit "'") (reads_text X addr tbl text)) as R.
    unfold quoted. rewrite <- app_assoc. apply R; [nb|discriminate|nb|discriminate].
  Qed.

  Lemma reads_comparison : forall op m tl tr l r sl sr vs msg,
    match m, msg with
    | Some (s, _), Some t => reads s vs t /\ unindexed s = Z.of_nat (length vs)
    | None, None => vs = []
    | _, _ => False
    end -> Z.of_nat (length vs) < 2 ^ 32 ->
    printable X addr tbl (Some HDebug) tl l sl -> printable X addr tbl (Some HDebug) tr r sr ->
    reads (comparison_message op m) (vs ++ comparison_extra op (AvFmt tl l) (AvFmt tr r)) (comparison_text op msg sl sr).
  Proof.
    intros op m tl tr l r sl sr vs msg H Len Pl Pr.
    set (pre := match op with Eq => lit "panicked at 'assertion failed: `(left == right)`" | Ne => lit "panicked at 'assertion failed: `(left != right)`" end).
    set (mt := match msg with Some s => lit ": " ++ s | None => [] end).
    set (mf := match m with Some (s, _) => lit ": " ++ s | None => [] end).
    assert (B : opens X addr tbl (pre ++ mf) vs (pre ++ mt)).
    { destruct m as [[s ns]|], msg as [t|]; try contradiction; unfold mf, mt.
      - destruct H as [R N]. apply opens_before; [|unfold pre; destruct op; nb|unfold pre; destruct op; discriminate].
        apply opens_before; [now apply reads_opens|nb|discriminate].
      - subst vs. rewrite app_nil_r. rewrite <- (escape_plain pre) at 1 by (unfold pre; destruct op; nb). apply opens_text. }
    apply opens_reads; [|rewrite app_length; unfold usize_max; destruct op; cbn [comparison_extra length]; lia].
    destruct op.
    - change (comparison_message Eq m) with (pre ++ mf ++ lit "'" ++ [10] ++ lit " left: `{:?}`" ++ [10] ++ lit "right: `{:?}`").
      change (comparison_text Eq msg sl sr) with (quoted (lit "assertion failed: `(left == right)`" ++ mt) ++ [10] ++
            lit " left: `" ++ sl ++ lit "`" ++ [10] ++ lit "right: `" ++ sr ++ lit "`"). cbn [comparison_extra].
      clearbody mf mt.
      apply (opens_after X addr tbl _ _ _ (lit "'" ++ [10] ++ lit " left: `")) in B; [|nb|discriminate].
      apply (opens_param X addr tbl _ _ _ (lit ":?") (Some HDebug) _ _ _) with (4 := Pl) in B; [|nb|exact debug_param].
      apply (opens_after X addr tbl _ _ _ (lit "`" ++ [10] ++ lit "right: `")) in B; [|nb|discriminate].
      apply (opens_param X addr tbl _ _ _ (lit ":?") (Some HDebug) _ _ _) with (4 := Pr) in B; [|nb|exact debug_param].
      apply (opens_after X addr tbl _ _ _ (lit "`")) in B; [|nb|discriminate].
      unfold quoted. rewrite <- ?app_assoc in *. exact B.
    - change (comparison_message Ne m) with (pre ++ mf ++ lit "'" ++ [10] ++ lit "left/right: `{:?}`").
      change (comparison_text Ne msg sl sr) with (quoted (lit "assertion failed: `(left != right)`" ++ mt) ++ [10] ++
            lit "left/right: `" ++ sl ++ lit "`"). cbn [comparison_extra].
      clearbody mf mt.
      apply (opens_after X addr tbl _ _ _ (lit "'" ++ [10] ++ lit "left/right: `")) in B; [|nb|discriminate].
      apply (opens_param X addr tbl _ _ _ (lit ":?") (Some HDebug) _ _ _) with (4 := Pl) in B; [|nb|exact debug_param].
      apply (opens_after X addr tbl _ _ _ (lit "`")) in B; [|nb|discriminate].
      unfold quoted. rewrite <- ?app_assoc in *. exact B.
  Qed.

  (* ---------------------------------------------------------------- *)
  (** * Frames *)

  Context {world : Type}.
  Context (user : nat -> names -> world -> list LoggerModel.task * world * (value + leave)).
  Context (equal : value -> value -> world -> list LoggerModel.task * world * (bool + leave)).
  Context (items : names) (tm : option (bytes * list nat)) (filter : level -> option bool).
  Notation evaluated := (evaluated user).
  Notation stamped := (stamped user items tm).
  Notation reports := (reports user items tm filter).
  Notation does := (does user equal items tm).
  Context (timing : timed addr tbl user items tm).

  Theorem frame_shown : forall en ns w e1 w1 vs tevs w2 p s more l text,
    evaluated en ns w e1 w1 vs -> stamped w1 tevs w2 -> stored l s -> reads s (vs ++ more) text ->
    says_then (e1 ++ frame p s tevs (vs ++ more)) (expr_tasks e1) l text [].
  Proof.
    intros en ns w e1 w1 vs tevs w2 p s more l text E T [Ra G] (frags & tys & a & P & A & M & S).
    assert (K : exists tvs ta, Forall (fun e => e <> EAcquire /\ e <> ERelease) tevs /\
      written (flat_map (event_tasks addr) tevs) = match option_map e_string (t_timestamp tbl) with Some s => macro_args addr s tvs | None => [] end /\
      frame_means addr tbl (addr s) tvs (vs ++ more) (MkFrame l (addr s) (option_map e_string (t_timestamp tbl)) ta s a)).
    { unfold timed in timing. unfold frame_means. destruct tm as [[ts tns]|], (t_timestamp tbl) as [e|]; try contradiction; cbn [ExpandSpec.stamped] in T.
      - destruct T as (te & tvs & TE & ->). destruct timing as [Es W]. destruct (W _ _ _ _ TE) as (W0 & ttys & ta & TA & TM).
        destruct (evaluated_plain addr user _ _ _ _ _ _ TE) as [F Q]. exists tvs, ta. split; [apply Forall_app; split; [exact F|apply puts_plain]|]. split.
        + rewrite flat_map_app, Q, written_app, W0. cbn [option_map app]. rewrite Es. apply written_puts.
        + cbn [f_index f_level f_format f_args f_timestamp_format f_timestamp_args option_map]. split; [exact Ra|]. split; [reflexivity|]. split; [exact G|].
          split; [exists tys; split; [exact A|exact M]|]. split; [reflexivity|]. exists ttys. rewrite Es. split; [exact TA|exact TM].
      - destruct T as [-> _]. exists [], []. split; [constructor|]. split; [reflexivity|].
        cbn [f_index f_level f_format f_args f_timestamp_format f_timestamp_args option_map]. split; [exact Ra|]. split; [reflexivity|]. split; [exact G|].
        split; [exists tys; split; [exact A|exact M]|]. split; reflexivity. }
    destruct K as (tvs & ta & F & W & FM). destruct (evaluated_plain addr user _ _ _ _ _ _ E) as [F1 Q1].
    exists (flat_map (event_tasks addr) (EHeader p s :: tevs ++ puts s (vs ++ more))). split.
    - rewrite <- Q1. apply tasks_plain; [exact F1|]. unfold frame.
      replace (EAcquire :: EHeader p s :: tevs ++ puts s (vs ++ more) ++ [ERelease]) with (EAcquire :: (EHeader p s :: tevs ++ puts s (vs ++ more)) ++ ERelease :: []) by (cbn [app]; now rewrite <- app_assoc).
      assert (B : Forall (fun e => e <> EAcquire /\ e <> ERelease) (EHeader p s :: tevs ++ puts s (vs ++ more))).
      { constructor; [split; discriminate|]. apply Forall_app. split; [exact F|apply puts_plain]. }
      rewrite Forall_forall in B. constructor; [intros Y; now apply (proj1 (B _ Y))|intros Y; now apply (proj2 (B _ Y))|constructor].
    - assert (Wb : written (flat_map (event_tasks addr) (EHeader p s :: tevs ++ puts s (vs ++ more))) =
        encode_frame addr (addr s) (option_map e_string (t_timestamp tbl)) tvs s (vs ++ more)).
      { cbn [flat_map event_tasks]. rewrite written_app, flat_map_app, written_app, W, written_puts. unfold encode_frame, written, put_istr. cbn [flat_map]. rewrite app_nil_r. reflexivity. }
      set (fr := MkFrame l (addr s) (option_map e_string (t_timestamp tbl)) ta s a) in *.
      destruct (message_text X addr tbl (addr s) tvs (vs ++ more) fr [] FM) as (frags' & P' & D & Wd).
      cbv zeta in D. cbn [f_format fr] in D, P'. rewrite P in P'. injection P' as <-. rewrite app_nil_r in D.
      exists fr. rewrite Wb. split; [exact D|]. split; [reflexivity|]. now apply Wd.
  Qed.

  Lemma says_before : forall evs before l text after es ts, says_then evs before l text after -> tasks_of addr es ts ->
    says_then (es ++ evs) (ts ++ before) l text after.
  Proof. intros evs before l text after es ts (body & T & S) T'. exists body. split; [rewrite <- app_assoc; now apply tasks_app|exact S]. Qed.

  Lemma says_after : forall evs before l text after es ts, says_then evs before l text after -> tasks_of addr es ts ->
    says_then (evs ++ es) before l text (after ++ ts).
  Proof.
    intros evs before l text after es ts (body & T & S) T'. exists body. split; [|exact S].
    replace (before ++ LoggerModel.TLog body :: after ++ ts) with ((before ++ LoggerModel.TLog body :: after) ++ ts) by (now rewrite <- app_assoc). now apply tasks_app.
  Qed.

  Lemma tasks_panic : tasks_of addr [EPanic] [LoggerModel.TPanic].
  Proof using. apply (Tasks_event addr EPanic [] []); [discriminate|discriminate|constructor]. Qed.

  Lemma tasks_one : forall e, e <> EAcquire -> e <> ERelease -> tasks_of addr [e] (event_tasks addr e).
  Proof using. intros e A R. rewrite <- (app_nil_r (event_tasks addr e)). constructor; [exact A|exact R|constructor]. Qed.

  (** A report that is not disabled. *)
  Lemma reported : forall en l s ns more w e1 w1 vs tevs w2 text, filter l = Some true -> evaluated en ns w e1 w1 vs -> stamped w1 tevs w2 ->
    stored (Some l) s -> reads s (vs ++ more) text ->
    exists evs, reports en l s ns more w evs w2 /\ says_then evs (expr_tasks e1) (Some l) text [].
  Proof.
    intros en l s ns more w e1 w1 vs tevs w2 text F E T S R. eexists. split; [econstructor; eassumption|]. eapply frame_shown; eassumption.
  Qed.

  Theorem log_arrives : stamp_ok tm -> forall en l s ns w e1 w1 vs tevs w2 text, filter l = Some true ->
    evaluated en ns w e1 w1 vs -> stamped w1 tevs w2 -> stored (Some l) s -> reads s vs text ->
    exists evs, does (log_code filter l (invoke s ns)) en w evs w2 (Val VoUnit) /\ says_then evs (expr_tasks e1) (Some l) text [].
  Proof.
    intros K en l s ns w e1 w1 vs tevs w2 text F E T S R. rewrite <- (app_nil_r vs) in R.
    destruct (reported en l s ns [] w e1 w1 vs tevs w2 text F E T S R) as (evs & Rp & Sy). exists evs. split; [|exact Sy].
    apply log_does; [exact K| |exact Rp]. apply reads_accepts in R. rewrite app_nil_r in R.
    destruct (evaluated_order user _ _ _ _ _ _ E) as [L _]. now rewrite <- L.
  Qed.

  Theorem println_arrives : stamp_ok tm -> forall en s ns w e1 w1 vs tevs w2 text,
    evaluated en ns w e1 w1 vs -> stamped w1 tevs w2 -> stored None s -> reads s vs text ->
    exists evs, does (println_code (invoke s ns)) en w evs w2 (Val VoUnit) /\ says_then evs (expr_tasks e1) None text [].
  Proof.
    intros K en s ns w e1 w1 vs tevs w2 text E T S R. eexists. split.
    - eapply (println_does user equal items tm filter); [exact K| |exact E|exact T]. apply reads_accepts in R.
      destruct (evaluated_order user _ _ _ _ _ _ E) as [L _]. now rewrite <- L.
    - rewrite <- (app_nil_r vs). eapply frame_shown; [exact E|exact T|exact S|now rewrite app_nil_r].
  Qed.

  Theorem panic_arrives : stamp_ok tm -> filter LError = Some true -> forall z tr zt tt, In (z, tr, zt, tt) panic_texts ->
    forall en w,
    (forall tevs w2, stamped w tevs w2 -> stored (Some LError) z ->
      exists evs, does (panic_like_code filter z tr None) en w evs w2 (Exit Unwinds) /\ says_then evs [] (Some LError) zt [LoggerModel.TPanic]) /\
    (forall s ns e1 w1 vs tevs w2 text, evaluated en ns w e1 w1 vs -> stamped w1 tevs w2 -> stored (Some LError) (tr s) -> reads s vs text ->
      exists evs, does (panic_like_code filter z tr (Some (invoke s ns))) en w evs w2 (Exit Unwinds) /\
        says_then evs (expr_tasks e1) (Some LError) (tt text) [LoggerModel.TPanic]).
  Proof.
    intros K F z tr zt tt H en w. destruct (reads_panic _ _ _ _ H) as [Rz Rt]. split.
    - intros tevs w2 T S. destruct (reported en LError z [] [] w [] w [] tevs w2 zt F (Ev_nil user en w) T S Rz) as (evs & Rp & Sy).
      exists (evs ++ [EPanic]). split; [|exact (says_after _ _ _ _ _ _ _ Sy tasks_panic)].
      apply (panic_plain user equal items tm filter K); [exact (reads_accepts _ _ _ Rz)|exact Rp].
    - intros s ns e1 w1 vs tevs w2 text E T S R. apply Rt in R. rewrite <- (app_nil_r vs) in R.
      destruct (reported en LError (tr s) ns [] w e1 w1 vs tevs w2 _ F E T S R) as (evs & Rp & Sy).
      exists (evs ++ [EPanic]). split; [|exact (says_after _ _ _ _ _ _ _ Sy tasks_panic)].
      apply (panic_does user equal items tm filter K); [|exact Rp]. apply reads_accepts in R. rewrite app_nil_r in R.
      destruct (evaluated_order user _ _ _ _ _ _ E) as [L _]. now rewrite <- L.
  Qed.

  (** The message of [assert!]. *)
  Theorem assert_arrives : stamp_ok tm -> filter LError = Some true -> forall en text n m w ts w0, user n en w = (ts, w0, inl (VoBool false)) ->
    forall e1 w1 vs tevs w2 msg, evaluated en (message_exprs m) w0 e1 w1 vs -> stamped w1 tevs w2 -> stored (Some LError) (assert_text text m) ->
    match m with Some (s, _) => exists t, reads s vs t /\ msg = quoted t | None => msg = quoted (lit "assertion failed: " ++ text) end ->
    exists evs, does (assert_code filter text (CUser n) (invoke_message m)) en w evs w2 (Exit Unwinds) /\
      says_then evs (ts ++ expr_tasks e1) (Some LError) msg [LoggerModel.TPanic].
  Proof.
    intros K F en text n m w ts w0 U e1 w1 vs tevs w2 msg E T S M.
    destruct (evaluated_order user _ _ _ _ _ _ E) as [L _].
    assert (R : reads (assert_text text m) (vs ++ []) msg).
    { rewrite app_nil_r. destruct m as [[s ns]|]; cbn [assert_text].
      - destruct M as (t & R & ->). now apply reads_quoted.
      - subst msg. destruct vs; [|discriminate L]. apply reads_assert. }
    assert (Ok : message_ok m).
    { destruct m as [[s ns]|]; [|exact I]. destruct M as (t & R' & _). apply reads_accepts in R'. cbn [message_ok message_exprs] in *. now rewrite <- L. }
    destruct (reported en LError _ _ [] w0 e1 w1 vs tevs w2 _ F E T S R) as (evs & Rp & Sy).
    exists (EExpr n ts :: evs ++ [EPanic]). split.
    - exact (assert_does user equal items tm filter K en text n m w ts w0 false Ok U evs w2 Rp).
    - apply (says_before _ _ _ _ _ [EExpr n ts] ts (says_after _ _ _ _ _ _ _ Sy tasks_panic)). apply (tasks_one (EExpr n ts)); discriminate.
  Qed.

  (** The message of [unwrap!]. *)
  Theorem unwrap_arrives : stamp_ok tm -> filter LError = Some true -> forall en text n m w ts w0 v t e, user n en w = (ts, w0, inl v) ->
    v = VoErr (VoArg (AvFmt t e)) \/ v = VoNone /\ AvFmt t e = no_value ->
    forall e1 w1 vs tevs w2 msg, evaluated (bind en unwrap_err (VoArg (AvFmt t e))) (message_exprs m) w0 e1 w1 vs -> stamped w1 tevs w2 ->
    stored (Some LError) (unwrap_message text m) ->
    match m with
    | Some (s, _) => exists x, reads s vs x /\ msg = quoted x
    | None => exists se, printable X addr tbl (Some HDebug) t e se /\ msg = unwrap_text text se
    end ->
    exists evs, does (unwrap_code filter text (CUser n) (invoke_message m)) en w evs w2 (Exit Unwinds) /\
      says_then evs (ts ++ expr_tasks e1) (Some LError) msg [LoggerModel.TPanic].
  Proof.
    intros K F en text n m w ts w0 v t e U V e1 w1 vs tevs w2 msg E T S M.
    destruct (evaluated_order user _ _ _ _ _ _ E) as [L _].
    assert (R : reads (unwrap_message text m) (vs ++ match m with Some _ => [] | None => [AvFmt t e] end) msg).
    { destruct m as [[s ns]|]; cbn [unwrap_message].
      - rewrite app_nil_r. destruct M as (x & R & ->). now apply reads_quoted.
      - destruct M as (se & P & ->). destruct vs; [|discriminate L]. rewrite <- escaped_escape. now apply unwrap_default_reads. }
    assert (Ok : message_ok m).
    { destruct m as [[s ns]|]; [|exact I]. destruct M as (x & R' & _). apply reads_accepts in R'. cbn [message_ok message_exprs] in *. now rewrite <- L. }
    destruct (reported _ LError _ _ _ w0 e1 w1 vs tevs w2 _ F E T S R) as (evs & Rp & Sy).
    exists (EExpr n ts :: evs ++ [EPanic]). split.
    - destruct (unwrap_does user equal items tm filter K en text n m w ts w0 v Ok U) as [_ D]. exact (D _ V evs w2 Rp).
    - apply (says_before _ _ _ _ _ [EExpr n ts] ts (says_after _ _ _ _ _ _ _ Sy tasks_panic)). apply (tasks_one (EExpr n ts)); discriminate.
  Qed.

  (** The messages of [assert_eq!] and [assert_ne!]. *)
  Theorem comparison_arrives : stamp_ok tm -> filter LError = Some true -> forall en op l r m w t1 w1 tl a t2 w2 tr b t3 w3 same,
    user l en w = (t1, w1, inl (VoArg (AvFmt tl a))) -> user r en w1 = (t2, w2, inl (VoArg (AvFmt tr b))) ->
    equal (VoArg (AvFmt tl a)) (VoArg (AvFmt tr b)) w2 = (t3, w3, inl same) -> comparison_holds op same = false ->
    forall e1 w4 vs tevs w5 sl sr msg,
    evaluated (ExpandSpec.compared_names en (VoArg (AvFmt tl a)) (VoArg (AvFmt tr b))) (message_exprs m) w3 e1 w4 vs -> stamped w4 tevs w5 ->
    stored (Some LError) (comparison_message op m) ->
    printable X addr tbl (Some HDebug) tl a sl -> printable X addr tbl (Some HDebug) tr b sr ->
    match m, msg with
    | Some (s, ns), Some t => reads s vs t /\ unindexed s = Z.of_nat (length ns) /\ Z.of_nat (length ns) < 2 ^ 32
    | None, None => True
    | _, _ => False
    end ->
    exists evs, does (binop_code filter op (CUser l) (CUser r) (invoke_message m)) en w evs w5 (Exit Unwinds) /\
      says_then evs (t1 ++ t2 ++ t3 ++ expr_tasks e1) (Some LError) (comparison_text op msg sl sr) [LoggerModel.TPanic].
  Proof.
    intros K F en op l r m w t1 w1 tl a t2 w2 tr b t3 w3 same U1 U2 Q H e1 w4 vs tevs w5 sl sr msg E T S Pl Pr M.
    destruct (evaluated_order user _ _ _ _ _ _ E) as [L _].
    assert (R : reads (comparison_message op m) (vs ++ comparison_extra op (AvFmt tl a) (AvFmt tr b)) (comparison_text op msg sl sr)).
    { apply reads_comparison; [| |exact Pl|exact Pr]; destruct m as [[s ns]|], msg as [t|]; try contradiction.
      - destruct M as (R & N & _). split; [exact R|]. cbn [message_exprs] in L. rewrite L. exact N.
      - destruct vs; [reflexivity|discriminate L].
      - cbn [message_exprs] in L. rewrite L. apply M.
      - destruct vs; [reflexivity|discriminate L]. }
    assert (Ok : forall s ns, m = Some (s, ns) -> accepts s (length ns) /\ unindexed s = Z.of_nat (length ns) /\ Z.of_nat (length ns) < 2 ^ 32).
    { intros s ns ->. destruct msg as [t|]; [|contradiction]. destruct M as (R' & N & B). apply reads_accepts in R'. cbn [message_exprs] in L. rewrite <- L at 1. auto. }
    destruct (reported _ LError _ _ _ w3 e1 w4 vs tevs w5 _ F E T S R) as (evs & Rp & Sy).
    exists ([EExpr l t1; EExpr r t2; EEqual t3] ++ evs ++ [EPanic]). split.
    - pose proof (comparison_does user equal items tm filter K en op l r m w t1 w1 _ t2 w2 _ t3 w3 same Ok U1 U2 Q) as D. cbv zeta in D. rewrite H in D. exact (D evs w5 Rp).
    - rewrite !app_assoc, <- (app_assoc t1 t2 t3). apply (says_before _ _ _ _ _ [EExpr l t1; EExpr r t2; EEqual t3] (t1 ++ t2 ++ t3) (says_after _ _ _ _ _ _ _ Sy tasks_panic)).
      apply (Tasks_event addr (EExpr l t1)); [discriminate|discriminate|]. apply (Tasks_event addr (EExpr r t2)); [discriminate|discriminate|].
      apply (tasks_one (EEqual t3)); discriminate.
  Qed.

  (** The lines of [dbg!]. *)
  Theorem debugs_arrive : filter LTrace = Some true -> forall en es w evs w' vs, debugs user items tm filter en es w evs w' vs ->
    (forall text n, In (text, n) es -> stored (Some LTrace) (escape text ++ lit " = {}")) ->
    (forall n en w ts w' v, In n (map snd es) -> user n en w = (ts, w', inl v) -> exists t x s, v = VoArg (AvFmt t x) /\ printable X addr tbl None t x s) ->
    debug_lines X addr tbl user items tm en es w evs.
  Proof.
    intros F en es w evs w' vs D. induction D as [w|text n es w ts w1 a e1 w2 e2 w3 vs U R D IH]; intros S P; [constructor|].
    destruct (P n en w ts w1 _ (or_introl eq_refl) U) as (t & x & s & Ea & Pr). injection Ea as ->.
    inversion R as [e0 w0 vs0 tevs w2' F' E T Ee Ew|e0 w0 vs0 F' E Ee Ew]; [|congruence]. subst w2'.
    inversion E. subst. cbn [app] in *.
    destruct (frame_shown en [] w0 [] w0 [] tevs w2 (ForLevel LTrace) (escape text ++ lit " = {}") [AvFmt t x] (Some LTrace) (text ++ lit " = " ++ s) (Ev_nil user _ w0) T
      (S text n (or_introl eq_refl))) as (body & Tk & Sh).
    { cbn [app]. rewrite <- escaped_escape. now apply dbg_reads. }
    apply (Lines_cons X addr tbl user items tm en text n es w ts w0 t x s tevs body w2 e2 U Pr T Tk Sh). apply IH.
    - intros text' n' I. apply (S text' n'). now right.
    - intros n' en' w' ts' w'' v I. apply P. now right.
  Qed.
End Main.
