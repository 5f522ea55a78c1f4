(** Test suites in QEMU: one that passes, and one that fails. *)
From Verif Require Import LoggerModel LoggerSpec LoggerMain LoggerExamples.
From Verif Require Import Base Utf8 FormatSpec ParserModel DecoderModel DecoderPanic DecoderExamples EncodeModel EncodeSpec EncodeTop EncodeExamples DisplayModel DisplayExamples TextSpec TextMain TextExamples
  MacroModel MacroSpec MacroProofs MacroExamples HarnessModel HarnessSpec HarnessProofs HarnessMain HarnessExamples RzcobsModel StreamModel SinkSpec SinkMain HostModel HostSpec DeviceSpec SuiteModel SuiteSpec SuiteMain.

Definition suite_table : table := MkTable (Some (ent GTimestamp "{=u32:us}"))
  [(1, ent GPrintln "({=usize}/{=usize}) running `first`..."); (2, ent GInfo "x = {=u8}"); (3, ent GPrintln "all tests passed!");
   (4, ent GPrim "{=istr}"); (5, ent GPrim "()"); (6, ent GStr "`#[should_error]` "); (7, MkEntry GStr [] []);
   (8, ent GError "panicked at '{}test failed with outcome: {}'"); (9, ent GPrim "Err({=?})|Ok({=?})")] [] EncRzcobs.
Definition suite_addr : bytes -> Z := find_addr (t_entries suite_table).

Definition first_fn : func := MkFunc [at_ "test"] (lit "first") (sig_ [] None).
Definition suite_module : module := mod_ [IFn first_fn].
Definition the_suite : suite := MkSuite None None None None [first_fn].
Definition suite_output : output := Eval vm_compute in match tests_impl true suite_module with Ok o => o | _ => MkOutput [] [] [] [] [] end.

Definition passing (f : bytes) (state : bool) (w : Z) : Z * ended := (w + 1, Returns RetUnit).
Definition failing (f : bytes) (state : bool) (w : Z) : Z * ended := (w + 1, Returns (RetErr unit_ty unit_ty (VList []))).

(** The test logs the state of the machine. *)
Definition suite_talk (f : bytes) (state : bool) (w : Z) : list utterance := [(Some LInfo, lit "x = {=u8}", [AvPrim (VNum (if 200 <=? w then 200 else 7))])].
Definition suite_own (f : bytes) (state : bool) (w : Z) : list message := [(Some LInfo, lit "x = " ++ lit (if 200 <=? w then "200" else "7"))].

Definition suite_said : list said :=
  [MkSaid 1 [AvPrim (VNum 10)] [AvPrim (VNum 1); AvPrim (VNum 1)]
     (MkFrame None 1 (Some (lit "{=u32:us}")) [AUxx 10] (lit "({=usize}/{=usize}) running `first`...") [AUxx 1; AUxx 1]) (lit "0.000010") (lit "(1/1) running `first`...");
   MkSaid 2 [AvPrim (VNum 11)] [AvPrim (VNum 200)]
     (MkFrame (Some LInfo) 2 (Some (lit "{=u32:us}")) [AUxx 11] (lit "x = {=u8}") [AUxx 200]) (lit "0.000011") (lit "x = 200");
   MkSaid 3 [AvPrim (VNum 12)] [] (MkFrame None 3 (Some (lit "{=u32:us}")) [AUxx 12] (lit "all tests passed!") []) (lit "0.000012") (lit "all tests passed!")].

Definition suite_write (x : said) : list bytes :=
  [encode_frame suite_addr (sd_index x) (Some (lit "{=u32:us}")) (sd_time_args x) (f_format (sd_frame x)) (sd_args x)].

(** The program flushes once. *)
Definition suite_tasks : list task := TLog [TFlush] :: map (fun x => TLog (map TWrite (suite_write x))) suite_said.
Definition suite_device : sys := follow Semihosting EncRzcobs None (repeat 0%nat 60) (boot Semihosting [suite_tasks]).

Lemma suite_accepted : tests_impl true suite_module = Ok suite_output.
Proof. vm_compute. reflexivity. Qed.

Lemma first_role : forall r, has_role first_fn r -> r = Test.
Proof.
  intros r H. apply (last_role_unique (f_attrs first_fn)); [exact H|].
  exists [], (at_ "test"), []. split; [reflexivity|]. split; [reflexivity|]. intros b r' [].
Qed.

Lemma suite_is : suite_of not_never suite_module the_suite.
Proof.
  exists [IFn first_fn]. split; [reflexivity|].
  assert (N : forall r, r <> Test -> the_hook (functions [IFn first_fn]) r None) by (intros r Hr f [<-|[]] H; apply Hr, first_role; exact H).
  split; [apply N; discriminate|]. split; [apply N; discriminate|]. split; [apply N; discriminate|]. split; [apply N; discriminate|].
  apply Sel_yes; [|apply Sel_nil]. split.
  - exists [], (at_ "test"), []. split; [reflexivity|]. split; [reflexivity|]. intros b r' [].
  - intros a [<-|[]]; discriminate.
Qed.

Lemma suite_owns : owns X0 suite_addr suite_table suite_talk suite_own.
Proof.
  intros f st w. constructor; [|constructor]. split; [reflexivity|]. cbn [fst snd].
  assert (F : forall n, 0 <= n < 256 -> frame_means suite_addr suite_table 2 [AvPrim (VNum 0)] [AvPrim (VNum n)]
    (MkFrame (Some LInfo) 2 (Some (lit "{=u32:us}")) [AUxx 0] (lit "x = {=u8}") [AUxx n])).
  { intros n B. split; [lia|]. split; [reflexivity|]. split; [reflexivity|]. split.
    - exists [TU W8]. split; [types_tac|]. apply MA_cons; [|apply MA_nil]. eapply MG_prim; [reflexivity|]. constructor. exact B.
    - cbn [t_timestamp suite_table]. split; [reflexivity|]. exists [TU W32]. split; [types_tac|]. apply MA_cons; [|apply MA_nil].
      eapply MG_prim; [reflexivity|]. constructor. vm_compute. split; discriminate || reflexivity. }
  destruct (200 <=? w).
  - specialize (F 200 ltac:(lia)). destruct (TextMain.message_text X0 suite_addr suite_table _ _ _ _ [] F) as (frags & E & _ & T).
    destruct F as (_ & _ & _ & (tys & A & M) & _). exists frags, tys, [AUxx 200]. split; [exact E|]. split; [exact A|]. split; [exact M|]. apply T. vm_compute. reflexivity.
  - specialize (F 7 ltac:(lia)). destruct (TextMain.message_text X0 suite_addr suite_table _ _ _ _ [] F) as (frags & E & _ & T).
    destruct F as (_ & _ & _ & (tys & A & M) & _). exists frags, tys, [AUxx 7]. split; [exact E|]. split; [exact A|]. split; [exact M|]. apply T. vm_compute. reflexivity.
Qed.

Lemma suite_speaks : Forall2 speaks (flat_map (uttered suite_talk) (run_main not_never all_levels passing suite_output 200)) suite_said.
Proof. vm_compute. repeat constructor. Qed.

Lemma suite_says : Forall2 (says suite_addr suite_table) (written_frames (LoggerMain.messages suite_tasks)) suite_said.
Proof.
  constructor; [|constructor; [|constructor; [|constructor]]]; (split; [vm_compute; reflexivity|]); (split; [cbn [sd_index]; lia|]); (split; [reflexivity|]); (split; [reflexivity|]).
  - split.
    + exists [TUsize; TUsize]. split; [types_tac|]. repeat (apply MA_cons || apply MA_nil); (eapply MG_prim; [reflexivity|]); constructor; vm_compute; split; discriminate || reflexivity.
    + cbn [t_timestamp suite_table]. split; [reflexivity|]. exists [TU W32]. split; [types_tac|]. repeat (apply MA_cons || apply MA_nil); (eapply MG_prim; [reflexivity|]); constructor; vm_compute; split; discriminate || reflexivity.
  - split.
    + exists [TU W8]. split; [types_tac|]. repeat (apply MA_cons || apply MA_nil); (eapply MG_prim; [reflexivity|]); constructor; vm_compute; split; discriminate || reflexivity.
    + cbn [t_timestamp suite_table]. split; [reflexivity|]. exists [TU W32]. split; [types_tac|]. repeat (apply MA_cons || apply MA_nil); (eapply MG_prim; [reflexivity|]); constructor; vm_compute; split; discriminate || reflexivity.
  - split.
    + exists []. split; [types_tac|constructor].
    + cbn [t_timestamp suite_table]. split; [reflexivity|]. exists [TU W32]. split; [types_tac|]. repeat (apply MA_cons || apply MA_nil); (eapply MG_prim; [reflexivity|]); constructor; vm_compute; split; discriminate || reflexivity.
Qed.

Lemma suite_texts : Forall (fun x => says_statement X0 suite_table (sd_time_args x) (sd_args x) (sd_frame x) (sd_time x) (sd_message x)) suite_said.
Proof.
  assert (Q : forall w x, says suite_addr suite_table w x ->
    display_timestamp X0 suite_table (sd_frame x) = Some (Some (sd_time x)) -> display_message X0 suite_table (sd_frame x) = Some (sd_message x) ->
    says_statement X0 suite_table (sd_time_args x) (sd_args x) (sd_frame x) (sd_time x) (sd_message x)).
  { intros w x (_ & F) T M. split.
    - destruct (TextMain.message_text X0 suite_addr suite_table _ _ _ _ [] F) as (frags & E & _ & W). exists frags. split; [exact E|now apply W].
    - cbn [t_timestamp suite_table]. destruct (TextMain.timestamp_text X0 suite_addr suite_table _ _ _ _ _ F eq_refl) as (frags & E & W).
      exists frags. split; [exact E|now apply W]. }
  pose proof suite_says as F. inversion F as [|? ? ? ? F1 F']; subst. inversion F' as [|? ? ? ? F2 F'']; subst. inversion F'' as [|? ? ? ? F3 _]; subst.
  constructor; [|constructor; [|constructor; [|constructor]]]; eapply Q; eauto; vm_compute; reflexivity.
Qed.

Lemma suite_ran : reachable Semihosting EncRzcobs None [suite_tasks] suite_device /\ finished suite_device.
Proof.
  split.
  - destruct (follow_runs Semihosting EncRzcobs None (repeat 0%nat 60) _ 0 _ (Run_start _ _ _ (boot Semihosting [suite_tasks]))) as [m R]. exists m. exact R.
  - intros c H. vm_compute in H. destruct H as [<-|[]]. reflexivity.
Qed.

(** The hypotheses of [suite_terminal], and what it then says. *)
Lemma suite_hypotheses :
  table_safe suite_table /\ linked suite_addr suite_table (lit "{=istr}") /\ linked suite_addr suite_table [] /\ linked suite_addr suite_table (lit "`#[should_error]` ") /\
  (forall f w w' r, In f (u_tests the_suite) -> passing (f_name f) (with_state f) w = (w', Returns r) -> exists s, returned_text X0 suite_addr suite_table r s) /\
  programs_ok None [suite_tasks] /\ calm suite_tasks /\
  how_ends (Exit 1) (run_main not_never all_levels passing suite_output 200) = Some (Exit 0) /\
  qemu_run X0 suite_table (qemu_turns (map (fun b => [b]) (out suite_device)) [] (Exit 0) []) =
    ([lit "0.000010 (1/1) running `first`..." ++ [10]; lit "0.000011 " ++ x_paint X0 LInfo (lit "INFO") ++ lit " x = 200" ++ [10];
      lit "0.000012 all tests passed!" ++ [10]], Some 0).
Proof.
  split; [apply table_safe_b_ok; vm_compute; reflexivity|]. do 3 (split; [apply linkedb_ok; vm_compute; reflexivity|]).
  split.
  { intros f w w' r _ H. injection H as _ <-. exists (lit "()"). split; [apply linkedb_ok; vm_compute; reflexivity|reflexivity]. }
  split; [split; [repeat constructor|discriminate]|]. split; [repeat constructor|]. split; [vm_compute; reflexivity|]. vm_compute. reflexivity.
Qed.

(** What the bytes are for any events, each statement one microsecond after the one before. *)
Fixpoint suite_stream (n : Z) (us : list utterance) : list (list bytes) :=
  match us with
  | [] => []
  | (_, f, args) :: us' => [encode_frame suite_addr (suite_addr f) (Some (lit "{=u32:us}")) [AvPrim (VNum n)] f args] :: suite_stream (n + 1) us'
  end.

Lemma failing_run :
  let evs := run_main not_never all_levels failing suite_output 3 in
  how_ends (Exit 1) evs = Some (Exit 1) /\
  qemu_run X0 suite_table (qemu_turns [transmitted EncRzcobs (suite_stream 5 (flat_map (uttered suite_talk) evs))] [] (Exit 1) []) =
    ([lit "0.000005 (1/1) running `first`..." ++ [10]; lit "0.000006 " ++ x_paint X0 LInfo (lit "INFO") ++ lit " x = 7" ++ [10];
      lit "0.000007 " ++ x_paint X0 LError (lit "ERROR") ++ lit " panicked at 'test failed with outcome: Err(())'" ++ [10]], Some 1).
Proof. split; vm_compute; reflexivity. Qed.

(** A panic handler that asks for success, as that of the programs in [firmware/qemu/src/bin] (they are
    tests of the output), and QEMU killed while a test hangs: qemu-run reports success. *)
Definition hanging (f : bytes) (state : bool) (w : Z) : Z * ended := (w, Hangs).

Lemma wrong_success :
  (let evs := run_main not_never all_levels failing suite_output 3 in ~ flawless evs /\ how_ends (Exit 0) evs = Some (Exit 0) /\
   exists ls, qemu_run X0 suite_table (qemu_turns [transmitted EncRzcobs (suite_stream 5 (flat_map (uttered suite_talk) evs))] [] (Exit 0) []) = (ls, Some 0)) /\
  (let evs := run_main not_never all_levels hanging suite_output 3 in ~ flawless evs /\ how_ends (Exit 1) evs = None /\
   exists ls, qemu_run X0 suite_table (qemu_turns [transmitted EncRzcobs (suite_stream 5 (flat_map (uttered suite_talk) evs))] [] (Signal 9) []) = (ls, Some 0)).
Proof.
  split; cbv zeta.
  - split; [|split; [vm_compute; reflexivity|eexists; vm_compute; reflexivity]]. intros [_ N].
    eapply N. vm_compute. right. right. left. reflexivity.
  - split; [|split; [vm_compute; reflexivity|eexists; vm_compute; reflexivity]]. intros [N _].
    destruct (N (lit "first") false 3 Hangs) as [v Q]; [vm_compute; right; left; reflexivity|discriminate].
Qed.

Lemma stream_frames : forall us n, Forall2 (fun w u => exists i n, concat w = encode_frame suite_addr i (Some (lit "{=u32:us}")) [AvPrim (VNum n)] (snd (fst u)) (snd u)) (suite_stream n us) us.
Proof.
  induction us as [|[[l f] args] us IH]; intros n; [constructor|]. cbn [suite_stream]. constructor; [|apply IH]. exists (suite_addr f), n. cbn [concat fst snd].
  apply app_nil_r.
Qed.

Lemma unconditional : exists o addr tbl,
  (exists evs bs, evs = run_main not_never all_levels failing o 3 /\ ~ flawless evs /\ how_ends (Exit 0) evs = Some (Exit 0) /\
     Forall2 (fun w u => exists i n, concat w = encode_frame addr i (Some (lit "{=u32:us}")) [AvPrim (VNum n)] (snd (fst u)) (snd u)) bs (flat_map (uttered suite_talk) evs) /\
     exists ls, qemu_run X0 tbl (qemu_turns [transmitted EncRzcobs bs] [] (Exit 0) []) = (ls, Some 0)) /\
  (exists evs bs, evs = run_main not_never all_levels hanging o 3 /\ ~ flawless evs /\ how_ends (Exit 1) evs = None /\
     Forall2 (fun w u => exists i n, concat w = encode_frame addr i (Some (lit "{=u32:us}")) [AvPrim (VNum n)] (snd (fst u)) (snd u)) bs (flat_map (uttered suite_talk) evs) /\
     exists ls, qemu_run X0 tbl (qemu_turns [transmitted EncRzcobs bs] [] (Signal 9) []) = (ls, Some 0)).
Proof.
  exists suite_output, suite_addr, suite_table. destruct wrong_success as [(A1 & A2 & A3) (B1 & B2 & B3)]. split.
  - eexists. eexists. split; [reflexivity|]. split; [exact A1|]. split; [exact A2|]. split; [apply (stream_frames _ 5)|exact A3].
  - eexists. eexists. split; [reflexivity|]. split; [exact B1|]. split; [exact B2|]. split; [apply (stream_frames _ 5)|exact B3].
Qed.
