(** Property C65: a test suite in QEMU, from the module of tests to the terminal and the exit code. *)
From Verif Require Import LoggerModel LoggerSpec LoggerMain LoggerExamples.
From Verif Require Import Base FormatSpec ParserModel DecoderModel DecoderPanic EncodeModel EncodeSpec DisplayModel DisplayExamples TextSpec TextMain
  MacroModel MacroSpec MacroExamples HarnessModel HarnessSpec HarnessExamples RzcobsModel StreamModel SinkSpec HostModel HostSpec DeviceSpec SuiteModel SuiteSpec SuiteMain SuiteExamples.

(** The lines are those of the script of the suite, with those of its functions in between, until something fails,
    and the failure; the exit code is 0 if the suite succeeds, else that of the panic handler. *)
Theorem C65_terminal : forall cfg X addr tbl enabled W (apply : bytes -> bool -> W -> W * ended) talk own m o u w msg ts xs s handler status pieces last rest,
  table_safe tbl -> linked addr tbl (lit "{=istr}") -> linked addr tbl [] -> linked addr tbl (lit "`#[should_error]` ") ->
  tests_impl true m = Ok o -> suite_of cfg m u ->
  Forall (fun f => no_braces (f_name f)) (u_tests u) -> Z.of_nat (length (u_tests u)) < 2 ^ 32 ->
  owns X addr tbl talk own ->
  (forall f w w' r, In f (u_tests u) -> apply (f_name f) (with_state f) w = (w', Returns r) -> exists s, returned_text X addr tbl r s) ->
  let evs := run_main cfg enabled apply o w in
  Forall2 speaks (flat_map (uttered talk) evs) xs ->
  Forall (fun x => says_statement X tbl (sd_time_args x) (sd_args x) (sd_frame x) (sd_time x) (sd_message x)) xs ->
  programs_ok msg [ts] -> calm ts -> Forall2 (says addr tbl) (written_frames (LoggerMain.messages ts)) xs ->
  reachable Semihosting (t_encoding tbl) msg [ts] s -> finished s ->
  how_ends handler evs = Some status -> qemu_output pieces last rest = out s ->
  exists ss v, actual_script u ss /\ shows X addr tbl enabled apply own ss w (map message_of xs) v /\
    qemu_run X tbl (qemu_turns pieces last status rest) =
      (map (qemu_line X tbl) xs, Some match v with Succeeds => 0 | _ => match handler with Exit c => c | Signal _ => 0 end end) /\
    (v = Succeeds <-> flawless evs) /\
    (v = Succeeds -> forall f, In f (u_tests u) -> ~ marked f "ignore" -> passed evs f).
Proof. exact suite_terminal. Qed.
Print Assumptions C65_terminal.

(** With a panic handler that asks for a failure, the exit code is 0 if and only if nothing went wrong, and then
    all tests have passed. *)
Theorem C65_exit_code : forall cfg X addr tbl enabled W (apply : bytes -> bool -> W -> W * ended) talk own m o u w msg ts xs s c status pieces last rest,
  table_safe tbl -> linked addr tbl (lit "{=istr}") -> linked addr tbl [] -> linked addr tbl (lit "`#[should_error]` ") ->
  tests_impl true m = Ok o -> suite_of cfg m u ->
  Forall (fun f => no_braces (f_name f)) (u_tests u) -> Z.of_nat (length (u_tests u)) < 2 ^ 32 ->
  owns X addr tbl talk own ->
  (forall f w w' r, In f (u_tests u) -> apply (f_name f) (with_state f) w = (w', Returns r) -> exists s, returned_text X addr tbl r s) ->
  let evs := run_main cfg enabled apply o w in
  Forall2 speaks (flat_map (uttered talk) evs) xs ->
  Forall (fun x => says_statement X tbl (sd_time_args x) (sd_args x) (sd_frame x) (sd_time x) (sd_message x)) xs ->
  programs_ok msg [ts] -> calm ts -> Forall2 (says addr tbl) (written_frames (LoggerMain.messages ts)) xs ->
  reachable Semihosting (t_encoding tbl) msg [ts] s -> finished s ->
  c <> 0 -> how_ends (Exit c) evs = Some status -> qemu_output pieces last rest = out s ->
  exists ls code, qemu_run X tbl (qemu_turns pieces last status rest) = (ls, Some code) /\
    (code = 0 <-> flawless evs) /\ (code = 0 -> forall f, In f (u_tests u) -> ~ marked f "ignore" -> passed evs f).
Proof. exact suite_exit_code. Qed.
Print Assumptions C65_exit_code.

Example C65_ex :
  tests_impl true suite_module = Ok suite_output /\ suite_of not_never suite_module the_suite /\
  owns X0 suite_addr suite_table suite_talk suite_own /\
  Forall2 speaks (flat_map (uttered suite_talk) (run_main not_never all_levels passing suite_output 200)) suite_said /\
  Forall (fun x => says_statement X0 suite_table (sd_time_args x) (sd_args x) (sd_frame x) (sd_time x) (sd_message x)) suite_said /\
  Forall2 (says suite_addr suite_table) (written_frames (LoggerMain.messages suite_tasks)) suite_said /\
  reachable Semihosting EncRzcobs None [suite_tasks] suite_device /\ finished suite_device.
Proof.
  split; [exact suite_accepted|]. split; [exact suite_is|]. split; [exact suite_owns|]. split; [exact suite_speaks|].
  split; [exact suite_texts|]. split; [exact suite_says|exact suite_ran].
Qed.

Example C65_passes_ex :
  table_safe suite_table /\ linked suite_addr suite_table (lit "{=istr}") /\ linked suite_addr suite_table [] /\ linked suite_addr suite_table (lit "`#[should_error]` ") /\
  (forall f w w' r, In f (u_tests the_suite) -> passing (f_name f) (with_state f) w = (w', Returns r) -> exists s, returned_text X0 suite_addr suite_table r s) /\
  programs_ok None [suite_tasks] /\ calm suite_tasks /\
  how_ends (Exit 1) (run_main not_never all_levels passing suite_output 200) = Some (Exit 0) /\
  qemu_run X0 suite_table (qemu_turns (map (fun b => [b]) (out suite_device)) [] (Exit 0) []) =
    ([lit "0.000010 (1/1) running `first`..." ++ [10]; lit "0.000011 " ++ x_paint X0 LInfo (lit "INFO") ++ lit " x = 200" ++ [10];
      lit "0.000012 all tests passed!" ++ [10]], Some 0).
Proof. exact suite_hypotheses. Qed.

Example C65_fails_ex :
  let evs := run_main not_never all_levels failing suite_output 3 in
  how_ends (Exit 1) evs = Some (Exit 1) /\
  qemu_run X0 suite_table (qemu_turns [transmitted EncRzcobs (suite_stream 5 (flat_map (uttered suite_talk) evs))] [] (Exit 1) []) =
    ([lit "0.000005 (1/1) running `first`..." ++ [10]; lit "0.000006 " ++ x_paint X0 LInfo (lit "INFO") ++ lit " x = 7" ++ [10];
      lit "0.000007 " ++ x_paint X0 LError (lit "ERROR") ++ lit " panicked at 'test failed with outcome: Err(())'" ++ [10]], Some 1).
Proof. exact failing_run. Qed.

(** The conditions are needed: with a panic handler that asks for success a test that fails is a success, and so
    is a test that hangs until QEMU is killed. *)
Theorem C65_unconditional_refuted : exists o addr tbl,
  (exists evs bs, evs = run_main not_never all_levels failing o 3 /\ ~ flawless evs /\ how_ends (Exit 0) evs = Some (Exit 0) /\
     Forall2 (fun w u => exists i n, concat w = encode_frame addr i (Some (lit "{=u32:us}")) [AvPrim (VNum n)] (snd (fst u)) (snd u)) bs (flat_map (uttered suite_talk) evs) /\
     exists ls, qemu_run X0 tbl (qemu_turns [transmitted EncRzcobs bs] [] (Exit 0) []) = (ls, Some 0)) /\
  (exists evs bs, evs = run_main not_never all_levels hanging o 3 /\ ~ flawless evs /\ how_ends (Exit 1) evs = None /\
     Forall2 (fun w u => exists i n, concat w = encode_frame addr i (Some (lit "{=u32:us}")) [AvPrim (VNum n)] (snd (fst u)) (snd u)) bs (flat_map (uttered suite_talk) evs) /\
     exists ls, qemu_run X0 tbl (qemu_turns [transmitted EncRzcobs bs] [] (Signal 9) []) = (ls, Some 0)).
Proof. exact unconditional. Qed.
Print Assumptions C65_unconditional_refuted.
