(** Property C56: test suites of [defmt_test]. *)
From Verif Require Import Base Utf8 FormatSpec ParserModel DecoderModel EncodeModel EncodeSpec DisplayModel DisplayExamples TextSpec TextMain
  MacroModel MacroSpec MacroExamples HarnessModel HarnessSpec HarnessProofs HarnessFaults HarnessMain HarnessExamples HarnessExact.

(** The macro accepts the documented modules, and no others. *)
Theorem C56_accepts : forall m, (exists o, tests_impl true m = Ok o) <-> valid_module m.
Proof. exact accepts_spec. Qed.
Print Assumptions C56_accepts.

Example C56_accepts_ex : (exists o, tests_impl true qemu_module = Ok o) /\
  tests_impl true (mod_ [fn_ [at_ "init"] "init" [] None; fn_ [at_ "test"] "test" [mut_ (ty_ "u8")] None]) =
    Err (lit "no state was initialized by `#[init]`; signature must be `fn()`").
Proof. split; [eexists; vm_compute; reflexivity|vm_compute; reflexivity]. Qed.

(** Otherwise it answers with the message of a fault that the module has. *)
Theorem C56_messages : forall m items, m_content m = Some items ->
  (exists o, tests_impl true m = Ok o) \/ exists e, tests_impl true m = Err e /\ fault (functions items) e.
Proof.
  intros m items C. destruct (always_answers true m) as [H|(e & E)]; [left; exact H|right]. exists e. split; [exact E|]. exact (message_fault m items e C E).
Qed.
Print Assumptions C56_messages.

(** The messages in the tests of the repository. *)
Example C56_messages_ex : length ui_tests = 32%nat /\
  Forall (fun x => let '(no_args, m, message) := x in tests_impl no_args m = Err message) ui_tests.
Proof. split; [reflexivity|]. repeat constructor. Qed.

(** Every module has a suite, the code of a suite with proper names compiles, and the number of
    tests that is announced is the number of tests that are compiled. *)
Theorem C56_suite : forall cfg m, m_content m <> None -> exists u, suite_of cfg m u.
Proof. exact suite_exists. Qed.
Print Assumptions C56_suite.

Theorem C56_builds : forall cfg m o u, tests_impl true m = Ok o -> suite_of cfg m u -> well_named cfg u -> builds cfg o = true.
Proof. exact builds_spec. Qed.
Print Assumptions C56_builds.

(** Exactly when it compiles; [hs] are the hooks that are compiled. *)
Theorem C56_builds_exact : forall cfg m o u hs, tests_impl true m = Ok o -> suite_of cfg m u -> selected (present cfg) (hooks u) hs ->
  (builds cfg o = true <-> compiles u hs).
Proof. exact builds_exact. Qed.
Print Assumptions C56_builds_exact.

(** Conditions on hooks are not honoured: the suite works with the hook, and does not compile without it. *)
Theorem C56_condition_refuted : exists m o, tests_impl true m = Ok o /\ builds not_never o = false /\ builds (fun _ => true) o = true.
Proof. destruct hook_condition as (o & H). exists off_module, o. exact H. Qed.
Print Assumptions C56_condition_refuted.

Theorem C56_count : forall cfg m o u, tests_impl true m = Ok o -> suite_of cfg m u ->
  test_count cfg o = Z.of_nat (length (u_tests u)).
Proof. exact count_spec. Qed.
Print Assumptions C56_count.

(** The run: hooks and tests in their order, each finding the machine as the one before
    left it, until something fails. *)
Theorem C56_run : forall cfg X addr tbl enabled W (apply : bytes -> bool -> W -> W * ended) m o u w,
  tests_impl true m = Ok o -> suite_of cfg m u ->
  Forall (fun f => no_braces (f_name f)) (u_tests u) -> Z.of_nat (length (u_tests u)) < 2 ^ 32 ->
  exists ss, actual_script u ss /\ performs X addr tbl enabled apply ss w (run_main cfg enabled apply o w).
Proof. exact @run_performs. Qed.
Print Assumptions C56_run.

Example C56_run_ex : (o <- tests_impl true hook_module ;; Ok (map see (run_main not_never all_levels hook_apply o 0))) = Ok
  [Call (lit "begin") false returns_unit;
   line "(1/2) running `first`..."; Call (lit "before") false returns_unit; Call (lit "first") false returns_unit; Call (lit "after") true returns_unit;
   line "(2/2) running `second`..."; Call (lit "before") false returns_unit;
   Call (lit "second") true (Returns (RetErr unit_ty unit_ty (VList []))); Call (lit "after") true returns_unit;
   line "all tests passed!"; Call (lit "end") false returns_unit; Success].
Proof. exact hook_run. Qed.

Example C56_run_qemu_ex : run_module not_never qemu_apply qemu_module = Ok (true,
  [line "(1/9) running `change_init_struct`..."; line "(2/9) running `test_for_changed_init_struct`...";
   line "(3/9) running `assert_true`..."; line "(4/9) running `assert_imported_max`..."; line "(5/9) running `result`...";
   line "(6/9) running `should_error`..."; line "(7/9) ignoring `ignored`..."; line "(8/9) running `fail`...";
   Error [Some (lit "panicked at '`#[should_error]` test failed with outcome: Ok(this should have returned `Err`)'")]]).
Proof. exact qemu_run. Qed.

(** Every function that the script names is called at most once per mention, in order; all of them if the run
    is reported as a success. *)
Theorem C56_order : forall cfg enabled W (apply : bytes -> bool -> W -> W * ended) m o u w,
  tests_impl true m = Ok o -> suite_of cfg m u ->
  Forall (fun f => no_braces (f_name f)) (u_tests u) -> Z.of_nat (length (u_tests u)) < 2 ^ 32 ->
  let evs := run_main cfg enabled apply o w in
  exists ss rest, actual_script u ss /\ planned ss = calls evs ++ rest /\ (reports_success evs -> rest = []).
Proof. exact (fun cfg => @run_order cfg DisplayExamples.X0 (fun _ => 0) (test_prog [])). Qed.
Print Assumptions C56_order.

(** Success is reported if and only if nothing went wrong; then, and whenever the last line
    of the tests appears, all tests that are not ignored have run and passed. *)
Theorem C56_verdict : forall cfg enabled W (apply : bytes -> bool -> W -> W * ended) m o u w,
  tests_impl true m = Ok o -> suite_of cfg m u ->
  Forall (fun f => no_braces (f_name f)) (u_tests u) -> Z.of_nat (length (u_tests u)) < 2 ^ 32 ->
  let evs := run_main cfg enabled apply o w in
  (reports_success evs <-> flawless evs) /\
  (reports_success evs \/ In (Said W (lit "all tests passed!") []) evs ->
    forall f, In f (u_tests u) -> ~ marked f "ignore" -> passed evs f).
Proof. exact (fun cfg => @run_verdict cfg DisplayExamples.X0 (fun _ => 0) (test_prog [])). Qed.
Print Assumptions C56_verdict.

(** What is documented holds for suites without tests that are ignored. *)
Theorem C56_documented_partial : forall cfg X addr tbl enabled W (apply : bytes -> bool -> W -> W * ended) m o u w,
  tests_impl true m = Ok o -> suite_of cfg m u ->
  Forall (fun f => no_braces (f_name f)) (u_tests u) -> Z.of_nat (length (u_tests u)) < 2 ^ 32 ->
  (forall f, In f (u_tests u) -> ~ marked f "ignore") ->
  exists ss, documented_script u ss /\ performs X addr tbl enabled apply ss w (run_main cfg enabled apply o w).
Proof. exact @run_documented. Qed.
Print Assumptions C56_documented_partial.

(** Tests that are ignored are run all the same: one that panics ends the suite. *)
Theorem C56_ignored_refuted : exists (m : module) (o : output) (u : suite) (apply : bytes -> bool -> Z -> Z * ended),
  tests_impl true m = Ok o /\ builds not_never o = true /\ suite_of not_never m u /\
  Forall (fun f => no_braces (f_name f)) (u_tests u) /\
  (forall X addr tbl ss w evs, documented_script u ss -> performs X addr tbl all_levels apply ss w evs -> reports_success evs) /\
  (forall w, ~ reports_success (run_main not_never all_levels apply o w)).
Proof. exact ignored_runs. Qed.
Print Assumptions C56_ignored_refuted.

(** Errors that hooks return are dropped, and the last line can be followed by a panic of [teardown]. *)
Theorem C56_hook_error_refuted : exists o, tests_impl true end_module = Ok o /\ builds not_never o = true /\ forall w,
  let evs := run_main not_never all_levels (end_apply (Returns an_error)) o w in
  In (Called Z (lit "end") false w (Returns an_error)) evs /\ reports_success evs.
Proof. exact hook_error. Qed.
Print Assumptions C56_hook_error_refuted.

Theorem C56_last_line_refuted : exists o, tests_impl true end_module = Ok o /\ builds not_never o = true /\ forall w,
  let evs := run_main not_never all_levels (end_apply Panics) o w in
  In (Said Z (lit "all tests passed!") []) evs /\ ~ reports_success evs.
Proof. exact late_panic. Qed.
Print Assumptions C56_last_line_refuted.
