(** The test harness on concrete modules: [firmware/qemu/tests/defmt-test.rs], and some of
    [firmware/defmt-test/macros/tests/ui]. *)
From Verif Require Import Base Utf8 FormatSpec ParserModel DecoderModel EncodeModel EncodeSpec DecoderExamples EncodeExamples
  DisplayModel DisplayExamples TextSpec TextMain TextExamples MacroModel MacroSpec MacroExamples HarnessModel HarnessSpec HarnessProofs HarnessMain.

Definition at_ (s : string) : attr := MkAttr [lit s] [].
Definition cfg_ (s : string) : attr := MkAttr [lit "cfg"] (lit s).
Definition sig_ (inputs : list fn_arg) (output : option ty) : signature :=
  MkSig false false false false false false false inputs output.
Definition fn_ (attrs : list attr) (name : string) (inputs : list fn_arg) (output : option ty) : item :=
  IFn (MkFunc attrs (lit name) (sig_ inputs output)).
Definition ty_ (s : string) : ty := TyOther [lit s].
Definition mut_ (t : ty) : fn_arg := ArgTyped (TyRef None true t).
Definition mod_ (l : list item) : module := MkModule (lit "tests") (Some l).

Definition not_never (c : bytes) : bool := beq c (lit "not(never)").

(** [firmware/qemu/tests/defmt-test.rs]. *)
Definition qemu_module : module := mod_ [
  IOther (lit "struct InitStruct {..}");
  fn_ [at_ "init"] "init" [] (Some (ty_ "InitStruct"));
  fn_ [at_ "test"] "change_init_struct" [mut_ (ty_ "InitStruct")] None;
  fn_ [at_ "test"] "test_for_changed_init_struct" [mut_ (ty_ "InitStruct")] None;
  fn_ [at_ "test"] "assert_true" [] (Some (ty_ "()"));
  IOther (lit "const CUSTOM_MAX: u8 = 255;");
  fn_ [at_ "test"] "assert_imported_max" [] None;
  fn_ [cfg_ "not(never)"; at_ "test"] "result" [] (Some (ty_ "Result<(),()>"));
  fn_ [cfg_ "never"; at_ "test"] "doesnt_compile" [] None;
  fn_ [at_ "test"; at_ "should_error"] "should_error" [] (Some (ty_ "Result<(),()>"));
  fn_ [at_ "test"; at_ "ignore"] "ignored" [] (Some (ty_ "Result<(),()>"));
  fn_ [at_ "test"; at_ "should_error"] "fail" [] (Some (ty_ "Result<&'static str,()>"));
  fn_ [at_ "test"] "assert_some_data" [] None].

Definition unit_ty : rty := RComp (lit "()") [].

(** The machine: the field of the state. *)
Definition qemu_apply (f : bytes) (state : bool) (w : Z) : Z * ended :=
  if beq f (lit "init") then (8, Returns RetUnit)
  else if beq f (lit "change_init_struct") then if w =? 8 then (42, Returns RetUnit) else (w, Panics)
  else if beq f (lit "test_for_changed_init_struct") then (w, if w =? 42 then Returns RetUnit else Panics)
  else if beq f (lit "result") then (w, Returns (RetOk unit_ty unit_ty (VList [])))
  else if beq f (lit "should_error") || beq f (lit "ignored") then (w, Returns (RetErr unit_ty unit_ty (VList [])))
  else if beq f (lit "fail") then (w, Returns (RetOk (RPrim PStr) unit_ty (VText (lit "this should have returned `Err`"))))
  else (w, Returns RetUnit).

(** What the host prints. *)
Definition test_prog (f : bytes) : table := MkTable None
  [(1, MkEntry GPrintln f []); (2, MkEntry GPrim (lit "{=istr}") []); (3, MkEntry GPrim (lit "{=str}") []);
   (4, MkEntry GPrim (lit "Err({=?})|Ok({=?})") []); (5, MkEntry GPrim (lit "()") []);
   (6, MkEntry GStr (lit "`#[should_error]` ") []); (7, MkEntry GStr [] [])] [] EncRzcobs.

Definition test_line (f : bytes) (args : list aval) : option bytes :=
  match decode (test_prog f) (encode_frame (find_addr (t_entries (test_prog f))) 1 None [] f args) with
  | Ok (fr, _) => display_message X0 (test_prog f) fr
  | _ => None
  end.

Inductive seen := Line (s : option bytes) | Call (f : bytes) (state : bool) (r : ended) | Error (s : list (option bytes)) | Success.

Definition see (e : event Z) : seen :=
  match e with
  | Said _ f args => Line (test_line f args)
  | Called _ f st _ r => Call f st r
  | Failed _ l => Error (map (fun x => let '(_, f, args) := x in test_line f args) l)
  | Exited _ => Success
  end.

Definition visible (e : event Z) : list seen := match e with Called _ _ _ _ _ => [] | _ => [see e] end.

Definition run_module (cfg : bytes -> bool) (apply : bytes -> bool -> Z -> Z * ended) (m : module) : outcome bytes (bool * list seen) :=
  o <- tests_impl true m ;; Ok (builds cfg o, flat_map visible (run_main cfg all_levels apply o 0)).

Definition line (s : string) : seen := Line (Some (lit s)).

(** [firmware/qemu/tests/defmt-test.out]. *)
Lemma qemu_run : run_module not_never qemu_apply qemu_module = Ok (true,
  [line "(1/9) running `change_init_struct`..."; line "(2/9) running `test_for_changed_init_struct`...";
   line "(3/9) running `assert_true`..."; line "(4/9) running `assert_imported_max`..."; line "(5/9) running `result`...";
   line "(6/9) running `should_error`..."; line "(7/9) ignoring `ignored`..."; line "(8/9) running `fail`...";
   Error [Some (lit "panicked at '`#[should_error]` test failed with outcome: Ok(this should have returned `Err`)'")]]).
Proof. vm_compute. reflexivity. Qed.

(** With hooks, and all tests passing. *)
Definition hook_module : module := mod_ [
  fn_ [at_ "after_each"] "after" [mut_ (ty_ "u8")] None;
  fn_ [at_ "test"] "first" [] None;
  fn_ [at_ "teardown"] "end" [] None;
  fn_ [at_ "init"] "begin" [] (Some (ty_ "u8"));
  fn_ [at_ "before_each"] "before" [] None;
  fn_ [at_ "should_error"; at_ "test"] "second" [mut_ (ty_ "u8")] (Some (ty_ "R"))].

Definition hook_apply (f : bytes) (state : bool) (w : Z) : Z * ended :=
  (w + 1, Returns (if beq f (lit "second") then RetErr unit_ty unit_ty (VList []) else RetUnit)).

Definition returns_unit : ended := Returns RetUnit.

Lemma hook_run : (o <- tests_impl true hook_module ;; Ok (map see (run_main not_never all_levels hook_apply o 0))) = Ok
  [Call (lit "begin") false returns_unit;
   line "(1/2) running `first`..."; Call (lit "before") false returns_unit; Call (lit "first") false returns_unit; Call (lit "after") true returns_unit;
   line "(2/2) running `second`..."; Call (lit "before") false returns_unit;
   Call (lit "second") true (Returns (RetErr unit_ty unit_ty (VList []))); Call (lit "after") true returns_unit;
   line "all tests passed!"; Call (lit "end") false returns_unit; Success].
Proof. vm_compute. reflexivity. Qed.

(** Errors of the macro, as in the tests of the repository. *)
Lemma rejected_ex :
  map (tests_impl true) [
    mod_ [fn_ [at_ "after_each"] "first" [] None; fn_ [at_ "after_each"] "second" [] None];
    mod_ [fn_ [at_ "after_each"; at_ "ignore"] "init" [] None];
    mod_ [fn_ [at_ "after_each"] "say" [ArgTyped (TyRef None false (ty_ "str"))] None];
    mod_ [fn_ [at_ "init"] "init" [] (Some (ty_ "u32")); fn_ [at_ "after_each"] "say" [mut_ (ty_ "u16")] None];
    mod_ [fn_ [at_ "after_each"] "hello" [ArgTyped (ty_ "i32"); ArgTyped (ty_ "i32")] (Some (ty_ "i32"))];
    mod_ [fn_ [at_ "init"] "init" [] None; fn_ [at_ "test"] "test" [mut_ (ty_ "u8")] None];
    mod_ [fn_ [] "f" [] None];
    MkModule (lit "foo") None] =
  map Err [lit "only a single `#[after_each]` function can be defined";
    lit "`#[ignore]` is not allowed on the `#[after_each]` function";
    lit "parameter must be a mutable reference (`&mut $Type`)";
    lit "this type must match `#[init]`s return type: u32";
    lit "`#[after_each]` function must have signature `fn()` or `fn(state: &mut T)`";
    lit "no state was initialized by `#[init]`; signature must be `fn()`";
    lit "function requires `#[init]`, `#[teardown]`, `#[before_each]`, `#[after_each]`, or `#[test]` attribute";
    lit "module must be inline (e.g. `mod foo {}`)"].
Proof. vm_compute. reflexivity. Qed.

(** ** A test that is ignored, and panics *)

Definition ignored_fn : func := MkFunc [at_ "test"; at_ "ignore"] (lit "needs_hardware") (sig_ [] None).
Definition ignored_module : module := mod_ [IFn ignored_fn].
Definition ignored_suite : suite := MkSuite None None None None [ignored_fn].
Definition panics_always (f : bytes) (state : bool) (w : Z) : Z * ended := (w, Panics).

Lemma ignored_role : forall r, has_role ignored_fn r -> r = Test.
Proof.
  intros r H. apply (last_role_unique (f_attrs ignored_fn)); [exact H|].
  exists [], (at_ "test"), [at_ "ignore"]. split; [reflexivity|]. split; [reflexivity|].
  intros b r' [<-|[]]; destruct r'; discriminate.
Qed.

Lemma ignored_is_suite : suite_of not_never ignored_module ignored_suite.
Proof.
  exists [IFn ignored_fn]. split; [reflexivity|].
  assert (N : forall r, r <> Test -> the_hook (functions [IFn ignored_fn]) r None).
  { intros r Hr f [<-|[]] H. apply Hr, ignored_role. exact H. }
  split; [apply N; discriminate|]. split; [apply N; discriminate|]. split; [apply N; discriminate|]. split; [apply N; discriminate|].
  apply Sel_yes; [|apply Sel_nil]. split.
  - exists [], (at_ "test"), [at_ "ignore"]. split; [reflexivity|]. split; [reflexivity|].
    intros b r' [<-|[]]; destruct r'; discriminate.
  - intros a [<-|[<-|[]]]; discriminate.
Qed.

Lemma ignored_runs : exists (m : module) (o : output) (u : suite) (apply : bytes -> bool -> Z -> Z * ended),
  tests_impl true m = Ok o /\ builds not_never o = true /\ suite_of not_never m u /\
  Forall (fun f => no_braces (f_name f)) (u_tests u) /\
  (forall X addr tbl ss w evs, documented_script u ss -> performs X addr tbl all_levels apply ss w evs -> reports_success evs) /\
  (forall w, ~ reports_success (run_main not_never all_levels apply o w)).
Proof.
  exists ignored_module. eexists. exists ignored_suite, panics_always. split; [reflexivity|]. split; [vm_compute; reflexivity|].
  split; [exact ignored_is_suite|]. split.
  { constructor; [|constructor]. split; vm_compute; intros H; repeat (destruct H as [H|H]; [discriminate H|]); exact H. }
  split.
  - intros X addr tbl ss w evs (ts & T & ->) P. cbn [ignored_suite u_tests u_init u_teardown do_hook app] in T, P.
    inversion T as [|k f fs s1 rest T1 T2]; subst. inversion T2; subst. clear T T2.
    inversion T1 as [Ig|e Ni]; subst.
    + cbn [app] in P. inversion P; subst. inversion H4; subst. inversion H6; subst. unfold reports_success. cbn [In]. auto.
    + destruct Ni. exists (at_ "ignore"). split; [right; left; reflexivity|reflexivity].
  - intros w H. cbn in H. destruct H as [H|[H|[]]]; discriminate H.
Qed.

(** The tests of the messages, [firmware/defmt-test/macros/tests/ui]. *)
Definition ui_tests : list (bool * module * bytes) := [
  (* after_each-duplicate *) (true, mod_ [fn_ [at_ "after_each"] "first" [] None; fn_ [at_ "after_each"] "second" [] None], lit "only a single `#[after_each]` function can be defined");
  (* after_each-has-ignore-macro *) (true, mod_ [fn_ [at_ "after_each"; at_ "ignore"] "init" [] None], lit "`#[ignore]` is not allowed on the `#[after_each]` function");
  (* after_each-has-immutable-param *) (true, mod_ [fn_ [at_ "after_each"] "say" [ArgTyped (TyRef None false (ty_ "str"))] None], lit "parameter must be a mutable reference (`&mut $Type`)");
  (* after_each-has-incompatible-init-signature *) (true, mod_ [fn_ [at_ "init"] "init" [] (Some (ty_ "u32")); fn_ [at_ "after_each"] "say" [mut_ (ty_ "u16")] None], lit "this type must match `#[init]`s return type: u32");
  (* after_each-has-invalid-function-signature *) (true, mod_ [fn_ [at_ "after_each"] "hello" [ArgTyped (ty_ "i32"); ArgTyped (ty_ "i32")] (Some (ty_ "i32"))], lit "`#[after_each]` function must have signature `fn()` or `fn(state: &mut T)`");
  (* after_each-has-non-empty-signature *) (true, mod_ [fn_ [at_ "init"] "init" [] None; fn_ [at_ "after_each"] "test" [mut_ (ty_ "u8")] None], lit "no state was initialized by `#[init]`; signature must be `fn()`");
  (* after_each-has-should-error-macro *) (true, mod_ [fn_ [at_ "after_each"; at_ "should_error"] "init" [] None], lit "`#[should_error]` is not allowed on the `#[after_each]` function");
  (* before_each-duplicate *) (true, mod_ [fn_ [at_ "before_each"] "first" [] None; fn_ [at_ "before_each"] "second" [] None], lit "only a single `#[before_each]` function can be defined");
  (* before_each-has-ignore-macro *) (true, mod_ [fn_ [at_ "before_each"; at_ "ignore"] "init" [] None], lit "`#[ignore]` is not allowed on the `#[before_each]` function");
  (* before_each-has-immutable-param *) (true, mod_ [fn_ [at_ "before_each"] "say" [ArgTyped (TyRef None false (ty_ "str"))] None], lit "parameter must be a mutable reference (`&mut $Type`)");
  (* before_each-has-incompatible-init-signature *) (true, mod_ [fn_ [at_ "init"] "init" [] (Some (ty_ "u32")); fn_ [at_ "before_each"] "say" [mut_ (ty_ "u16")] None], lit "this type must match `#[init]`s return type: u32");
  (* before_each-has-invalid-function-signature *) (true, mod_ [fn_ [at_ "before_each"] "hello" [ArgTyped (ty_ "i32"); ArgTyped (ty_ "i32")] (Some (ty_ "i32"))], lit "`#[before_each]` function must have signature `fn()` or `fn(state: &mut T)`");
  (* before_each-has-non-empty-signature *) (true, mod_ [fn_ [at_ "init"] "init" [] None; fn_ [at_ "before_each"] "test" [mut_ (ty_ "u8")] None], lit "no state was initialized by `#[init]`; signature must be `fn()`");
  (* before_each-has-should-error-macro *) (true, mod_ [fn_ [at_ "before_each"; at_ "should_error"] "init" [] None], lit "`#[should_error]` is not allowed on the `#[before_each]` function");
  (* init-duplicate *) (true, mod_ [fn_ [at_ "init"] "first" [] None; fn_ [at_ "init"] "second" [] None], lit "only a single `#[init]` function can be defined");
  (* init-has-ignore-macro *) (true, mod_ [fn_ [at_ "init"; at_ "ignore"] "init" [] None], lit "`#[ignore]` is not allowed on the `#[init]` function");
  (* init-has-invalid-function-signaturen *) (true, mod_ [fn_ [at_ "init"] "hello" [ArgTyped (ty_ "i32"); ArgTyped (ty_ "i32")] (Some (ty_ "i32"))], lit "`#[init]` function must have signature `fn()` or `fn() -> T`");
  (* init-has-should-error-macro *) (true, mod_ [fn_ [at_ "init"; at_ "should_error"] "init" [] None], lit "`#[should_error]` is not allowed on the `#[init]` function");
  (* mod-must-be-inline *) (true, MkModule (lit "tests") None, lit "module must be inline (e.g. `mod foo {}`)");
  (* teardown-duplicate *) (true, mod_ [fn_ [at_ "teardown"] "first" [] None; fn_ [at_ "teardown"] "second" [] None], lit "only a single `#[teardown]` function can be defined");
  (* teardown-has-ignore-macro *) (true, mod_ [fn_ [at_ "teardown"; at_ "ignore"] "teardown" [] None], lit "`#[ignore]` is not allowed on the `#[teardown]` function");
  (* teardown-has-immutable-param *) (true, mod_ [fn_ [at_ "teardown"] "say" [ArgTyped (TyRef None false (ty_ "str"))] None], lit "parameter must be a mutable reference (`&mut $Type`)");
  (* teardown-has-incompatible-init-signature *) (true, mod_ [fn_ [at_ "init"] "init" [] (Some (ty_ "u32")); fn_ [at_ "teardown"] "say" [mut_ (ty_ "u16")] None], lit "this type must match `#[init]`s return type: u32");
  (* teardown-has-invalid-function-signature *) (true, mod_ [fn_ [at_ "teardown"] "hello" [ArgTyped (ty_ "i32"); ArgTyped (ty_ "i32")] (Some (ty_ "i32"))], lit "`#[teardown]` function must have signature `fn()` or `fn(state: &mut T)`");
  (* teardown-has-non-empty-signature *) (true, mod_ [fn_ [at_ "init"] "init" [] None; fn_ [at_ "teardown"] "teardown" [mut_ (ty_ "u8")] None], lit "no state was initialized by `#[init]`; signature must be `fn()`");
  (* teardown-has-should-error-macro *) (true, mod_ [fn_ [at_ "teardown"; at_ "should_error"] "teardown" [] None], lit "`#[should_error]` is not allowed on the `#[teardown]` function");
  (* test-has-immutable-param *) (true, mod_ [fn_ [at_ "test"] "say" [ArgTyped (TyRef None false (ty_ "str"))] None], lit "parameter must be a mutable reference (`&mut $Type`)");
  (* test-has-incompatible-init-signature *) (true, mod_ [fn_ [at_ "init"] "init" [] (Some (ty_ "u32")); fn_ [at_ "test"] "say" [mut_ (ty_ "u16")] None], lit "this type must match `#[init]`s return type: u32");
  (* test-has-invalid-function-signature *) (true, mod_ [fn_ [at_ "test"] "hello" [ArgTyped (ty_ "i32"); ArgTyped (ty_ "i32")] (Some (ty_ "i32"))], lit "`#[test]` function must have signature `fn()` or `fn(state: &mut T)`");
  (* test-has-non-empty-signature *) (true, mod_ [fn_ [at_ "init"] "init" [] None; fn_ [at_ "test"] "test" [mut_ (ty_ "u8")] None], lit "no state was initialized by `#[init]`; signature must be `fn()`");
  (* tests-has-argument *) (false, mod_ [], lit "`#[test]` attribute takes no arguments");
  (* tests-without-annotated-function *) (true, mod_ [fn_ [] "some_function" [] None], lit "function requires `#[init]`, `#[teardown]`, `#[before_each]`, `#[after_each]`, or `#[test]` attribute")].

