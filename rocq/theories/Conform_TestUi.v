(** The model against [firmware/defmt-test/macros/tests/ui]: each module is rejected by [#[tests]] with
    the first error of the expected output ([mod-must-be-inline] is rejected by the compiler before).
    These are no claims. *)
From Verif Require Import Base HarnessModel HarnessExamples.

Definition ui_modules : list (bool * module) :=
  [(* after_each-duplicate *) (true, mod_ [fn_ [at_ "after_each"] "first" [] None; fn_ [at_ "after_each"] "second" [] None]);
   (* after_each-has-ignore-macro *) (true, mod_ [fn_ [at_ "after_each"; at_ "ignore"] "init" [] None]);
   (* after_each-has-immutable-param *) (true, mod_ [fn_ [at_ "after_each"] "say" [ArgTyped (TyRef None false (ty_ "str"))] None]);
   (* after_each-has-incompatible-init-signature *) (true, mod_ [fn_ [at_ "init"] "init" [] (Some (ty_ "u32")); fn_ [at_ "after_each"] "say" [ArgTyped (TyRef None true (ty_ "u16"))] None]);
   (* after_each-has-invalid-function-signature *) (true, mod_ [fn_ [at_ "after_each"] "hello" [ArgTyped (ty_ "i32"); ArgTyped (ty_ "i32")] (Some (ty_ "i32"))]);
   (* after_each-has-non-empty-signature *) (true, mod_ [fn_ [at_ "init"] "init" [] None; fn_ [at_ "after_each"] "test" [ArgTyped (TyRef None true (ty_ "u8"))] None]);
   (* after_each-has-should-error-macro *) (true, mod_ [fn_ [at_ "after_each"; at_ "should_error"] "init" [] None]);
   (* before_each-duplicate *) (true, mod_ [fn_ [at_ "before_each"] "first" [] None; fn_ [at_ "before_each"] "second" [] None]);
   (* before_each-has-ignore-macro *) (true, mod_ [fn_ [at_ "before_each"; at_ "ignore"] "init" [] None]);
   (* before_each-has-immutable-param *) (true, mod_ [fn_ [at_ "before_each"] "say" [ArgTyped (TyRef None false (ty_ "str"))] None]);
   (* before_each-has-incompatible-init-signature *) (true, mod_ [fn_ [at_ "init"] "init" [] (Some (ty_ "u32")); fn_ [at_ "before_each"] "say" [ArgTyped (TyRef None true (ty_ "u16"))] None]);
   (* before_each-has-invalid-function-signature *) (true, mod_ [fn_ [at_ "before_each"] "hello" [ArgTyped (ty_ "i32"); ArgTyped (ty_ "i32")] (Some (ty_ "i32"))]);
   (* before_each-has-non-empty-signature *) (true, mod_ [fn_ [at_ "init"] "init" [] None; fn_ [at_ "before_each"] "test" [ArgTyped (TyRef None true (ty_ "u8"))] None]);
   (* before_each-has-should-error-macro *) (true, mod_ [fn_ [at_ "before_each"; at_ "should_error"] "init" [] None]);
   (* init-duplicate *) (true, mod_ [fn_ [at_ "init"] "first" [] None; fn_ [at_ "init"] "second" [] None]);
   (* init-has-ignore-macro *) (true, mod_ [fn_ [at_ "init"; at_ "ignore"] "init" [] None]);
   (* init-has-invalid-function-signaturen *) (true, mod_ [fn_ [at_ "init"] "hello" [ArgTyped (ty_ "i32"); ArgTyped (ty_ "i32")] (Some (ty_ "i32"))]);
   (* init-has-should-error-macro *) (true, mod_ [fn_ [at_ "init"; at_ "should_error"] "init" [] None]);
   (* teardown-duplicate *) (true, mod_ [fn_ [at_ "teardown"] "first" [] None; fn_ [at_ "teardown"] "second" [] None]);
   (* teardown-has-ignore-macro *) (true, mod_ [fn_ [at_ "teardown"; at_ "ignore"] "teardown" [] None]);
   (* teardown-has-immutable-param *) (true, mod_ [fn_ [at_ "teardown"] "say" [ArgTyped (TyRef None false (ty_ "str"))] None]);
   (* teardown-has-incompatible-init-signature *) (true, mod_ [fn_ [at_ "init"] "init" [] (Some (ty_ "u32")); fn_ [at_ "teardown"] "say" [ArgTyped (TyRef None true (ty_ "u16"))] None]);
   (* teardown-has-invalid-function-signature *) (true, mod_ [fn_ [at_ "teardown"] "hello" [ArgTyped (ty_ "i32"); ArgTyped (ty_ "i32")] (Some (ty_ "i32"))]);
   (* teardown-has-non-empty-signature *) (true, mod_ [fn_ [at_ "init"] "init" [] None; fn_ [at_ "teardown"] "teardown" [ArgTyped (TyRef None true (ty_ "u8"))] None]);
   (* teardown-has-should-error-macro *) (true, mod_ [fn_ [at_ "teardown"; at_ "should_error"] "teardown" [] None]);
   (* test-has-immutable-param *) (true, mod_ [fn_ [at_ "test"] "say" [ArgTyped (TyRef None false (ty_ "str"))] None]);
   (* test-has-incompatible-init-signature *) (true, mod_ [fn_ [at_ "init"] "init" [] (Some (ty_ "u32")); fn_ [at_ "test"] "say" [ArgTyped (TyRef None true (ty_ "u16"))] None]);
   (* test-has-invalid-function-signature *) (true, mod_ [fn_ [at_ "test"] "hello" [ArgTyped (ty_ "i32"); ArgTyped (ty_ "i32")] (Some (ty_ "i32"))]);
   (* test-has-non-empty-signature *) (true, mod_ [fn_ [at_ "init"] "init" [] None; fn_ [at_ "test"] "test" [ArgTyped (TyRef None true (ty_ "u8"))] None]);
   (* tests-has-argument *) (false, mod_ []);
   (* tests-without-annotated-function *) (true, mod_ [fn_ [] "some_function" [] None])].

Definition ui_errors : list bytes :=
  [lit "only a single `#[after_each]` function can be defined";
   lit "`#[ignore]` is not allowed on the `#[after_each]` function";
   lit "parameter must be a mutable reference (`&mut $Type`)";
   lit "this type must match `#[init]`s return type: u32";
   lit "`#[after_each]` function must have signature `fn()` or `fn(state: &mut T)`";
   lit "no state was initialized by `#[init]`; signature must be `fn()`";
   lit "`#[should_error]` is not allowed on the `#[after_each]` function";
   lit "only a single `#[before_each]` function can be defined";
   lit "`#[ignore]` is not allowed on the `#[before_each]` function";
   lit "parameter must be a mutable reference (`&mut $Type`)";
   lit "this type must match `#[init]`s return type: u32";
   lit "`#[before_each]` function must have signature `fn()` or `fn(state: &mut T)`";
   lit "no state was initialized by `#[init]`; signature must be `fn()`";
   lit "`#[should_error]` is not allowed on the `#[before_each]` function";
   lit "only a single `#[init]` function can be defined";
   lit "`#[ignore]` is not allowed on the `#[init]` function";
   lit "`#[init]` function must have signature `fn()` or `fn() -> T`";
   lit "`#[should_error]` is not allowed on the `#[init]` function";
   lit "only a single `#[teardown]` function can be defined";
   lit "`#[ignore]` is not allowed on the `#[teardown]` function";
   lit "parameter must be a mutable reference (`&mut $Type`)";
   lit "this type must match `#[init]`s return type: u32";
   lit "`#[teardown]` function must have signature `fn()` or `fn(state: &mut T)`";
   lit "no state was initialized by `#[init]`; signature must be `fn()`";
   lit "`#[should_error]` is not allowed on the `#[teardown]` function";
   lit "parameter must be a mutable reference (`&mut $Type`)";
   lit "this type must match `#[init]`s return type: u32";
   lit "`#[test]` function must have signature `fn()` or `fn(state: &mut T)`";
   lit "no state was initialized by `#[init]`; signature must be `fn()`";
   lit "`#[test]` attribute takes no arguments";
   lit "function requires `#[init]`, `#[teardown]`, `#[before_each]`, `#[after_each]`, or `#[test]` attribute"].

Example ui : map (fun m => tests_impl (fst m) (snd m)) ui_modules = map Err ui_errors.
Proof. vm_compute. reflexivity. Qed.
