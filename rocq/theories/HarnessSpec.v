(** What [#[defmt_test::tests]] promises ([firmware/defmt-test/README.md]): the functions
    that a module may have, and the run of a test suite. *)
From Verif Require Import Base Numerals ParserModel DecoderModel EncodeModel EncodeSpec DisplayModel TextSpec TextMain MacroModel MacroSpec
  HarnessModel.

(* ------------------------------------------------------------------ *)
(** * Modules that are accepted *)

Inductive role := Init | Teardown | BeforeEach | AfterEach | Test.

Definition role_name (r : role) : string :=
  match r with
  | Init => "init" | Teardown => "teardown" | BeforeEach => "before_each" | AfterEach => "after_each" | Test => "test"
  end.

Definition marked (f : func) (s : string) : Prop := exists a, In a (f_attrs f) /\ a_path a = [lit s].

(** The role of a function is that of the last attribute that names one. *)
Definition has_role (f : func) (r : role) : Prop :=
  exists l a l', f_attrs f = l ++ a :: l' /\ a_path a = [lit (role_name r)] /\
    forall b r', In b l' -> a_path b <> [lit (role_name r')].

Definition functions (items : list item) : list func :=
  flat_map (fun i => match i with IFn f => [f] | IOther _ => [] end) items.

Definition plain_fn (s : signature) : Prop :=
  s_const s = false /\ s_async s = false /\ s_unsafe s = false /\ s_abi s = false /\
  s_generics s = false /\ s_where s = false /\ s_variadic s = false.

(** The state: what [init] says that it returns. *)
Definition makes_state (fs : list func) (t : ty) : Prop :=
  exists f, In f fs /\ has_role f Init /\ s_output (f_sig f) = Some t.

(** [fn()] or [fn(state: &mut T)], whatever it returns. *)
Definition takes_state (fs : list func) (s : signature) : Prop :=
  s_inputs s = [] \/ exists lifetime t, s_inputs s = [ArgTyped (TyRef lifetime true t)] /\ makes_state fs t.

Definition valid_fn (fs : list func) (f : func) (r : role) : Prop :=
  plain_fn (f_sig f) /\
  (r <> Test -> ~ marked f "should_error" /\ ~ marked f "ignore") /\
  match r with
  | Init => s_inputs (f_sig f) = []
  | _ => takes_state fs (f_sig f)
  end.

Definition valid_module (m : module) : Prop := exists items, m_content m = Some items /\
  let fs := functions items in
  (forall f, In f fs -> exists r, has_role f r /\ valid_fn fs f r) /\
  (forall r i j f g, r <> Test -> nth_error fs i = Some f -> nth_error fs j = Some g ->
     has_role f r -> has_role g r -> i = j).

(* ------------------------------------------------------------------ *)
(** * The run *)

Section Run.
  Context (cfg : bytes -> bool).

  (** A function that is compiled. *)
  Definition present (f : func) : Prop := forall a, In a (f_attrs f) -> a_path a = [lit "cfg"] -> cfg (a_text a) = true.

  (** A part of a list, in the same order. *)
  Inductive selected {A} (P : A -> Prop) : list A -> list A -> Prop :=
  | Sel_nil : selected P [] []
  | Sel_yes x l l' : P x -> selected P l l' -> selected P (x :: l) (x :: l')
  | Sel_no x l l' : ~ P x -> selected P l l' -> selected P (x :: l) l'.

  (** The tests that are compiled, in order of their definition. *)
  Definition suite_tests (fs : list func) (ts : list func) : Prop :=
    selected (fun f => has_role f Test /\ present f) fs ts.

  (** The hook with a role, if there is one. *)
  Definition the_hook (fs : list func) (r : role) (h : option func) : Prop :=
    match h with
    | Some f => In f fs /\ has_role f r
    | None => forall f, In f fs -> ~ has_role f r
    end.

  Record suite := MkSuite {
    u_init : option func; u_before : option func; u_after : option func; u_teardown : option func; u_tests : list func }.

  Definition suite_of (m : module) (u : suite) : Prop := exists items, m_content m = Some items /\
    let fs := functions items in
    the_hook fs Init (u_init u) /\ the_hook fs BeforeEach (u_before u) /\ the_hook fs AfterEach (u_after u) /\
    the_hook fs Teardown (u_teardown u) /\ suite_tests fs (u_tests u).

  (** The names do not clash: with each other, with those of the generated code, and with
      the local names that hide functions.  Hooks must be compiled: their calls always are. *)
  Definition hooks (u : suite) : list func :=
    flat_map (fun h => match h with Some f => [f] | None => [] end) [u_init u; u_teardown u; u_before u; u_after u].

  Definition well_named (u : suite) : Prop :=
    NoDup (map f_name (hooks u ++ u_tests u)) /\
    (forall f, In f (hooks u ++ u_tests u) ->
       f_name f <> lit "__defmt_test_entry" /\ f_name f <> lit "DEFMT_TEST_COUNT") /\
    (forall f, In f (hooks u ++ u_tests u) -> u_init u <> Some f -> u_init u <> None -> f_name f <> lit "state") /\
    (forall f, In f (hooks u ++ u_tests u) -> u_init u <> Some f -> f_name f <> lit "__defmt_test_number") /\
    (forall f, In f (hooks u) -> present f).

  (** ** Scripts *)

  Inductive step :=
  | Say (s : bytes)                           (* a line of text appears *)
  | Do (f : func)                             (* the function is called *)
  | Judge (f : func) (should_error : bool)    (* the function is called and its outcome judged *)
  | Quit.                                     (* the device reports success *)

  Definition do_hook (h : option func) : list step := match h with Some f => [Do f] | None => [] end.

  Definition progress (k n : nat) (what : string) (f : func) : step :=
    Say (lit "(" ++ dec_str (Z.of_nat k) ++ lit "/" ++ dec_str (Z.of_nat n) ++ lit ") " ++ lit what ++ lit " `" ++ f_name f ++ lit "`...").

  Section Script.
    (** What happens to tests that are ignored. *)
    Context (ignored : func -> list step).

    Inductive test_steps (u : suite) (k : nat) (f : func) : list step -> Prop :=
    | TS_ignored : marked f "ignore" ->
        test_steps u k f (progress k (length (u_tests u)) "ignoring" f :: ignored f)
    | TS_test e : ~ marked f "ignore" -> (e = true <-> marked f "should_error") ->
        test_steps u k f (progress k (length (u_tests u)) "running" f :: do_hook (u_before u) ++ [Judge f e] ++ do_hook (u_after u)).

    Inductive tests_steps (u : suite) : nat -> list func -> list step -> Prop :=
    | TSS_nil k : tests_steps u k [] []
    | TSS_cons k f fs ss rest : test_steps u k f ss -> tests_steps u (S k) fs rest -> tests_steps u k (f :: fs) (ss ++ rest).

    Definition script (u : suite) (ss : list step) : Prop := exists ts, tests_steps u 1 (u_tests u) ts /\
      ss = do_hook (u_init u) ++ ts ++ [Say (lit "all tests passed!")] ++ do_hook (u_teardown u) ++ [Quit].
  End Script.

  (** The documentation: tests that are ignored are not run. *)
  Definition documented_script : suite -> list step -> Prop := script (fun _ => []).
  (** The code runs them, but does not look at what they return. *)
  Definition actual_script : suite -> list step -> Prop := script (fun f => [Do f]).

  (** ** Performances *)

  Context (X : externals) (addr : bytes -> Z) (tbl : table) (enabled : level -> bool).
  Context {W : Type} (apply : bytes -> bool -> W -> W * ended).

  (** Whether the function is given the state. *)
  Definition with_state (f : func) : bool := match s_inputs (f_sig f) with [] => false | _ => true end.

  Definition judged_ok (r : returned) (should_error : bool) : Prop :=
    match r with RetErr _ _ _ => should_error = true | RetOk _ _ _ | RetUnit => should_error = false end.

  (** The text of what a test returned. *)
  Definition returned_text (r : returned) (s : bytes) : Prop :=
    match r with
    | RetUnit => linked addr tbl (lit "()") /\ s = lit "()"
    | RetOk t e v => linked addr tbl (lit "Err({=?})|Ok({=?})") /\
        exists sv, printable X addr tbl None t v sv /\ s = lit "Ok(" ++ sv ++ lit ")"
    | RetErr t e v => linked addr tbl (lit "Err({=?})|Ok({=?})") /\
        exists sv, printable X addr tbl None e v sv /\ s = lit "Err(" ++ sv ++ lit ")"
    end.

  (** The message of a test that failed. *)
  Definition failure_logged (r : returned) (should_error : bool) (l : list logged) : Prop :=
    let note := if should_error then lit "`#[should_error]` " else [] in
    if enabled LError then exists f args, l = [(LError, f, args)] /\
      forall s, linked addr tbl (lit "{=istr}") -> linked addr tbl note -> returned_text r s ->
      reads X addr tbl f args (quoted (note ++ lit "test failed with outcome: " ++ s))
    else l = [].

  (** The script is followed until a function panics or hangs, or a test fails; every
      function finds the machine as the one before left it. *)
  Inductive performs : list step -> W -> list (event W) -> Prop :=
  | P_say s ss w f args evs : reads X addr tbl f args s -> performs ss w evs ->
      performs (Say s :: ss) w (Said W f args :: evs)
  | P_do f ss w w' r evs : apply (f_name f) (with_state f) w = (w', Returns r) -> performs ss w' evs ->
      performs (Do f :: ss) w (Called W (f_name f) (with_state f) w (Returns r) :: evs)
  | P_do_stops f ss w w' e : apply (f_name f) (with_state f) w = (w', e) -> (e = Panics \/ e = Hangs) ->
      performs (Do f :: ss) w [Called W (f_name f) (with_state f) w e]
  | P_passes f b ss w w' r evs : apply (f_name f) (with_state f) w = (w', Returns r) -> judged_ok r b -> performs ss w' evs ->
      performs (Judge f b :: ss) w (Called W (f_name f) (with_state f) w (Returns r) :: evs)
  | P_fails f b ss w w' r l : apply (f_name f) (with_state f) w = (w', Returns r) -> ~ judged_ok r b -> failure_logged r b l ->
      performs (Judge f b :: ss) w [Called W (f_name f) (with_state f) w (Returns r); Failed W l]
  | P_stops f b ss w w' e : apply (f_name f) (with_state f) w = (w', e) -> (e = Panics \/ e = Hangs) ->
      performs (Judge f b :: ss) w [Called W (f_name f) (with_state f) w e]
  | P_quit w : performs [Quit] w [Exited W].
End Run.

(** The functions that were called, in order, and those that a script would call. *)
Definition calls {W} (evs : list (event W)) : list bytes :=
  flat_map (fun e => match e with Called _ f _ _ _ => [f] | _ => [] end) evs.

Definition planned (ss : list step) : list bytes :=
  flat_map (fun s => match s with Do f | Judge f _ => [f_name f] | _ => [] end) ss.

(** The device reports success. *)
Definition reports_success {W} (evs : list (event W)) : Prop := In (Exited W) evs.

(** The test was run, and its outcome was the one asked for. *)
Definition passed {W} (evs : list (event W)) (f : func) : Prop := exists st w r,
  In (Called W (f_name f) st w (Returns r)) evs /\
  match r with RetErr _ _ _ => marked f "should_error" | _ => ~ marked f "should_error" end.

(** Nothing went wrong. *)
Definition flawless {W} (evs : list (event W)) : Prop :=
  (forall f st w r, In (Called W f st w r) evs -> exists v, r = Returns v) /\ forall l, ~ In (Failed W l) evs.
