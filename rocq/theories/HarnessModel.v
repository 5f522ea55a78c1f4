(** The test harness: [firmware/defmt-test/macros/src/lib.rs] (the attribute macro
    [#[tests]]), [firmware/defmt-test/src/lib.rs:29-44] ([TestOutcome]) and
    [firmware/defmt-test/src/export.rs] ([check_outcome], [exit]).

    Three stages: the macro ([tests_impl]), what the compiler makes of its output
    ([builds]), and the run of the generated [main] on the device ([run_main]).

    Simplifications:
    - a type is a list of tokens, except that references are told apart; equality of
      types is equality of tokens, as for [syn::Type];
    - items that are not functions are opaque, and define none of the names that the
      generated code calls;
    - spans are not modelled: an error is its message;
    - attributes have a path and, for [cfg], the text of the condition; [cfg_attr] is like
      any other attribute (the macro runs before it is expanded on inner items);
    - a function is its effect on the machine (memory, peripherals, the state made by
      [init], what it has logged), and how it ends.  The value that it returns is kept
      only for [check_outcome]; for all others it is as if the function returned unit. *)
From Verif Require Import Base ParserModel EncodeModel EnvFilterModel MacroModel.

(* ------------------------------------------------------------------ *)
(** * Source *)

Inductive ty :=
| TyRef (lifetime : option bytes) (mutable : bool) (elem : ty)
| TyOther (tokens : list bytes).

Inductive fn_arg := ArgSelf | ArgTyped (t : ty).

(** [syn::Signature]; the flags tell whether the part is there. *)
Record signature := MkSig {
  s_const : bool; s_async : bool; s_unsafe : bool; s_abi : bool;
  s_generics : bool; s_where : bool; s_variadic : bool;
  s_inputs : list fn_arg; s_output : option ty }.

Record attr := MkAttr { a_path : list bytes; a_text : bytes }.
Record func := MkFunc { f_attrs : list attr; f_name : bytes; f_sig : signature }.
Inductive item := IFn (f : func) | IOther (tokens : bytes).
Record module := MkModule { m_name : bytes; m_content : option (list item) }.

(* ------------------------------------------------------------------ *)
(** * The macro *)

(** [syn::Path::is_ident]. *)
Definition is_ident (a : attr) (s : string) : bool :=
  match a_path a with [x] => beq x (lit s) | _ => false end.

(** [lib.rs:553-560]. *)
Inductive kind := KAfterEach | KBeforeEach | KInit | KTeardown | KTest.

(** [lib.rs:56-84]: the closure of [retain], on one attribute, with the three variables
    that it assigns. *)
Record marks := MkMarks { mk_kind : option kind; mk_error : bool; mk_ignore : bool }.

Definition mark (a : attr) (m : marks) : bool * marks :=
  if is_ident a "init" then (false, MkMarks (Some KInit) (mk_error m) (mk_ignore m))
  else if is_ident a "teardown" then (false, MkMarks (Some KTeardown) (mk_error m) (mk_ignore m))
  else if is_ident a "test" then (false, MkMarks (Some KTest) (mk_error m) (mk_ignore m))
  else if is_ident a "before_each" then (false, MkMarks (Some KBeforeEach) (mk_error m) (mk_ignore m))
  else if is_ident a "after_each" then (false, MkMarks (Some KAfterEach) (mk_error m) (mk_ignore m))
  else if is_ident a "should_error" then (false, MkMarks (mk_kind m) true (mk_ignore m))
  else if is_ident a "ignore" then (false, MkMarks (mk_kind m) (mk_error m) true)
  else (true, m).

Fixpoint retain (l : list attr) (m : marks) : list attr * marks :=
  match l with
  | [] => ([], m)
  | a :: l' =>
      let '(keep, m1) := mark a m in
      let '(kept, m2) := retain l' m1 in
      (if keep then a :: kept else kept, m2)
  end.

(** [lib.rs:596-609]. *)
Definition check_fn_sig (s : signature) : bool :=
  negb (s_const s) && negb (s_async s) && negb (s_unsafe s) && negb (s_abi s) &&
  negb (s_generics s) && negb (s_where s) && negb (s_variadic s).

(** [lib.rs:611-625]. *)
Definition get_mutable_reference_type (a : fn_arg) : option ty :=
  match a with
  | ArgTyped (TyRef _ true e) => Some e
  | _ => None
  end.

(** [lib.rs:627-637]. *)
Definition extract_cfgs (l : list attr) : list attr := filter (fun a => is_ident a "cfg") l.

(** [lib.rs:639-645]: the tokens, without the spaces between them. *)
Fixpoint ty_tokens (t : ty) : list bytes :=
  match t with
  | TyOther l => l
  | TyRef lt mu e =>
      [lit "&"] ++ match lt with Some l => [l] | None => [] end ++ (if mu then [lit "mut"] else []) ++ ty_tokens e
  end.

Definition type_ident (t : ty) : bytes := concat (ty_tokens t).

Definition opt_beq (a b : option bytes) : bool :=
  match a, b with Some x, Some y => beq x y | None, None => true | _, _ => false end.

Fixpoint tokens_beq (a b : list bytes) : bool :=
  match a, b with
  | [], [] => true
  | x :: a', y :: b' => beq x y && tokens_beq a' b'
  | _, _ => false
  end.

(** [PartialEq] of [syn::Type]. *)
Fixpoint ty_beq (a b : ty) : bool :=
  match a, b with
  | TyRef l1 m1 e1, TyRef l2 m2 e2 => opt_beq l1 l2 && Bool.eqb m1 m2 && ty_beq e1 e2
  | TyOther t1, TyOther t2 => tokens_beq t1 t2
  | _, _ => false
  end.

(** [lib.rs:583-589] and the structures before it. *)
Record test := MkTest { t_cfgs : list attr; t_func : func; t_input : option ty; t_error : bool; t_ignore : bool }.

(** The variables of the loop, [lib.rs:46-51]. *)
Record collected := MkCollected {
  c_init : option (func * option ty);
  c_teardown : option (func * option ty);
  c_before : option (func * option ty);
  c_after : option (func * option ty);
  c_tests : list test;
  c_untouched : list bytes }.

Definition start : collected := MkCollected None None None None [] [].

Definition is_some {A} (x : option A) : bool := match x with Some _ => true | None => false end.

(** [lib.rs:18-26]. *)
Definition signature_msg (name : string) : bytes :=
  lit "`#[" ++ lit name ++ lit "]` function must have signature `fn()` or `fn(state: &mut T)`".

Definition only_single (name : string) : bytes :=
  lit "only a single `#[" ++ lit name ++ lit "]` function can be defined".

Definition not_allowed (what name : string) : bytes :=
  lit "`#[" ++ lit what ++ lit "]` is not allowed on the `#[" ++ lit name ++ lit "]` function".

(** [lib.rs:155-174], and the same text for tests and the two other hooks: signature and
    input of everything but [init]. *)
Definition state_input (name : string) (f : func) : outcome bytes (option ty) :=
  if negb (check_fn_sig (f_sig f)) || (1 <? length (s_inputs (f_sig f)))%nat then Err (signature_msg name)
  else match s_inputs (f_sig f) with
       | [arg] =>
           match get_mutable_reference_type arg with
           | Some t => Ok (Some t)
           | None => Err (lit "parameter must be a mutable reference (`&mut $Type`)")
           end
       | _ => Ok None
       end.

(** [lib.rs:129-176] (teardown), [219-262] (before_each), [263-306] (after_each). *)
Definition hook (name : string) (old : option (func * option ty)) (m : marks) (f : func)
  : outcome bytes (option (func * option ty)) :=
  if is_some old then Err (only_single name)
  else if mk_error m then Err (not_allowed "should_error" name)
  else if mk_ignore m then Err (not_allowed "ignore" name)
  else i <- state_input name f ;; Ok (Some (f, i)).

(** [lib.rs:94-127]. *)
Definition init_hook (old : option (func * option ty)) (m : marks) (f : func)
  : outcome bytes (option (func * option ty)) :=
  if is_some old then Err (only_single "init")
  else if mk_error m then Err (not_allowed "should_error" "init")
  else if mk_ignore m then Err (not_allowed "ignore" "init")
  else if negb (check_fn_sig (f_sig f)) || negb (length (s_inputs (f_sig f)) =? 0)%nat
  then Err (lit "`#[init]` function must have signature `fn()` or `fn() -> T`")
  else Ok (Some (f, s_output (f_sig f))).

Definition missing_kind : bytes :=
  lit "function requires `#[init]`, `#[teardown]`, `#[before_each]`, `#[after_each]`, or `#[test]` attribute".

(** [lib.rs:52-315], one turn of the loop. *)
Definition collect_item (c : collected) (i : item) : outcome bytes collected :=
  match i with
  | IOther t => Ok (MkCollected (c_init c) (c_teardown c) (c_before c) (c_after c) (c_tests c) (c_untouched c ++ [t]))
  | IFn f0 =>
      let '(kept, m) := retain (f_attrs f0) (MkMarks None false false) in
      let f := MkFunc kept (f_name f0) (f_sig f0) in
      match mk_kind m with
      | None => Err missing_kind
      | Some KInit =>
          x <- init_hook (c_init c) m f ;;
          Ok (MkCollected x (c_teardown c) (c_before c) (c_after c) (c_tests c) (c_untouched c))
      | Some KTeardown =>
          x <- hook "teardown" (c_teardown c) m f ;;
          Ok (MkCollected (c_init c) x (c_before c) (c_after c) (c_tests c) (c_untouched c))
      | Some KTest =>
          i <- state_input "test" f ;;
          Ok (MkCollected (c_init c) (c_teardown c) (c_before c) (c_after c)
                (c_tests c ++ [MkTest (extract_cfgs kept) f i (mk_error m) (mk_ignore m)]) (c_untouched c))
      | Some KBeforeEach =>
          x <- hook "before_each" (c_before c) m f ;;
          Ok (MkCollected (c_init c) (c_teardown c) x (c_after c) (c_tests c) (c_untouched c))
      | Some KAfterEach =>
          x <- hook "after_each" (c_after c) m f ;;
          Ok (MkCollected (c_init c) (c_teardown c) (c_before c) x (c_tests c) (c_untouched c))
      end
  end.

Fixpoint collect (c : collected) (l : list item) : outcome bytes collected :=
  match l with
  | [] => Ok c
  | i :: l' => c' <- collect_item c i ;; collect c' l'
  end.

(** ** The generated code *)

(** [f()] or [f(&mut state)]. *)
Record call := MkCall { k_fn : bytes; k_state : bool }.

Inductive stmt :=
| SLetState (f : bytes)                         (* [let mut state = f();] *)
| SCall (k : call)                              (* [f();] *)
| SDiscard (k : call)                           (* [let _ = f();] *)
| SCheck (k : call) (should_error : bool)       (* [check_outcome(f(), should_error);] *)
| SProgress (message : bytes)                   (* [println!(message, __defmt_test_number, DEFMT_TEST_COUNT)] *)
| SPrintln (message : bytes)
| SNext                                         (* [__defmt_test_number += 1;] *)
| SIf (cfgs : list attr) (body : list stmt)     (* [#[cfg(..)] { body }] *)
| SExit.

Record output := MkOutput {
  o_name : bytes;
  o_untouched : list bytes;
  o_count : list (list attr);        (* the blocks of [DEFMT_TEST_COUNT] *)
  o_main : list stmt;
  o_fns : list func }.

(** [lib.rs:336-363] and the same text for hooks and tests: the call, once the type of the
    input is compared with that of the state. *)
Definition state_call (state_ty : option ty) (f : func) (input : option ty) : outcome bytes call :=
  match input with
  | Some t =>
      match state_ty with
      | Some s =>
          if ty_beq t s then Ok (MkCall (f_name f) true)
          else Err (lit "this type must match `#[init]`s return type: " ++ type_ident s)
      | None => Err (lit "no state was initialized by `#[init]`; signature must be `fn()`")
      end
  | None => Ok (MkCall (f_name f) false)
  end.

Definition opt_call (state_ty : option ty) (h : option (func * option ty)) : outcome bytes (option call) :=
  match h with
  | Some (f, input) => k <- state_call state_ty f input ;; Ok (Some k)
  | None => Ok None
  end.

Definition opt_stmt (k : option call) : list stmt := match k with Some k => [SCall k] | None => [] end.

(** [lib.rs:502-507]. *)
Definition progress_message (t : test) : bytes :=
  lit "({=usize}/{=usize}) " ++ lit (if t_ignore t then "ignoring" else "running") ++ lit " `" ++
  f_name (t_func t) ++ lit "`...".

(** [lib.rs:442-477] and [528-534]: the block of one test. *)
Definition test_block (state_ty : option ty) (before after : option call) (t : test) : outcome bytes stmt :=
  k <- state_call state_ty (t_func t) (t_input t) ;;
  Ok (SIf (t_cfgs t) (
    [SProgress (progress_message t)] ++
    (if t_ignore t then [SDiscard k] else opt_stmt before ++ [SCheck k (t_error t)] ++ opt_stmt after) ++
    [SNext])).

Fixpoint test_blocks (state_ty : option ty) (before after : option call) (l : list test) : outcome bytes (list stmt) :=
  match l with
  | [] => Ok []
  | t :: l' =>
      b <- test_block state_ty before after t ;;
      bs <- test_blocks state_ty before after l' ;;
      Ok (b :: bs)
  end.

Definition opt_fn (h : option (func * option ty)) : list func := match h with Some (f, _) => [f] | None => [] end.

(** [lib.rs:317-549]. *)
Definition generate (name : bytes) (c : collected) : outcome bytes output :=
  let state_ty := match c_init c with Some (_, t) => t | None => None end in
  teardown <- opt_call state_ty (c_teardown c) ;;
  before <- opt_call state_ty (c_before c) ;;
  after <- opt_call state_ty (c_after c) ;;
  blocks <- test_blocks state_ty before after (c_tests c) ;;
  Ok (MkOutput name (c_untouched c) (map t_cfgs (c_tests c))
        (match c_init c with Some (f, _) => [SLetState (f_name f)] | None => [] end ++ blocks ++
         [SPrintln (lit "all tests passed!")] ++ opt_stmt teardown ++ [SExit])
        (opt_fn (c_init c) ++ opt_fn (c_teardown c) ++ opt_fn (c_before c) ++ opt_fn (c_after c) ++
         map t_func (c_tests c))).

(** [lib.rs:28-44]; [no_args] tells that the attribute has no arguments. *)
Definition tests_impl (no_args : bool) (m : module) : outcome bytes output :=
  if negb no_args then Err (lit "`#[test]` attribute takes no arguments")
  else match m_content m with
       | None => Err (lit "module must be inline (e.g. `mod foo {}`)")
       | Some items => c <- collect start items ;; generate (m_name m) c
       end.

(* ------------------------------------------------------------------ *)
(** * The compiler *)

Section Device.
  Context (cfg : bytes -> bool).

  (** Code with [#[cfg(..)]] attributes is there if all conditions hold. *)
  Definition active (l : list attr) : bool := forallb (fun a => cfg (a_text a)) (extract_cfgs l).

  (** The code that is left, as a list of statements: every block of the generated code
      is a plain sequence. *)
  Fixpoint flatten (s : stmt) : list stmt :=
    match s with
    | SIf cfgs body => if active cfgs then flat_map flatten body else []
    | _ => [s]
    end.

  Definition main_code (o : output) : list stmt := flat_map flatten (o_main o).

  (** [lib.rs:482-496]. *)
  Definition test_count (o : output) : Z := Z.of_nat (length (filter active (o_count o))).

  Definition called (s : stmt) : list bytes :=
    match s with
    | SLetState f => [f]
    | SCall k | SDiscard k | SCheck k _ => [k_fn k]
    | _ => []
    end.

  Definition has_state (l : list stmt) : bool := existsb (fun s => match s with SLetState _ => true | _ => false end) l.

  (** Local names hide functions: the counter, the static and, after its definition, the
      state. *)
  Definition hidden (o : output) (s : stmt) (f : bytes) : bool :=
    beq f (lit "DEFMT_TEST_COUNT") ||
    match s with
    | SLetState _ => false
    | _ => beq f (lit "__defmt_test_number") || (has_state (main_code o) && beq f (lit "state"))
    end.

  Definition active_names (o : output) : list bytes :=
    map f_name (filter (fun f => active (f_attrs f)) (o_fns o)).

  Fixpoint no_dup (l : list bytes) : bool :=
    match l with [] => true | x :: l' => negb (existsb (beq x) l') && no_dup l' end.

  (** Names are defined once, and those called are functions of the module. *)
  Definition builds (o : output) : bool :=
    no_dup (lit "__defmt_test_entry" :: active_names o) &&
    forallb (fun s => forallb (fun f => existsb (beq f) (active_names o) && negb (hidden o s f)) (called s)) (main_code o).

  (* ---------------------------------------------------------------- *)
  (** * The run *)

  (** What a test returns: [()] or a [Result], with its types and the value. *)
  Inductive returned := RetUnit | RetOk (t e : rty) (v : rval) | RetErr (t e : rty) (v : rval).

  (** [src/lib.rs:33-44]. *)
  Definition is_success (r : returned) : bool := match r with RetErr _ _ _ => false | _ => true end.

  Definition returned_arg (r : returned) : aval :=
    match r with
    | RetUnit => AvFmt (RComp (lit "()") []) (VList [])
    | RetOk t e v => AvFmt (result_ty t e) (VVar 1 [v])
    | RetErr t e v => AvFmt (result_ty t e) (VVar 0 [v])
    end.

  Inductive ended := Returns (r : returned) | Panics | Hangs.

  Inductive event (W : Type) :=
  | Said (format : bytes) (args : list aval)                          (* a line of the harness *)
  | Called (f : bytes) (state : bool) (w : W) (r : ended)             (* a call made when the machine was [w] *)
  | Failed (l : list logged)                                          (* the panic of [check_outcome] *)
  | Exited.                                                           (* [EXIT_SUCCESS] *)

  Context (enabled : level -> bool).

  (** [src/export.rs:16-25]: [None] if the function returns, else what the panic logs. *)
  Definition check_outcome (r : returned) (should_error : bool) : option (list logged) :=
    if Bool.eqb (is_success r) should_error then
      let note := if should_error then lit "`#[should_error]` " else [] in
      Some match panic_macro enabled (Some (MkLogArgs (lit "{}test failed with outcome: {}")
                   [fun _ => AvFmt (RPrim PIStr) (VText note); fun _ => returned_arg r])) with
           | Some run => fst (run (fun _ => None))
           | None => []
           end
    else None.

  Context {W : Type} (apply : bytes -> bool -> W -> W * ended).

  (** The statements of [main]; [n] is [__defmt_test_number]. *)
  Fixpoint exec (count : Z) (l : list stmt) (w : W) (n : Z) : list (event W) :=
    match l with
    | [] => []
    | s :: l' =>
        match s with
        | SLetState f =>
            let '(w', r) := apply f false w in
            Called W f false w r :: match r with Returns _ => exec count l' w' n | _ => [] end
        | SCall k | SDiscard k =>
            let '(w', r) := apply (k_fn k) (k_state k) w in
            Called W (k_fn k) (k_state k) w r :: match r with Returns _ => exec count l' w' n | _ => [] end
        | SCheck k should_error =>
            let '(w', r) := apply (k_fn k) (k_state k) w in
            Called W (k_fn k) (k_state k) w r ::
            match r with
            | Returns v =>
                match check_outcome v should_error with
                | Some logs => [Failed W logs]
                | None => exec count l' w' n
                end
            | _ => []
            end
        | SProgress m => Said W m [AvPrim (VNum n); AvPrim (VNum count)] :: exec count l' w n
        | SPrintln m => Said W m [] :: exec count l' w n
        | SNext => exec count l' w (n + 1)
        | SIf _ _ => []                                 (* not in [main_code] *)
        | SExit => [Exited W]
        end
    end.

  Definition run_main (o : output) (w : W) : list (event W) := exec (test_count o) (main_code o) w 1.
End Device.
