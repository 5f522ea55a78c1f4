(** The test runner: [xtask/src].  What the operating system answers (results of commands, file
    contents) is a [world] that may answer differently every time; texts on the terminal are not
    modelled but for the list of errors, which decides the exit status.  The sets of targets in
    [targets.rs] are lists in the order of the source. *)
From Verif Require Import Base Utf8.

Record command := MkCommand { c_program : bytes; c_args : list bytes; c_dir : option bytes; c_env : list (bytes * bytes) }.

(** [Command::status], [Command::output]. *)
Inductive ran :=
| CannotRun (why : bytes)
| Ran (success : bool) (status stdout stderr : bytes).

Inductive event :=
| Run (c : command) (r : ran)
| ReadFile (path : bytes) (contents : option bytes)
| WriteFile (path contents : bytes) (ok : bool)
| TempDir (path : option bytes)
| Exists (path : bytes) (there : bool).

(** The answers, depending on everything that has happened. *)
Record world := MkWorld {
  w_run : list event -> command -> ran;
  w_read : list event -> bytes -> option bytes;   (* [fs::read_to_string] *)
  w_write : list event -> bytes -> bytes -> bool;
  w_temp : list event -> option bytes;
  w_exists : list event -> bytes -> bool
}.

(** [history]: what has happened, [errors]: [ALL_ERRORS], [main.rs:17]. *)
Record state := MkState { history : list event; errors : list bytes }.

Inductive res (A : Type) :=
| Done (a : A) (s : state)
| Panicked (s : state).
Arguments Done {A}. Arguments Panicked {A}.

Definition M (A : Type) := state -> res A.
Definition ret {A} (a : A) : M A := Done a.
Definition panic {A} : M A := Panicked.
Definition andthen {A B} (m : M A) (f : A -> M B) : M B := fun s => match m s with Done a s' => f a s' | Panicked s' => Panicked s' end.
Notation "x <~ m ;; k" := (andthen m (fun x => k)) (at level 61, m at next level, right associativity).

Definition note (e : event) (s : state) : state := MkState (history s ++ [e]) (errors s).

Section Runner.
  Context (W : world).

  Definition run (c : command) : M ran := fun s => let r := w_run W (history s) c in Done r (note (Run c r) s).
  Definition read_file (p : bytes) : M (option bytes) := fun s => let r := w_read W (history s) p in Done r (note (ReadFile p r) s).
  Definition write_file (p b : bytes) : M bool := fun s => let r := w_write W (history s) p b in Done r (note (WriteFile p b r) s).
  Definition temp_dir : M (option bytes) := fun s => let r := w_temp W (history s) in Done r (note (TempDir r) s).
  Definition exists_file (p : bytes) : M bool := fun s => let r := w_exists W (history s) p in Done r (note (Exists p r) s).

  (** [anyhow::Result<()>]: [None] for [Ok], the text otherwise. *)
  Definition verdict := option bytes.

  (** [main.rs:104-106] *)
  Definition do_test (test : M verdict) (context : bytes) : M unit :=
    v <~ test ;; fun s => Done tt (match v with None => s | Some e => MkState (history s) (errors s ++ [context ++ lit ": " ++ e]) end).

  Fixpoint each {A} (f : A -> M unit) (l : list A) : M unit :=
    match l with [] => ret tt | x :: l' => _ <~ f x ;; each f l' end.

  (* ---------------------------------------------------------------- *)
  (** ** [utils.rs] *)

  Fixpoint join (sep : bytes) (l : list bytes) : bytes :=
    match l with [] => [] | [x] => x | x :: l' => x ++ sep ++ join sep l' end.

  Definition cmdline (c : command) : bytes :=
    match c_dir c with Some d => d ++ lit "$ " | None => [] end ++ c_program c ++ lit " " ++ join (lit " ") (c_args c).

  (** 61-90 *)
  Definition run_command (c : command) : M verdict :=
    r <~ run c ;;
    ret (match r with
         | CannotRun why => Some (lit "could not run '" ++ cmdline c ++ lit "': " ++ why)
         | Ran true _ _ _ => None
         | Ran false status _ _ => Some (lit "'" ++ cmdline c ++ lit "' did not finish successfully: " ++ status)
         end).

  (** 50-59; the text of the error is never shown. *)
  Definition run_capturing_stdout (c : command) : M (option bytes) :=
    r <~ run c ;;
    ret (match r with Ran true _ out _ => if utf8_valid out then Some out else None | _ => None end).

  Fixpoint contains (needle s : bytes) : bool :=
    match strip_prefix needle s with
    | Some _ => true
    | None => match s with [] => false | _ :: s' => contains needle s' end
    end.

  Definition rustc_version : command := MkCommand (lit "rustc") [lit "-V"] None [].

  (** 92-96, 98-102 *)
  Definition rustc_contains (what : bytes) : M bool :=
    o <~ run_capturing_stdout rustc_version ;; match o with Some out => ret (contains what out) | None => panic end.
  Definition rustc_is_nightly : M bool := rustc_contains (lit "nightly").
  Definition rustc_is_msrv : M bool := rustc_contains (lit "1.76").

  (** 34-47; the names of the tests have no extension. *)
  Definition expected_output_path (name : bytes) (is_test : bool) : bytes :=
    lit "firmware/qemu/" ++ (if is_test then lit "tests/" else lit "src/bin/") ++ name ++ lit ".out".

  (* ---------------------------------------------------------------- *)
  (** ** [snapshot.rs] *)

  (** 18-34 *)
  Definition stable_tests : list bytes :=
    [lit "log"; lit "bitflags"; lit "timestamp"; lit "panic"; lit "assert"; lit "assert-eq"; lit "assert-ne"; lit "unwrap"; lit "defmt-test"; lit "hints";
     lit "hints_inner"; lit "dbg"; lit "panic_info"].
  Definition nightly_tests : list bytes := [lit "alloc"].
  Definition post_msrv_tests : list bytes := [lit "net"].

  (** 17-45 *)
  Definition all_snapshot_tests : M (list bytes) :=
    nightly <~ rustc_is_nightly ;;
    msrv <~ rustc_is_msrv ;;
    ret (stable_tests ++ (if nightly then nightly_tests else []) ++ (if msrv then [] else post_msrv_tests)).

  (** 87-91, [backcompat.rs:75-79] *)
  Definition features_of (name : bytes) : bytes :=
    if beq name (lit "alloc") then lit "alloc" else if beq name (lit "net") then lit "ip_in_core" else [].

  (** 103-120 *)
  Definition snapshot_command (name features : bytes) : command :=
    MkCommand (lit "cargo")
      ((if contains (lit "test") name then [lit "-q"; lit "tt"; name] else [lit "-q"; lit "rb"; name]) ++
       match features with [] => [] | _ => [lit "--features"; features] end)
      (Some (lit "firmware/qemu")) [(lit "DEFMT_LOG", lit "trace")].

  Inductive tag := Equal | Delete | Insert.
  (** [TextDiff::from_lines] of the crate [similar]. *)
  Context (diff : bytes -> bytes -> list (tag * bytes)).

  (** 100-152 *)
  Definition test_single_snapshot (name features : bytes) (overwrite : bool) : M verdict :=
    let is_test := contains (lit "test") name in
    let path := expected_output_path name is_test in
    o <~ run_capturing_stdout (snapshot_command name features) ;;
    match o with
    | None => ret (Some name)
    | Some actual =>
        if overwrite then ok <~ write_file path actual ;; ret (if ok : bool then None else Some (lit "Failed to overwrite expected output data to " ++ path))
        else
          e <~ read_file path ;;
          match e with
          | None => ret (Some (lit "Failed to load expected output data from " ++ path))
          | Some expected => ret (if forallb (fun x => match fst x with Equal => true | _ => false end) (diff expected actual) then None else Some name)
          end
    end.

  (** 85-98 *)
  Definition test_all_snapshots (overwrite : bool) : M unit :=
    tests <~ all_snapshot_tests ;;
    each (fun test => do_test (test_single_snapshot test (features_of test) overwrite) (lit "qemu/snapshot")) tests.

  (** 71-83 *)
  Definition test_snapshot (overwrite : bool) (single : option bytes) : M unit :=
    match single with
    | None => test_all_snapshots overwrite
    | Some name => do_test (test_single_snapshot name [] overwrite) (lit "qemu/snapshot")
    end.

  (* ---------------------------------------------------------------- *)
  (** ** [backcompat.rs] *)

  Definition git (args : list bytes) (dir : bytes) : command := MkCommand (lit "git") args (Some dir) [].

  (** 169-208; whatever is printed, the result is an error. *)
  Definition run_silently (c : command) (err : bytes) : M verdict :=
    r <~ run c ;;
    ret (match r with
         | CannotRun why => Some why
         | Ran true _ _ _ => None
         | Ran false _ out errs =>
             if negb (utf8_valid out) || negb (utf8_valid errs) then Some (lit "output is not UTF-8") else Some err
         end).

  (** 94-105, 130-167: clone, reset, build; [None] is an error. *)
  Definition build_qemu_run (repo : bytes) : M (option bytes) :=
    t <~ temp_dir ;;
    match t with
    | None => ret None
    | Some dir =>
        a <~ run_silently (git [lit "clone"; repo; lit "."] dir) (lit "`git clone` failed") ;;
        match a with
        | Some _ => ret None
        | None =>
            b <~ run_silently (git [lit "reset"; lit "--hard"; lit "0e92d3a88aa472377b964979f522829d961d8986"] dir) (lit "`git reset` failed") ;;
            match b with
            | Some _ => ret None
            | None =>
                c <~ run_silently (MkCommand (lit "cargo") [lit "build"; lit "-p"; lit "qemu-run"] (Some dir) []) (lit "`cargo build` failed") ;;
                match c with
                | Some _ => ret None
                | None =>
                    let exe := dir ++ lit "/target/debug/qemu-run" in
                    there <~ exists_file exe ;; if there : bool then ret (Some exe) else panic
                end
            end
        end
    end.

  (** 107-123 *)
  Definition old_command (exe name features : bytes) : command :=
    MkCommand (lit "cargo") ([lit "-q"; if contains (lit "test") name then lit "tt" else lit "rb"; name] ++ [lit "--features"; features])
      (Some (lit "firmware/qemu")) [(lit "CARGO_TARGET_THUMBV7M_NONE_EABI_RUNNER", exe)].

  Definition old_context : bytes := lit "backcompat (see xtask/src/backcompat.rs for FIXME instructions)".

  (** 52-86 *)
  Definition test_backcompat (repo : bytes) : M unit :=
    q <~ build_qemu_run repo ;;
    match q with
    | None => fun s => Done tt (MkState (history s) (errors s ++ [lit "backcompat (building qemu-run)"]))
    | Some exe =>
        tests <~ all_snapshot_tests ;;
        each (fun test => do_test (run_silently (old_command exe test (features_of test)) test) old_context) tests
    end.

  (* ---------------------------------------------------------------- *)
  (** ** [main.rs] *)

  Definition cargo (args : list bytes) (dir : option bytes) (env : list (bytes * bytes)) : command := MkCommand (lit "cargo") args dir env.
  Definition do_command (x : bytes * command) : M unit := do_test (run_command (snd x)) (fst x).

  Definition warnings (deny : bool) : list (bytes * bytes) := if deny then [(lit "RUSTFLAGS", lit "--deny warnings")] else [].

  (** 108-132 *)
  Definition host_commands (deny skip_ui : bool) : list (bytes * command) :=
    let env := (if skip_ui then [(lit "SKIP_UI_TESTS", lit "1")] else []) ++ warnings deny in
    map (fun f => (lit "host", cargo [lit "check"; lit "--features"; f] None env)) [[]; lit "unstable-test"; lit "alloc"] ++
    map (fun f => (lit "host", cargo [lit "test"; lit "--features"; f] None env)) [lit "unstable-test"; lit "unstable-test,alloc"].
  Definition test_host (deny skip_ui : bool) : M unit := each do_command (host_commands deny skip_ui).

  (** 134-246 *)
  Definition cross_commands (deny msrv : bool) : list (bytes * command) :=
    let env := warnings deny in
    flat_map (fun t => flat_map (fun f =>
        [(lit "cross", cargo [lit "check"; lit "--target"; t; lit "-p"; lit "defmt"; lit "--features"; f] None env);
         (lit "cross-03", cargo [lit "check"; lit "--target"; t; lit "--features"; f] (Some (lit "defmt-03")) env)])
        ([[]; lit "alloc"] ++ (if msrv then [] else [lit "ip_in_core"])))
      [lit "thumbv6m-none-eabi"; lit "thumbv8m.base-none-eabi"; lit "riscv32i-unknown-none-elf"] ++
    [(lit "cross", cargo [lit "check"; lit "--target"; lit "thumbv6m-none-eabi"; lit "--workspace"; lit "--exclude"; lit "defmt-itm"; lit "--exclude"; lit "firmware"]
        (Some (lit "firmware")) env);
     (lit "cross", cargo [lit "check"; lit "--target"; lit "thumbv7em-none-eabi"] (Some (lit "firmware")) env)] ++
    map (fun f => (lit "cross", cargo [lit "check"; lit "--target"; lit "thumbv6m-none-eabi"; lit "--features"; f] (Some (lit "firmware/panic-probe")) env))
      [lit "print-defmt"; lit "print-rtt"] ++
    [(lit "cross", cargo [lit "clippy"; lit "--target"; lit "thumbv7m-none-eabi"; lit "--"; lit "-D"; lit "warnings"; lit "-A"; lit "unknown-lints"] (Some (lit "firmware/")) env)].
  Definition test_cross (deny : bool) : M unit := msrv <~ rustc_is_msrv ;; each do_command (cross_commands deny msrv).

  (** 248-301 *)
  Definition book_commands : list (bytes * command) :=
    [(lit "book", cargo [lit "clean"] None []); (lit "book", cargo [lit "clean"] (Some (lit "firmware")) []);
     (lit "book", cargo [lit "build"; lit "-p"; lit "defmt"; lit "-p"; lit "defmt-decoder"; lit "--features"; lit "unstable-test"] None []);
     (lit "book", cargo [lit "build"; lit "-p"; lit "cortex-m"] (Some (lit "firmware")) []);
     (lit "book", MkCommand (lit "mdbook") [lit "test"; lit "-L"; lit "../target/debug"; lit "-L"; lit "../target/debug/deps"; lit "-L"; lit "../firmware/target/debug";
        lit "-L"; lit "../firmware/target/debug/deps"] (Some (lit "book")) [(lit "CARGO_CRATE_NAME", lit "krate")])].
  Definition test_book : M unit := each do_command book_commands.

  (** 303-319 *)
  Definition lint_commands : list (bytes * command) :=
    map (fun d => (lit "lint", cargo [lit "fmt"; lit "--"; lit "--check"] d [])) [None; Some (lit "defmt-03/"); Some (lit "firmware/")] ++
    [(lit "lint", cargo [lit "clippy"; lit "--"; lit "-D"; lit "warnings"] None [])].
  Definition test_lint : M unit := each do_command lint_commands.

  (** 321-327 *)
  Definition ui_commands : list (bytes * command) := [(lit "ui", cargo [lit "test"] (Some (lit "firmware/defmt-test/macros")) [])].
  Definition test_ui : M unit := each do_command ui_commands.

  (** [targets.rs:8-35] *)
  Definition required_targets : list bytes :=
    [lit "thumbv6m-none-eabi"; lit "thumbv7m-none-eabi"; lit "thumbv7em-none-eabi"; lit "thumbv8m.base-none-eabi"; lit "riscv32i-unknown-none-elf"].
  Definition rustup (args : list bytes) : command := MkCommand (lit "rustup") args None [].

  (** [str::lines]: a line ends in a newline, with a carriage return before it or not; the last line need not end in one. *)
  Definition strip_cr (l : bytes) : bytes := match rev l with c :: r => if c =? 13 then rev r else l | [] => [] end.
  Fixpoint ended (pieces : list bytes) : list bytes :=
    match pieces with
    | [] => []
    | [p] => match p with [] => [] | _ => [p] end
    | p :: pieces' => strip_cr p :: ended pieces'
    end.
  Definition lines (s : bytes) : list bytes := ended (split_on 10 s).

  Definition install : M (list bytes) :=
    o <~ run_capturing_stdout (rustup [lit "target"; lit "list"; lit "--installed"]) ;;
    match o with
    | None => panic
    | Some out =>
        r <~ run (rustup ([lit "target"; lit "add"] ++ required_targets)) ;;
        match r with
        | Ran true _ _ _ => ret (filter (fun t => negb (existsb (beq t) (lines out))) required_targets)
        | _ => panic
        end
    end.

  (** [targets.rs:43-55] *)
  Definition uninstall (targets : list bytes) : M unit :=
    r <~ run (rustup ([lit "target"; lit "remove"] ++ targets)) ;;
    match r with CannotRun _ => panic | _ => ret tt end.

  (** [main.rs:33-55]; the name of a single test as given. *)
  Inductive test_command :=
  | TestAll | TestBackcompat | TestBook | TestCross | TestHost (skip_ui : bool) | TestLint | TestUi
  | TestSnapshot (overwrite : bool) (single : option bytes).
  Record options := MkOptions { o_cmd : test_command; o_deny : bool; o_keep : bool }.

  (** The exit status: 0, 1 with the errors, 2 for wrong arguments, 101 for a panic. *)
  Inductive exit := Success | Failed (errors : list bytes) | Usage | Crashed.

  (** [main.rs:57-102]; [Options::parse] checks the name of the test ([snapshot.rs:56-69]). *)
  Definition parse (o : options) : M bool :=
    match o_cmd o with
    | TestSnapshot _ (Some name) => tests <~ all_snapshot_tests ;; ret (existsb (beq name) tests)
    | _ => ret true
    end.

  Definition body (repo : bytes) (o : options) : M unit :=
    match o_cmd o with
    | TestBook => test_book
    | TestBackcompat => test_backcompat repo
    | TestHost skip_ui => test_host (o_deny o) skip_ui
    | TestLint => test_lint
    | TestUi => test_ui
    | cmd =>
        added <~ install ;;
        _ <~ match cmd with
             | TestCross => test_cross (o_deny o)
             | TestSnapshot overwrite single => test_snapshot overwrite single
             | _ =>
                 _ <~ test_host (o_deny o) false ;;
                 _ <~ test_cross (o_deny o) ;;
                 _ <~ test_snapshot false None ;;
                 _ <~ test_backcompat repo ;;
                 _ <~ test_book ;;
                 test_lint
             end ;;
        if o_keep o then ret tt else match added with [] => ret tt | _ => uninstall added end
    end.

  Definition xtask (repo : bytes) (o : options) (before : list event) : exit * list event :=
    match parse o (MkState before []) with
    | Panicked s => (Crashed, history s)
    | Done false s => (Usage, history s)
    | Done true s =>
        match body repo o s with
        | Panicked s' => (Crashed, history s')
        | Done _ s' => (match errors s' with [] => Success | es => Failed es end, history s')
        end
    end.
End Runner.
