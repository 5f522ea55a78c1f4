(** What a run of the test runner should do, by the events of the run. *)
From Verif Require Import Base Utf8 XtaskModel.

(** Differences by lines: they add up to both texts, and equal texts have none. *)
Definition diff_ok (diff : bytes -> bytes -> list (tag * bytes)) : Prop :=
  forall a b, concat (map snd (filter (fun x => match fst x with Insert => false | _ => true end) (diff a b))) = a /\
    concat (map snd (filter (fun x => match fst x with Delete => false | _ => true end) (diff a b))) = b /\
    (a = b -> Forall (fun x => fst x = Equal) (diff a b)).

Inductive check :=
| Command (context : bytes) (c : command)
| Matches (name features : bytes)
| Written (name features : bytes)
| OldRunner (repo : bytes) (tests : list bytes).

(** The tests of a compiler version: see the table in [snapshot.rs:18-34]. *)
Definition tests_of (version : bytes) : list bytes :=
  stable_tests ++ (if contains (lit "nightly") version then nightly_tests else []) ++ (if contains (lit "1.76") version then [] else post_msrv_tests).

Definition commands (l : list (bytes * command)) : list check := map (fun x => Command (fst x) (snd x)) l.

Definition plan (repo : bytes) (o : options) (version : bytes) : list check :=
  let host skip := commands (host_commands (o_deny o) skip) in
  let cross := commands (cross_commands (o_deny o) (contains (lit "1.76") version)) in
  let snapshots := map (fun t => Matches t (features_of t)) (tests_of version) in
  let old := [OldRunner repo (tests_of version)] in
  match o_cmd o with
  | TestBook => commands book_commands
  | TestBackcompat => old
  | TestHost skip => host skip
  | TestLint => commands lint_commands
  | TestUi => commands ui_commands
  | TestCross => cross
  | TestSnapshot false None => snapshots
  | TestSnapshot true None => map (fun t => Written t (features_of t)) (tests_of version)
  | TestSnapshot false (Some t) => [Matches t []]
  | TestSnapshot true (Some t) => [Written t []]
  | TestAll => host false ++ cross ++ snapshots ++ old ++ commands book_commands ++ commands lint_commands
  end.

Definition output_path (name : bytes) : bytes := expected_output_path name (contains (lit "test") name).

Definition readable (r : ran) : Prop := exists st out err, r = Ran true st out err /\ utf8_valid out = true.

(** The command of the check was run; if it gave a text, that was compared or written. *)
Definition attempted (k : check) (evs : list event) : Prop :=
  match k with
  | Command _ c => exists r, evs = [Run c r]
  | Matches n f => (exists r, evs = [Run (snapshot_command n f) r] /\ ~ readable r) \/
      exists r x, evs = [Run (snapshot_command n f) r; ReadFile (output_path n) x] /\ readable r
  | Written n f => (exists r, evs = [Run (snapshot_command n f) r] /\ ~ readable r) \/
      exists st out err ok, evs = [Run (snapshot_command n f) (Ran true st out err); WriteFile (output_path n) out ok] /\ utf8_valid out = true
  | OldRunner repo tests => exists x rest, evs = TempDir x :: rest
  end.

Definition succeeded (r : ran) : Prop := exists st out err, r = Ran true st out err.

(** The run shows that everything is as it should be. *)
Definition passes (k : check) (evs : list event) : Prop :=
  match k with
  | Command _ c => exists r, evs = [Run c r] /\ succeeded r
  | Matches n f => exists st out err, evs = [Run (snapshot_command n f) (Ran true st out err); ReadFile (output_path n) (Some out)] /\ utf8_valid out = true
  | Written n f => exists st out err, evs = [Run (snapshot_command n f) (Ran true st out err); WriteFile (output_path n) out true] /\ utf8_valid out = true
  | OldRunner repo tests => exists dir a b c runs,
      evs = [TempDir (Some dir); Run (git [lit "clone"; repo; lit "."] dir) a;
             Run (git [lit "reset"; lit "--hard"; lit "0e92d3a88aa472377b964979f522829d961d8986"] dir) b;
             Run (cargo [lit "build"; lit "-p"; lit "qemu-run"] (Some dir) []) c; Exists (dir ++ lit "/target/debug/qemu-run") true] ++ runs /\
      succeeded a /\ succeeded b /\ succeeded c /\
      Forall2 (fun t e => exists r, e = Run (old_command (dir ++ lit "/target/debug/qemu-run") t (features_of t)) r /\ succeeded r) tests runs
  end.

(** Questions about the tool chain are not checks. *)
Definition checking (e : event) : bool :=
  match e with
  | Run c _ => negb (beq (c_program c) (lit "rustc")) && negb (beq (c_program c) (lit "rustup"))
  | _ => true
  end.

(** The compiler says which version it is, always the same. *)
Definition compiler (W : world) (version : bytes) : Prop :=
  utf8_valid version = true /\ forall h, exists st err, w_run W h rustc_version = Ran true st version err.

(** What makes the runner give up. *)
Definition fatal (e : event) : Prop :=
  match e with
  | Run c r => c_program c = lit "rustup" /\ ~ readable r
  | Exists _ there => there = false
  | _ => False
  end.

(** An answer of the world after [h]. *)
Definition answer (W : world) (h : list event) (e : event) : Prop :=
  match e with
  | Run c r => r = w_run W h c
  | ReadFile p x => x = w_read W h p
  | WriteFile p b ok => ok = w_write W h p b
  | TempDir x => x = w_temp W h
  | Exists p there => there = w_exists W h p
  end.

(** The last text written to a file. *)
Fixpoint last_written (p : bytes) (h : list event) : option bytes :=
  match h with
  | [] => None
  | e :: h' =>
      match last_written p h' with
      | Some b => Some b
      | None => match e with WriteFile p' b true => if beq p p' then Some b else None | _ => None end
      end
  end.

(** Files keep what was written into them. *)
Definition files (W : world) : Prop := forall h p b, last_written p h = Some b -> w_read W h p = Some b.

(** The programs always give the same output. *)
Definition repeatable (W : world) : Prop := forall n f h h', w_run W h (snapshot_command n f) = w_run W h' (snapshot_command n f).
