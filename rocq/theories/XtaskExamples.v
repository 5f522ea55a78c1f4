(** Worlds for the test runner. *)
From Verif Require Import Base Utf8 XtaskModel XtaskSpec XtaskProofs XtaskMain.

Definition whole_diff (a b : bytes) : list (tag * bytes) := if beq a b then [(Equal, a)] else [(Delete, a); (Insert, b)].

Lemma whole_diff_ok : diff_ok whole_diff.
Proof.
  intros a b. unfold whole_diff. destruct (beq a b) eqn:E; cbn [filter fst map snd concat]; rewrite !app_nil_r.
  - apply beq_eq in E. subst. repeat split; auto.
  - split; [now rewrite ?app_nil_r|]. split; auto. intros ->. rewrite XtaskProofs.beq_same in E. discriminate.
Qed.

Definition ok (out : string) : ran := Ran true (lit "exit status: 0") (lit out) [].
Definition bad (err : string) : ran := Ran false (lit "exit status: 101") [] (lit err).

(** Every program prints hello; some commands fail. *)
Definition hello : bytes := lit "hello" ++ [10].
Definition world_with (fails : command -> bool) (file : bytes -> option bytes) : world :=
  MkWorld (fun _ c => if fails c then bad "error" else if beq (c_program c) (lit "rustc") then ok "rustc 1.82.0 (f6e511eec 2024-10-15)" else
             if beq (c_program c) (lit "rustup") then Ran true [] (lit "thumbv7m-none-eabi") [] else Ran true (lit "exit status: 0") hello [])
    (fun h p => match last_written p h with Some b => Some b | None => file p end)
    (fun _ _ _ => true) (fun _ => Some (lit "/tmp/x")) (fun _ _ => true).

Definition good_world : world := world_with (fun _ => false) (fun _ => Some hello).

(** One file is out of date, and one command of the first group fails. *)
Definition stale : bytes -> option bytes := fun p => if beq p (lit "firmware/qemu/src/bin/dbg.out") then Some (lit "bye") else Some hello.
Definition stale_world : world :=
  world_with (fun c => match c_args c with [a; b; f] => beq a (lit "check") && beq f (lit "alloc") | _ => false end) stale.

(** The program [net] cannot be built without its feature ([firmware/qemu/Cargo.toml:31-33]). *)
Definition net_world : world :=
  world_with (fun c => match c_args c with [_; _; n] => beq n (lit "net") | _ => false end) (fun _ => Some hello).

(** The tests of the macros of defmt-test fail. *)
Definition ui_world : world :=
  world_with (fun c => match c_args c with [a] => beq a (lit "test") | _ => false end) (fun _ => Some hello).

Lemma world_compiler : forall fails file, fails rustc_version = false -> compiler (world_with fails file) (lit "rustc 1.82.0 (f6e511eec 2024-10-15)").
Proof. intros fails file H. split; [reflexivity|]. intros h. exists (lit "exit status: 0"), []. cbn [w_run world_with]. rewrite H. reflexivity. Qed.

Lemma world_files : forall fails file, files (world_with fails file).
Proof. intros fails file h p b H. cbn [w_read world_with]. now rewrite H. Qed.
Lemma world_repeatable : forall fails file, repeatable (world_with fails file).
Proof. intros fails file n f h h'. reflexivity. Qed.

Definition opts (c : test_command) : options := MkOptions c false false.

Lemma all_good : fst (xtask good_world whole_diff (lit "/repo") (opts TestAll) []) = Success /\
  length (plan (lit "/repo") (opts TestAll) (lit "rustc 1.82.0 (f6e511eec 2024-10-15)")) = 52%nat.
Proof. split; vm_compute; reflexivity. Qed.

Lemma two_bad : fst (xtask stale_world whole_diff (lit "/repo") (opts TestAll) []) =
  Failed [lit "host: 'cargo check --features alloc' did not finish successfully: exit status: 101"; lit "qemu/snapshot: dbg"].
Proof. vm_compute. reflexivity. Qed.

Lemma repaired : let '(e1, h1) := xtask stale_world whole_diff (lit "/repo") (opts (TestSnapshot true None)) [] in
  e1 = Success /\ fst (xtask stale_world whole_diff (lit "/repo") (opts (TestSnapshot false None)) []) = Failed [lit "qemu/snapshot: dbg"] /\
  fst (xtask stale_world whole_diff (lit "/repo") (opts (TestSnapshot false None)) h1) = Success.
Proof. vm_compute. auto. Qed.

Lemma net_alone : fst (xtask net_world whole_diff (lit "/repo") (opts (TestSnapshot false None)) []) = Success /\
  fst (xtask net_world whole_diff (lit "/repo") (opts (TestSnapshot false (Some (lit "net")))) []) = Failed [lit "qemu/snapshot: net"].
Proof. split; vm_compute; reflexivity. Qed.

Lemma ui_missing : fst (xtask ui_world whole_diff (lit "/repo") (opts TestAll) []) = Success /\
  fst (xtask ui_world whole_diff (lit "/repo") (opts TestUi) []) =
    Failed [lit "ui: 'firmware/defmt-test/macros$ cargo test' did not finish successfully: exit status: 101"].
Proof. split; vm_compute; reflexivity. Qed.

Lemma no_such_test : fst (xtask good_world whole_diff (lit "/repo") (opts (TestSnapshot false (Some (lit "alloc")))) []) = Usage.
Proof. vm_compute. reflexivity. Qed.
