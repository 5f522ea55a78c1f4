(** C80: the test runner and the installed targets. *)
From Verif Require Import Base XtaskModel XtaskSpec XtaskProofs XtaskExamples XtaskTargets XtaskTargetsEx.

(** Whatever happens, a target that was installed stays installed. *)
Theorem C80_stay : forall W diff repo o start before e after, lists_targets W start -> xtask W diff repo o before = (e, after) ->
  forall t, In t (targets_after start before) -> In t (targets_after start after).
Proof. exact targets_stay. Qed.
Print Assumptions C80_stay.

(** Without [--keep-targets] the same targets are installed after a run as before it, if it does not panic and removing works. *)
Theorem C80_restored : forall W diff repo o start before e h, lists_targets W start -> xtask W diff repo o before = (e, before ++ h) -> e <> Crashed ->
  o_keep o = false -> removals_work h -> forall t, In t (targets_after start (before ++ h)) <-> In t (targets_after start before).
Proof. exact targets_restored. Qed.
Print Assumptions C80_restored.

(** With it, exactly the five targets are added, by the subcommands that need them. *)
Theorem C80_kept : forall W diff repo o start before e after, lists_targets W start -> xtask W diff repo o before = (e, after) -> e <> Crashed -> e <> Usage ->
  o_keep o = true -> forall t, In t (targets_after start after) <-> In t (targets_after start before) \/ (installs (o_cmd o) /\ In t required_targets).
Proof. exact targets_kept. Qed.
Print Assumptions C80_kept.

(** Every check of these subcommands is made while the five targets are installed. *)
Theorem C80_present : forall W diff repo o start before e a x b, xtask W diff repo o before = (e, before ++ a ++ x :: b) -> installs (o_cmd o) ->
  checking x = true -> forall t, In t required_targets -> In t (targets_after start (before ++ a)).
Proof. exact targets_present. Qed.
Print Assumptions C80_present.

(** After a panic they are left behind. *)
Theorem C80_crash_refuted : exists W diff start o after t, lists_targets W start /\ o_keep o = false /\ xtask W diff (lit "/repo") o [] = (Crashed, after) /\
  removals_work after /\ In t (targets_after start after) /\ ~ In t start.
Proof.
  set (W := rustup_world two_targets true false). exists W, whole_diff, two_targets, (opts TestAll), (snd (xtask W whole_diff (lit "/repo") (opts TestAll) [])), (lit "thumbv6m-none-eabi").
  split; [apply rustup_lists|]. split; [reflexivity|]. split; [unfold W; vm_compute; reflexivity|]. split.
  - intros ts r I. assert (X : existsb (fun e => match e with Run (MkCommand p [] _ _) _ => false | Run (MkCommand _ (_ :: b :: _) _ _) _ => beq b (lit "remove") | _ => false end)
      (snd (xtask W whole_diff (lit "/repo") (opts TestAll) [])) = false) by (unfold W; vm_compute; reflexivity).
    apply not_true_iff_false in X. destruct X. apply existsb_exists. eexists. split; [exact I|]. reflexivity.
  - pose proof crash_ex as C. fold W in C. destruct (xtask W whole_diff (lit "/repo") (opts TestAll) []) as [e h]. destruct C as (_ & C). cbn [snd]. rewrite C.
    split; [vm_compute; tauto|]. intros [X|[X|[]]]; vm_compute in X; discriminate.
Qed.
Print Assumptions C80_crash_refuted.

(** If they cannot be removed, the run is still a success. *)
Theorem C80_failed_refuted : exists W diff start o after t, lists_targets W start /\ o_keep o = false /\ xtask W diff (lit "/repo") o [] = (Success, after) /\
  In t (targets_after start after) /\ ~ In t start.
Proof.
  set (W := rustup_world two_targets false true). exists W, whole_diff, two_targets, (opts TestCross), (snd (xtask W whole_diff (lit "/repo") (opts TestCross) [])), (lit "thumbv6m-none-eabi").
  split; [apply rustup_lists|]. split; [reflexivity|]. split; [unfold W; vm_compute; reflexivity|].
  pose proof stuck_ex as C. fold W in C. destruct (xtask W whole_diff (lit "/repo") (opts TestCross) []) as [e h]. destruct C as (_ & C). cbn [snd]. rewrite C.
  split; [vm_compute; tauto|]. intros [X|[X|[]]]; vm_compute in X; discriminate.
Qed.
Print Assumptions C80_failed_refuted.

Example C80_ex : lists_targets (rustup_world two_targets true true) two_targets /\
  let '(e, h) := xtask (rustup_world two_targets true true) whole_diff (lit "/repo") (opts TestAll) [] in
  e = Success /\ nodup (list_eq_dec Z.eq_dec) (targets_after two_targets h) = two_targets /\
  last h (TempDir None) = Run (rustup (target_remove ++ [lit "thumbv6m-none-eabi"; lit "thumbv7em-none-eabi"; lit "thumbv8m.base-none-eabi"; lit "riscv32i-unknown-none-elf"])) (ok "").
Proof. split; [apply rustup_lists|exact restored_ex]. Qed.
Example C80_lines_ex : lines (lit "a" ++ [13; 10] ++ lit "b" ++ [10]) = [lit "a"; lit "b"] /\ lines (lit "a" ++ [10; 10] ++ lit "b" ++ [13]) = [lit "a"; []; lit "b" ++ [13]].
Proof. vm_compute. auto. Qed.
