(** Worlds with a rustup that installs and removes targets. *)
From Verif Require Import Base Utf8 RenderProofs XtaskModel XtaskSpec XtaskProofs XtaskMain XtaskExamples XtaskTargets.

Definition line_like (t : bytes) : bool := negb (existsb (Z.eqb 10) t) && negb (existsb (Z.eqb 13) t).

Definition rustup_world (start : list bytes) (removes there : bool) : world :=
  MkWorld (fun h c =>
      if beq (c_program c) (lit "rustup") then
        match c_args c with
        | [_; b; _] => if beq b (lit "list") then
            if forallb line_like (targets_after start h) then Ran true [] (flat_map (fun t => t ++ [10]) (targets_after start h)) [] else bad "error"
            else if beq b (lit "remove") && negb removes then bad "error" else ok ""
        | _ :: b :: _ => if beq b (lit "remove") && negb removes then bad "error" else ok ""
        | _ => ok ""
        end
      else if beq (c_program c) (lit "rustc") then ok "rustc 1.82.0 (f6e511eec 2024-10-15)" else Ran true (lit "exit status: 0") hello [])
    (fun _ _ => Some hello) (fun _ _ _ => true) (fun _ => Some (lit "/tmp/x")) (fun _ _ => there).

Lemma no_byte : forall c t, negb (existsb (Z.eqb c) t) = true -> ~ In c t.
Proof.
  intros c t H I. apply negb_true_iff in H. assert (X : existsb (Z.eqb c) t = true) by (apply existsb_exists; exists c; split; auto; apply Z.eqb_refl). congruence.
Qed.

Lemma strip_none : forall t, ~ In 13 t -> strip_cr t = t.
Proof.
  intros t H. unfold strip_cr. destruct (rev t) as [|c r] eqn:E; [apply (f_equal (@rev Z)) in E; now rewrite rev_involutive in E|].
  destruct (Z.eqb_spec c 13) as [->|]; auto. destruct H. apply in_rev. rewrite E. now left.
Qed.

Lemma lines_of : forall l, forallb line_like l = true -> lines (flat_map (fun t => t ++ [10]) l) = l.
Proof.
  unfold lines. induction l as [|t l IH]; intros H; [reflexivity|]. cbn [forallb] in H. apply andb_true_iff in H as [A B]. apply andb_true_iff in A as [A1 A2].
  cbn [flat_map]. rewrite <- app_assoc. cbn [app]. rewrite split_on_sep by now apply no_byte. specialize (IH B).
  destruct (split_on 10 (flat_map (fun t => t ++ [10]) l)) as [|p ps] eqn:E.
  - exfalso. destruct (flat_map (fun t => t ++ [10]) l) as [|c r]; cbn [split_on] in E; [discriminate|]. destruct (c =? 10); [discriminate|]. now destruct (split_on 10 r).
  - change (ended (t :: p :: ps)) with (strip_cr t :: ended (p :: ps)). rewrite IH. f_equal. now apply strip_none, no_byte.
Qed.

Lemma rustup_lists : forall start removes there, lists_targets (rustup_world start removes there) start.
Proof.
  intros start removes there h st out err H t. cbn in H. destruct (forallb line_like (targets_after start h)) eqn:E; [|discriminate].
  injection H as _ <- _. rewrite lines_of by exact E. reflexivity.
Qed.

Definition two_targets : list bytes := [lit "x86_64-unknown-linux-gnu"; lit "thumbv7m-none-eabi"].

Lemma restored_ex : let '(e, h) := xtask (rustup_world two_targets true true) whole_diff (lit "/repo") (opts TestAll) [] in
  e = Success /\ nodup (list_eq_dec Z.eq_dec) (targets_after two_targets h) = two_targets /\
  last h (TempDir None) = Run (rustup (target_remove ++ [lit "thumbv6m-none-eabi"; lit "thumbv7em-none-eabi"; lit "thumbv8m.base-none-eabi"; lit "riscv32i-unknown-none-elf"])) (ok "").
Proof. vm_compute. repeat split; reflexivity. Qed.

Lemma crash_ex : let '(e, h) := xtask (rustup_world two_targets true false) whole_diff (lit "/repo") (opts TestAll) [] in
  e = Crashed /\ targets_after two_targets h = two_targets ++ required_targets.
Proof. vm_compute. repeat split; reflexivity. Qed.

Lemma stuck_ex : let '(e, h) := xtask (rustup_world two_targets false true) whole_diff (lit "/repo") (opts TestCross) [] in
  e = Success /\ targets_after two_targets h = two_targets ++ required_targets.
Proof. vm_compute. repeat split; reflexivity. Qed.
