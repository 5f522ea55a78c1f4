(** Property C67: the test runner succeeds exactly if all its checks do. *)
From Verif Require Import Base Utf8 XtaskModel XtaskSpec XtaskProofs XtaskMain XtaskExamples.

(** Every check of the plan is made, whatever the others gave, and the exit status is success exactly if
    all pass.  Between them there are only questions to rustc and rustup. *)
Theorem C67_verdict : forall W diff version repo o before e after, diff_ok diff -> compiler W version -> xtask W diff repo o before = (e, after) -> e <> Usage -> e <> Crashed ->
  exists h segs, after = before ++ h /\ filter checking h = concat segs /\ Forall2 attempted (plan repo o version) segs /\ (e = Success <-> Forall2 passes (plan repo o version) segs).
Proof. exact xtask_verdict. Qed.
Print Assumptions C67_verdict.

(** The errors shown are those of the failed checks, in order, each with the name of its group. *)
Theorem C67_reports : forall W diff, diff_ok diff -> forall version, compiler W version -> forall repo o before e after,
  xtask W diff repo o before = (e, after) -> e <> Usage -> e <> Crashed ->
  exists h segs reports, after = before ++ h /\ filter checking h = concat segs /\
    Forall3 (fun k evs report => attempted k evs /\ (report = [] <-> passes k evs) /\ Forall (fun t => exists rest, t = context_of k ++ rest) report) (plan repo o version) segs reports /\
    e = match concat reports with [] => Success | es => Failed es end.
Proof. exact xtask_ends. Qed.
Print Assumptions C67_reports.

(** It gives up only if rustup fails or the old qemu-run was built but is not there. *)
Theorem C67_crashes : forall W diff, diff_ok diff -> forall version, compiler W version -> forall repo o before after,
  xtask W diff repo o before = (Crashed, after) -> exists h, after = before ++ h /\ exists e, In e h /\ fatal e.
Proof. exact xtask_crashes. Qed.
Print Assumptions C67_crashes.

(** Only names that are not in the list of tests are refused. *)
Theorem C67_usage : forall W diff version, compiler W version -> forall repo o before after, xtask W diff repo o before = (Usage, after) ->
  exists ow t, o_cmd o = TestSnapshot ow (Some t) /\ existsb (beq t) (tests_of version) = false.
Proof. exact xtask_usage. Qed.
Print Assumptions C67_usage.

(** After a successful run with [--overwrite], a run without it succeeds, if files keep what is written and
    the programs print the same again. *)
Theorem C67_overwrite : forall W diff version repo deny keep deny' keep' before mid e after,
  diff_ok diff -> compiler W version -> files W -> repeatable W ->
  xtask W diff repo (MkOptions (TestSnapshot true None) deny keep) before = (Success, mid) ->
  xtask W diff repo (MkOptions (TestSnapshot false None) deny' keep') mid = (e, after) -> e <> Crashed -> e = Success.
Proof. exact overwrite_then_compare. Qed.
Print Assumptions C67_overwrite.

(** A single snapshot test is the same check as in the run of all, but for the two tests that need features. *)
Theorem C67_single : forall version repo deny keep t, In t (tests_of version) ->
  (plan repo (MkOptions (TestSnapshot false (Some t)) deny keep) version = [Matches t (features_of t)] <-> t <> lit "alloc" /\ t <> lit "net").
Proof.
  intros version repo deny keep t _. unfold plan. cbn [o_cmd]. unfold features_of. destruct (beq t (lit "alloc")) eqn:E1.
  - apply beq_eq in E1. subst t. split; [discriminate|]. intros [H _]. congruence.
  - destruct (beq t (lit "net")) eqn:E2.
    + apply beq_eq in E2. subst t. split; [discriminate|]. intros [_ H]. congruence.
    + split; auto. intros _. split; intros ->; discriminate.
Qed.
Print Assumptions C67_single.

(** Those two fail when run alone, although they pass in the run of all. *)
Theorem C67_single_refuted : exists W diff version, diff_ok diff /\ compiler W version /\ exists t, In t (tests_of version) /\
  fst (xtask W diff (lit "/repo") (opts (TestSnapshot false None)) []) = Success /\ exists es, fst (xtask W diff (lit "/repo") (opts (TestSnapshot false (Some t))) []) = Failed es.
Proof.
  exists net_world, whole_diff, (lit "rustc 1.82.0 (f6e511eec 2024-10-15)"). split; [exact whole_diff_ok|]. split; [apply world_compiler; reflexivity|]. exists (lit "net").
  split; [vm_compute; tauto|]. destruct net_alone as [A B]. split; [exact A|]. eexists. exact B.
Qed.
Print Assumptions C67_single_refuted.

(** [test-all] does not make the check of [test-ui]. *)
Theorem C67_all_refuted : exists W diff version, diff_ok diff /\ compiler W version /\
  fst (xtask W diff (lit "/repo") (opts TestAll) []) = Success /\ exists es, fst (xtask W diff (lit "/repo") (opts TestUi) []) = Failed es.
Proof.
  exists ui_world, whole_diff, (lit "rustc 1.82.0 (f6e511eec 2024-10-15)"). split; [exact whole_diff_ok|]. split; [apply world_compiler; reflexivity|].
  destruct ui_missing as [A B]. split; [exact A|]. eexists. exact B.
Qed.
Print Assumptions C67_all_refuted.

(** All other checks are part of [test-all]. *)
Theorem C67_all : forall version repo deny keep c, In c [TestBackcompat; TestBook; TestCross; TestHost false; TestLint; TestSnapshot false None] ->
  forall k, In k (plan repo (MkOptions c deny keep) version) -> In k (plan repo (MkOptions TestAll deny keep) version).
Proof.
  intros version repo deny keep c H k I. unfold plan in *. cbn [o_cmd o_deny] in *. rewrite !in_app_iff.
  cbn [In] in H. destruct H as [<-|[<-|[<-|[<-|[<-|[<-|[]]]]]]]; tauto.
Qed.
Print Assumptions C67_all.

Example C67_ex : diff_ok whole_diff /\ compiler stale_world (lit "rustc 1.82.0 (f6e511eec 2024-10-15)") /\ files stale_world /\ repeatable stale_world /\
  (fst (xtask good_world whole_diff (lit "/repo") (opts TestAll) []) = Success /\
   length (plan (lit "/repo") (opts TestAll) (lit "rustc 1.82.0 (f6e511eec 2024-10-15)")) = 52%nat) /\
  fst (xtask stale_world whole_diff (lit "/repo") (opts TestAll) []) =
    Failed [lit "host: 'cargo check --features alloc' did not finish successfully: exit status: 101"; lit "qemu/snapshot: dbg"] /\
  (let '(e1, h1) := xtask stale_world whole_diff (lit "/repo") (opts (TestSnapshot true None)) [] in
   e1 = Success /\ fst (xtask stale_world whole_diff (lit "/repo") (opts (TestSnapshot false None)) []) = Failed [lit "qemu/snapshot: dbg"] /\
   fst (xtask stale_world whole_diff (lit "/repo") (opts (TestSnapshot false None)) h1) = Success) /\
  fst (xtask good_world whole_diff (lit "/repo") (opts (TestSnapshot false (Some (lit "alloc")))) []) = Usage.
Proof.
  split; [exact whole_diff_ok|]. split; [apply world_compiler; reflexivity|]. split; [apply world_files|]. split; [apply world_repeatable|].
  split; [exact all_good|]. split; [exact two_bad|]. split; [exact repaired|exact no_such_test].
Qed.

(** Every target that a check compiles for is installed before. *)
Fixpoint targets_in (args : list bytes) : list bytes :=
  match args with
  | a :: ((t :: _) as rest) => if beq a (lit "--target") then t :: targets_in rest else targets_in rest
  | _ => []
  end.
Theorem C67_targets : forall repo deny keep cmd version context c t, In (Command context c) (plan repo (MkOptions cmd deny keep) version) ->
  In t (targets_in (c_args c)) -> (cmd = TestAll \/ cmd = TestCross) /\ In t required_targets.
Proof.
  assert (A : forall deny msrv, forallb (fun x => forallb (fun t => existsb (beq t) required_targets) (targets_in (c_args (snd x)))) (cross_commands deny msrv) = true)
    by (intros [] []; vm_compute; reflexivity).
  assert (Q : forall l, forallb (fun x => match targets_in (c_args (snd x)) with [] => true | _ => false end) l = true ->
    forall context c t, In (Command context c) (commands l) -> In t (targets_in (c_args c)) -> False).
  { intros l H context c t I1 I2. unfold commands in I1. rewrite in_map_iff in I1. destruct I1 as (x & E & I1). injection E as _ E. rewrite forallb_forall in H.
    specialize (H x I1). rewrite E in H. destruct (targets_in (c_args c)); [exact I2|discriminate]. }
  assert (B : forall deny skip, forallb (fun x => match targets_in (c_args (snd x)) with [] => true | _ => false end) (host_commands deny skip) = true)
    by (intros [] []; vm_compute; reflexivity).
  assert (K : forall deny msrv context c t, In (Command context c) (commands (cross_commands deny msrv)) -> In t (targets_in (c_args c)) -> In t required_targets).
  { intros deny msrv context c t I1 I2. unfold commands in I1. rewrite in_map_iff in I1. destruct I1 as (x & E & I1). injection E as _ E.
    specialize (A deny msrv). rewrite forallb_forall in A. specialize (A x I1). rewrite E, forallb_forall in A. specialize (A t I2).
    rewrite existsb_exists in A. destruct A as (u & Iu & Eu). apply beq_true in Eu. now subst. }
  intros repo deny keep cmd version context c t I1 I2. unfold plan in I1. cbn [o_cmd o_deny] in I1.
  assert (S : forall (f g : bytes -> bytes) l, ~ In (Command context c) (map (fun t => Matches (f t) (g t)) l)).
  { intros f g l J. rewrite in_map_iff in J. destruct J as (x & E & _). discriminate. }
  assert (S2 : forall (f g : bytes -> bytes) l, ~ In (Command context c) (map (fun t => Written (f t) (g t)) l)).
  { intros f g l J. rewrite in_map_iff in J. destruct J as (x & E & _). discriminate. }
  destruct cmd as [| | | |skip| | |[] [n|]].
  - rewrite !in_app_iff in I1. destruct I1 as [J|[J|[J|[J|[J|J]]]]].
    + exfalso. exact (Q _ (B deny false) _ _ _ J I2).
    + split; [now left|]. exact (K _ _ _ _ _ J I2).
    + exfalso. exact (S (fun t => t) features_of _ J).
    + destruct J as [J|[]]. discriminate.
    + exfalso. exact (Q book_commands eq_refl _ _ _ J I2).
    + exfalso. exact (Q lint_commands eq_refl _ _ _ J I2).
  - destruct I1 as [J|[]]. discriminate.
  - exfalso. exact (Q book_commands eq_refl _ _ _ I1 I2).
  - split; [now right|]. exact (K _ _ _ _ _ I1 I2).
  - exfalso. exact (Q _ (B deny skip) _ _ _ I1 I2).
  - exfalso. exact (Q lint_commands eq_refl _ _ _ I1 I2).
  - exfalso. exact (Q ui_commands eq_refl _ _ _ I1 I2).
  - destruct I1 as [J|[]]. discriminate.
  - exfalso. exact (S2 (fun t => t) features_of _ I1).
  - destruct I1 as [J|[]]. discriminate.
  - exfalso. exact (S (fun t => t) features_of _ I1).
Qed.
Print Assumptions C67_targets.

(** The tests of the host are run with and without [alloc], and each feature for the host is checked. *)
Theorem C67_features : forall version repo deny keep skip,
  let checks := plan repo (MkOptions (TestHost skip) deny keep) version in
  let asked verb features := exists c, In (Command (lit "host") c) checks /\ c_program c = lit "cargo" /\ c_dir c = None /\
    c_args c = [verb; lit "--features"; features] in
  asked (lit "check") [] /\ asked (lit "check") (lit "unstable-test") /\ asked (lit "check") (lit "alloc") /\
  asked (lit "test") (lit "unstable-test") /\ asked (lit "test") (lit "unstable-test,alloc").
Proof.
  intros version repo deny keep skip. unfold plan. cbn [o_cmd o_deny].
  split; [eexists; split; [left; reflexivity|cbn; auto]|].
  split; [eexists; split; [right; left; reflexivity|cbn; auto]|].
  split; [eexists; split; [do 2 right; left; reflexivity|cbn; auto]|].
  split; [eexists; split; [do 3 right; left; reflexivity|cbn; auto]|].
  eexists; split; [do 4 right; left; reflexivity|cbn; auto].
Qed.
Print Assumptions C67_features.

(** [--deny-warnings] reaches the compilations of the host and cross checks and no others, [--skip-ui-tests] those of [test-host]. *)
Definition env_is (deny skip : bool) (x : bytes * command) : bool :=
  let has a b := existsb (fun e : bytes * bytes => beq (fst e) a && beq (snd e) b) (c_env (snd x)) in
  Bool.eqb (has (lit "RUSTFLAGS") (lit "--deny warnings")) (deny && existsb (beq (fst x)) [lit "host"; lit "cross"; lit "cross-03"]) &&
  Bool.eqb (has (lit "SKIP_UI_TESTS") (lit "1")) skip.
Lemma env_has : forall a b (l : list (bytes * bytes)), existsb (fun e => beq (fst e) a && beq (snd e) b) l = true <-> In (a, b) l.
Proof.
  intros a b l. rewrite existsb_exists. split.
  - intros ([x y] & H & E). apply andb_true_iff in E as [E1 E2]. apply beq_eq in E1, E2. cbn [fst snd] in *. now subst.
  - intros H. exists (a, b). split; auto. cbn [fst snd]. now rewrite !beq_refl.
Qed.
Theorem C67_options : forall repo deny keep cmd version context c, In (Command context c) (plan repo (MkOptions cmd deny keep) version) ->
  (In (lit "RUSTFLAGS", lit "--deny warnings") (c_env c) <-> deny = true /\ In context [lit "host"; lit "cross"; lit "cross-03"]) /\
  (In (lit "SKIP_UI_TESTS", lit "1") (c_env c) <-> cmd = TestHost true).
Proof.
  intros repo deny keep cmd version context c H.
  assert (G : forall skip, (skip = true <-> cmd = TestHost true) -> env_is deny skip (context, c) = true ->
    (In (lit "RUSTFLAGS", lit "--deny warnings") (c_env c) <-> deny = true /\ In context [lit "host"; lit "cross"; lit "cross-03"]) /\
    (In (lit "SKIP_UI_TESTS", lit "1") (c_env c) <-> cmd = TestHost true)).
  { intros skip Hs E. unfold env_is in E. cbn [fst snd] in E. apply andb_true_iff in E as [E1 E2]. apply Bool.eqb_prop in E1, E2. rewrite <- !env_has. rewrite E1, E2.
    split; [|exact Hs]. rewrite andb_true_iff, existsb_exists. split; intros (A & B); split; auto.
    - destruct B as (x & I & X). apply beq_eq in X. now subst.
    - exists context. split; auto. apply beq_refl. }
  assert (L : forall l skip, forallb (env_is deny skip) l = true -> In (Command context c) (commands l) -> env_is deny skip (context, c) = true).
  { intros l skip F I. unfold commands in I. apply in_map_iff in I as ([x y] & E & I). injection E as -> ->. rewrite forallb_forall in F. now apply F. }
  assert (T : forall (f : bytes -> check) l, (forall t, f t <> Command context c) -> ~ In (Command context c) (map f l)).
  { intros f l N I. apply in_map_iff in I as (t & E & _). exact (N t E). }
  assert (Ho : forall skip, forallb (env_is deny skip) (host_commands deny skip) = true) by (intros []; destruct deny; vm_compute; reflexivity).
  assert (Cr : forall m, forallb (env_is deny false) (cross_commands deny m) = true) by (intros []; destruct deny; vm_compute; reflexivity).
  assert (Bo : forallb (env_is deny false) book_commands = true) by (destruct deny; vm_compute; reflexivity).
  assert (Li : forallb (env_is deny false) lint_commands = true) by (destruct deny; vm_compute; reflexivity).
  assert (Ui : forallb (env_is deny false) ui_commands = true) by (destruct deny; vm_compute; reflexivity).
  unfold plan in H. cbn [o_cmd o_deny] in H. destruct cmd as [| | | |skip| | |[] [t|]].
  - apply (G false); [split; discriminate|]. rewrite !in_app_iff in H. destruct H as [H|[H|[H|[H|[H|H]]]]].
    + exact (L _ _ (Ho false) H).
    + exact (L _ _ (Cr _) H).
    + exfalso. revert H. apply T. discriminate.
    + destruct H as [H|[]]. discriminate.
    + exact (L _ _ Bo H).
    + exact (L _ _ Li H).
  - destruct H as [H|[]]. discriminate.
  - apply (G false); [split; discriminate|]. exact (L _ _ Bo H).
  - apply (G false); [split; discriminate|]. exact (L _ _ (Cr _) H).
  - apply (G skip); [split; congruence|]. exact (L _ _ (Ho skip) H).
  - apply (G false); [split; discriminate|]. exact (L _ _ Li H).
  - apply (G false); [split; discriminate|]. exact (L _ _ Ui H).
  - destruct H as [H|[]]. discriminate.
  - exfalso. revert H. apply T. discriminate.
  - destruct H as [H|[]]. discriminate.
  - exfalso. revert H. apply T. discriminate.
Qed.
Print Assumptions C67_options.

(** Both versions of defmt are checked for three targets with each feature, [ip_in_core] but for the oldest compiler. *)
Theorem C67_cross : forall version repo deny keep target feature,
  In target [lit "thumbv6m-none-eabi"; lit "thumbv8m.base-none-eabi"; lit "riscv32i-unknown-none-elf"] ->
  In feature [[]; lit "alloc"] \/ (feature = lit "ip_in_core" /\ contains (lit "1.76") version = false) ->
  let checks := plan repo (MkOptions TestCross deny keep) version in
  (exists c, In (Command (lit "cross") c) checks /\ c_program c = lit "cargo" /\ c_dir c = None /\
     c_args c = [lit "check"; lit "--target"; target; lit "-p"; lit "defmt"; lit "--features"; feature]) /\
  (exists c, In (Command (lit "cross-03") c) checks /\ c_program c = lit "cargo" /\ c_dir c = Some (lit "defmt-03") /\
     c_args c = [lit "check"; lit "--target"; target; lit "--features"; feature]).
Proof.
  intros version repo deny keep target feature Ht Hf. cbv zeta. unfold plan. cbn [o_cmd o_deny].
  assert (F : In feature ([[]; lit "alloc"] ++ (if contains (lit "1.76") version then [] else [lit "ip_in_core"]))).
  { apply in_or_app. destruct Hf as [Hf|(-> & ->)]; [now left|right; now left]. }
  assert (G : forall x, In x [(lit "cross", cargo [lit "check"; lit "--target"; target; lit "-p"; lit "defmt"; lit "--features"; feature] None (warnings deny));
         (lit "cross-03", cargo [lit "check"; lit "--target"; target; lit "--features"; feature] (Some (lit "defmt-03")) (warnings deny))] ->
    In (Command (fst x) (snd x)) (commands (cross_commands deny (contains (lit "1.76") version)))).
  { intros x Ix. unfold commands. apply (in_map (fun x => Command (fst x) (snd x))). unfold cross_commands. apply in_or_app. left. apply in_flat_map. exists target. split; auto.
    apply in_flat_map. exists feature. split; auto. }
  split.
  - eexists. split; [exact (G _ (or_introl eq_refl))|]. auto.
  - eexists. split; [exact (G _ (or_intror (or_introl eq_refl)))|]. auto.
Qed.
Print Assumptions C67_cross.
