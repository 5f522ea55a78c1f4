(** The compilation targets that a run of the test runner installs and removes. *)
From Verif Require Import Base Utf8 XtaskModel XtaskSpec XtaskProofs XtaskMain.

(* ------------------------------------------------------------------ *)
(** * What rustup does *)

Definition target_add : list bytes := [lit "target"; lit "add"].
Definition target_remove : list bytes := [lit "target"; lit "remove"].
Definition target_list : command := rustup [lit "target"; lit "list"; lit "--installed"].

(** The effect of one event on the installed targets. *)
Definition target_step (have : list bytes) (e : event) : list bytes :=
  match e with
  | Run (MkCommand p (a :: b :: ts) _ _) (Ran true _ _ _) =>
      if beq p (lit "rustup") && beq a (lit "target") then
        if beq b (lit "add") then have ++ ts
        else if beq b (lit "remove") then filter (fun t => negb (existsb (beq t) ts)) have
        else have
      else have
  | _ => have
  end.

(** The targets after the events [h] if at the beginning there were [start]. *)
Definition targets_after (start : list bytes) (h : list event) : list bytes := fold_left target_step h start.

(** rustup lists them, if it does not fail. *)
Definition lists_targets (W : world) (start : list bytes) : Prop :=
  forall h st out err, w_run W h target_list = Ran true st out err -> forall t, In t (lines out) <-> In t (targets_after start h).

(** The subcommands that need targets. *)
Definition installs (c : test_command) : Prop := c = TestAll \/ c = TestCross \/ exists ow t, c = TestSnapshot ow t.

(** Removing targets worked, whenever it was tried. *)
Definition removals_work (h : list event) : Prop := forall ts r, In (Run (rustup (target_remove ++ ts)) r) h -> succeeded r.

(* ------------------------------------------------------------------ *)
(** * Proofs *)

Definition no_rustup (e : event) : Prop := match e with Run c _ => beq (c_program c) (lit "rustup") = false | _ => True end.

Lemma step_same : forall have e, no_rustup e -> target_step have e = have.
Proof. intros have [[p [|a [|b ts]] d v] [why|[|] st o er]| | | |] H; auto. cbn [no_rustup c_program] in H. cbn [target_step]. now rewrite H. Qed.

Lemma after_app : forall start a b, targets_after start (a ++ b) = targets_after (targets_after start a) b.
Proof. intros start a b. apply fold_left_app. Qed.

Lemma after_same : forall h have, Forall no_rustup h -> targets_after have h = have.
Proof. intros h have H. induction H as [|e h N H IH]; auto. unfold targets_after in *. cbn [fold_left]. now rewrite step_same. Qed.

Section Quiet.
  Context (W : world) (diff : bytes -> bytes -> list (tag * bytes)).

  Definition quiet {A} (m : M A) : Prop := forall s, exists h, Forall no_rustup h /\
    history (match m s with Done _ s' => s' | Panicked s' => s' end) = history s ++ h.

  Lemma quiet_ret : forall A (a : A), quiet (ret a).
  Proof. intros A a s. exists []. split; [constructor|cbn; now rewrite app_nil_r]. Qed.
  Lemma quiet_panic : forall A, quiet (@panic A).
  Proof. intros A s. exists []. split; [constructor|cbn; now rewrite app_nil_r]. Qed.
  Lemma quiet_then : forall A B (m : M A) (k : A -> M B), quiet m -> (forall a, quiet (k a)) -> quiet (andthen m k).
  Proof.
    intros A B m k Hm Hk s. destruct (Hm s) as (h & A1 & E1). unfold andthen. destruct (m s) as [a s1|s1]; [|eauto].
    destruct (Hk a s1) as (h2 & A2 & E2). rewrite E1 in *. exists (h ++ h2). split; [now apply Forall_app|]. now rewrite app_assoc.
  Qed.
  Lemma quiet_note : forall A (f : list event -> A) (e : list event -> event), (forall h, no_rustup (e h)) -> quiet (fun s => Done (f (history s)) (note (e (history s)) s)).
  Proof. intros A f e H s. exists [e (history s)]. split; [now repeat constructor|reflexivity]. Qed.
  Lemma quiet_run : forall c, beq (c_program c) (lit "rustup") = false -> quiet (run W c).
  Proof. intros c H. apply (quiet_note _ (fun h => w_run W h c) (fun h => Run c (w_run W h c))). intros h. exact H. Qed.
  Lemma quiet_read : forall p, quiet (read_file W p).
  Proof. intros p. apply (quiet_note _ (fun h => w_read W h p) (fun h => ReadFile p (w_read W h p))). exact (fun _ => Logic.I). Qed.
  Lemma quiet_write : forall p b, quiet (write_file W p b).
  Proof. intros p b. apply (quiet_note _ (fun h => w_write W h p b) (fun h => WriteFile p b (w_write W h p b))). exact (fun _ => Logic.I). Qed.
  Lemma quiet_temp : quiet (temp_dir W).
  Proof. apply (quiet_note _ (fun h => w_temp W h) (fun h => TempDir (w_temp W h))). exact (fun _ => Logic.I). Qed.
  Lemma quiet_exists : forall p, quiet (exists_file W p).
  Proof. intros p. apply (quiet_note _ (fun h => w_exists W h p) (fun h => Exists p (w_exists W h p))). exact (fun _ => Logic.I). Qed.
  Lemma quiet_test : forall m c, quiet m -> quiet (do_test m c).
  Proof. intros m c H. apply quiet_then; auto. intros v s. exists []. split; [constructor|]. destruct v; cbn; now rewrite app_nil_r. Qed.
  Lemma quiet_each : forall A (f : A -> M unit) l, Forall (fun a => quiet (f a)) l -> quiet (each f l).
  Proof. intros A f l H. induction H as [|x l Q H IH]; [apply quiet_ret|]. apply quiet_then; auto. Qed.

  Ltac quiet := repeat first [apply quiet_run; reflexivity|apply quiet_read|apply quiet_write|apply quiet_temp|apply quiet_exists|apply quiet_ret|apply quiet_panic
    |apply quiet_test|apply quiet_then; [|intros ?]
    |match goal with |- quiet (match ?x with _ => _ end) => destruct x | |- quiet (if ?x then _ else _) => destruct x end].

  Lemma quiet_contains : forall w, quiet (rustc_contains W w).
  Proof. intros w. unfold rustc_contains, run_capturing_stdout. quiet. Qed.
  Lemma quiet_tests : quiet (all_snapshot_tests W).
  Proof. unfold all_snapshot_tests, rustc_is_nightly, rustc_is_msrv. repeat (apply quiet_then; [apply quiet_contains|intros ?]). apply quiet_ret. Qed.
  Lemma quiet_snapshot : forall n f o, quiet (test_single_snapshot W diff n f o).
  Proof. intros n f o. unfold test_single_snapshot, run_capturing_stdout. quiet. Qed.
  Lemma quiet_command : forall l, Forall (fun x : bytes * command => beq (c_program (snd x)) (lit "rustup") = false) l -> quiet (each (do_command W) l).
  Proof.
    intros l H. apply quiet_each. eapply Forall_impl; [|exact H]. intros x Hx. unfold do_command, run_command. apply quiet_test, quiet_then; [now apply quiet_run|].
    intros r. apply quiet_ret.
  Qed.
  Lemma quiet_silent : forall c e, beq (c_program c) (lit "rustup") = false -> quiet (run_silently W c e).
  Proof. intros c e H. unfold run_silently. apply quiet_then; [now apply quiet_run|]. intros r. apply quiet_ret. Qed.
  Lemma quiet_old : forall repo, quiet (test_backcompat W repo).
  Proof.
    intros repo. unfold test_backcompat. apply quiet_then.
    - unfold build_qemu_run. repeat first [apply quiet_silent; reflexivity | progress quiet].
    - intros [exe|].
      + apply quiet_then; [apply quiet_tests|]. intros l. apply quiet_each, Forall_forall. intros t _. apply quiet_test, quiet_silent. reflexivity.
      + intros s. exists []. split; [constructor|]. cbn. now rewrite app_nil_r.
  Qed.
  Lemma quiet_snapshots : forall o x, quiet (test_snapshot W diff o x).
  Proof.
    intros o [t|]; cbn [test_snapshot]; [apply quiet_test, quiet_snapshot|]. apply quiet_then; [apply quiet_tests|]. intros l. apply quiet_each, Forall_forall.
    intros t _. apply quiet_test, quiet_snapshot.
  Qed.
  Lemma quiet_host : forall d s, quiet (test_host W d s).
  Proof. intros [|] [|]; apply quiet_command; repeat constructor. Qed.
  Lemma quiet_cross : forall d, quiet (test_cross W d).
  Proof. intros d. apply quiet_then; [apply quiet_contains|]. intros [|]; apply quiet_command; destruct d; repeat constructor. Qed.
  Lemma quiet_book : quiet (test_book W).
  Proof. apply quiet_command. repeat constructor. Qed.
  Lemma quiet_lint : quiet (test_lint W).
  Proof. apply quiet_command. repeat constructor. Qed.
  Lemma quiet_parse : forall o, quiet (parse W o).
  Proof. intros o. unfold parse. destruct (o_cmd o) as [| | | | | | |ow [t|]]; try apply quiet_ret. apply quiet_then; [apply quiet_tests|]. intros l. apply quiet_ret. Qed.

  (** The events of the run of a subcommand. *)
  Inductive shape (o : options) (s : list event) : bool -> list event -> Prop :=
  | ShNone done h : ~ installs (o_cmd o) -> Forall no_rustup h -> shape o s done h
  | ShList : installs (o_cmd o) -> ~ readable (w_run W s target_list) -> shape o s false [Run target_list (w_run W s target_list)]
  | ShAdd r st out err : installs (o_cmd o) -> w_run W s target_list = Ran true st out err -> ~ succeeded r ->
      shape o s false [Run target_list (w_run W s target_list); Run (rustup (target_add ++ required_targets)) r]
  | ShStop st out err st' out' err' h : installs (o_cmd o) -> w_run W s target_list = Ran true st out err -> Forall no_rustup h ->
      shape o s false ([Run target_list (w_run W s target_list); Run (rustup (target_add ++ required_targets)) (Ran true st' out' err')] ++ h)
  | ShKeep st out err st' out' err' h : installs (o_cmd o) -> w_run W s target_list = Ran true st out err -> Forall no_rustup h ->
      o_keep o = true \/ (forall t, In t required_targets -> In t (lines out)) ->
      shape o s true ([Run target_list (w_run W s target_list); Run (rustup (target_add ++ required_targets)) (Ran true st' out' err')] ++ h)
  | ShRemove done st out err st' out' err' h ts r : installs (o_cmd o) -> w_run W s target_list = Ran true st out err -> Forall no_rustup h ->
      o_keep o = false -> (forall t, In t ts <-> In t required_targets /\ ~ In t (lines out)) -> (done = false -> ~ succeeded r) ->
      shape o s done ([Run target_list (w_run W s target_list); Run (rustup (target_add ++ required_targets)) (Ran true st' out' err')] ++ h ++
        [Run (rustup (target_remove ++ ts)) r]).

  Lemma added_exact : forall out t, In t (filter (fun t => negb (existsb (beq t) (lines out))) required_targets) <-> In t required_targets /\ ~ In t (lines out).
  Proof.
    intros out t. rewrite filter_In, negb_true_iff. split; intros (A & B); split; auto.
    - intros I. assert (X : existsb (beq t) (lines out) = true) by (apply existsb_exists; exists t; split; auto; apply beq_refl). rewrite X in B. discriminate.
    - apply not_true_is_false. intros X. apply B. apply existsb_exists in X as (u & I & E). apply beq_eq in E. now subst.
  Qed.

  Definition listed (s : state) : event := Run target_list (w_run W (history s) target_list).
  Definition adding (r : ran) : event := Run (rustup (target_add ++ required_targets)) r.

  Lemma install_is : forall s, match install W s with
    | Done added s' => exists st out err st' o' e', w_run W (history s) target_list = Ran true st out err /\
        history s' = history s ++ [listed s; adding (Ran true st' o' e')] /\ added = filter (fun t => negb (existsb (beq t) (lines out))) required_targets
    | Panicked s' => (history s' = history s ++ [listed s] /\ ~ readable (w_run W (history s) target_list)) \/
        exists r st out err, w_run W (history s) target_list = Ran true st out err /\ history s' = history s ++ [listed s; adding r] /\ ~ succeeded r
    end.
  Proof.
    intros s. unfold install, run_capturing_stdout. fold target_list. unfold andthen, run, ret, panic, listed. cbv beta iota.
    destruct (w_run W (history s) target_list) as [why|[|] st out err] eqn:Ew; cbv beta iota.
    - left. split; [reflexivity|]. intros (a & b & c & X & _). discriminate.
    - destruct (utf8_valid out) eqn:U; cbv beta iota.
      + set (s1 := note (Run target_list (Ran true st out err)) s). change ([lit "target"; lit "add"] ++ required_targets) with (target_add ++ required_targets).
        set (r := w_run W (history s1) (rustup (target_add ++ required_targets))).
        assert (E : history (note (Run (rustup (target_add ++ required_targets)) r) s1) = history s ++ [Run target_list (Ran true st out err); adding r])
          by (unfold s1, note, adding; cbn [history]; now rewrite <- app_assoc).
        destruct r as [why'|[|] st' o' e'].
        * right. exists (CannotRun why'), st, out, err. split; [reflexivity|]. split; [exact E|]. intros (x & y & z & X). discriminate.
        * exists st, out, err, st', o', e'. split; [reflexivity|]. split; [exact E|reflexivity].
        * right. exists (Ran false st' o' e'), st, out, err. split; [reflexivity|]. split; [exact E|]. intros (x & y & z & X). discriminate.
      + left. split; [reflexivity|]. intros (a & b & c & X & V). injection X as -> -> ->. congruence.
    - left. split; [reflexivity|]. intros (a & b & c & X & _). discriminate.
  Qed.

  Lemma install_shape : forall (o : options) (m : M unit) s, installs (o_cmd o) -> quiet m ->
    let r := (added <~ install W ;; _ <~ m ;; if o_keep o then ret tt else match added with [] => ret tt | _ => uninstall W added end) s in
    exists h, history (match r with Done _ s' => s' | Panicked s' => s' end) = history s ++ h /\
      shape o (history s) (match r with Done _ _ => true | Panicked _ => false end) h.
  Proof.
    intros o m s Hi Q r.
    assert (Er : (added <~ install W ;; _ <~ m ;; if o_keep o then ret tt else match added with [] => ret tt | _ => uninstall W added end) s = r) by reflexivity.
    clearbody r. unfold andthen at 1 in Er. pose proof (install_is s) as H. destruct (install W s) as [added s1|s1].
    - destruct H as (st & out & err & st' & o' & e' & Ew & E1 & Ea). unfold andthen at 1 in Er. destruct (Q s1) as (h & Nh & E2).
      destruct (m s1) as [u s2|s2]; rewrite E1 in E2.
      + destruct (o_keep o) eqn:Ek.
        * unfold ret in Er. subst r. exists ([listed s; adding (Ran true st' o' e')] ++ h). rewrite E2, <- app_assoc. split; [reflexivity|]. apply (ShKeep o _ st out err); auto.
        * destruct added as [|t ts] eqn:El.
          -- unfold ret in Er. subst r. exists ([listed s; adding (Ran true st' o' e')] ++ h). rewrite E2, <- app_assoc. split; [reflexivity|]. apply (ShKeep o _ st out err); auto.
             right. intros t I. destruct (in_dec (list_eq_dec Z.eq_dec) t (lines out)) as [J|J]; auto.
             pose proof (proj2 (added_exact out t) (conj I J)) as K. rewrite <- Ea in K. contradiction.
          -- set (added' := t :: ts) in *. unfold uninstall, run, andthen, ret, panic in Er. cbv beta iota in Er.
             change ([lit "target"; lit "remove"] ++ added') with (target_remove ++ added') in Er. set (q := w_run W (history s2) _) in *.
             exists ([listed s; adding (Ran true st' o' e')] ++ h ++ [Run (rustup (target_remove ++ added')) q]).
             split.
             { replace (history (match r with Done _ s' => s' | Panicked s' => s' end)) with (history s2 ++ [Run (rustup (target_remove ++ added')) q])
                 by (destruct q; subst r; reflexivity).
               rewrite E2. rewrite <- !app_assoc. reflexivity. }
             apply (ShRemove o _ _ st out err); auto.
             ++ intros x. rewrite Ea. apply added_exact.
             ++ destruct q as [why|? ? ? ?]; subst r; [intros _ (a & b & c & X); discriminate|discriminate].
      + subst r. exists ([listed s; adding (Ran true st' o' e')] ++ h). rewrite E2, <- app_assoc. split; [reflexivity|]. apply (ShStop o _ st out err); auto.
    - subst r. destruct H as [(E & N)|(r & st & out & err & Ew & E & N)].
      + exists [listed s]. split; auto. now apply ShList.
      + exists [listed s; adding r]. split; auto. eapply ShAdd; eauto.
  Qed.

  Lemma body_shape : forall repo o s, exists h, history (match body W diff repo o s with Done _ s' => s' | Panicked s' => s' end) = history s ++ h /\
    shape o (history s) (match body W diff repo o s with Done _ _ => true | Panicked _ => false end) h.
  Proof.
    intros repo o s. assert (Q : forall m : M unit, quiet m -> ~ installs (o_cmd o) -> exists h, history (match m s with Done _ s' => s' | Panicked s' => s' end) = history s ++ h /\
      shape o (history s) (match m s with Done _ _ => true | Panicked _ => false end) h).
    { intros m Hm Hn. destruct (Hm s) as (h & N & E). exists h. split; auto. now apply ShNone. }
    assert (NI : forall c, o_cmd o = c -> (forall ow t, c <> TestSnapshot ow t) -> c <> TestAll -> c <> TestCross -> ~ installs (o_cmd o)).
    { intros c Ec A B C [X|[X|(ow & t & X)]]; rewrite Ec in X; subst; congruence. }
    unfold body. destruct (o_cmd o) as [| | | |skip| | |ow t] eqn:Ec.
    - apply install_shape; [left; exact Ec|]. apply quiet_then; [apply quiet_host|intros _]. apply quiet_then; [apply quiet_cross|intros _].
      apply quiet_then; [apply quiet_snapshots|intros _]. apply quiet_then; [apply quiet_old|intros _]. apply quiet_then; [apply quiet_book|intros _]. apply quiet_lint.
    - apply Q; [apply quiet_old|]. now apply (NI TestBackcompat).
    - apply Q; [apply quiet_book|]. now apply (NI TestBook).
    - apply install_shape; [right; left; exact Ec|]. apply quiet_cross.
    - apply Q; [apply quiet_host|]. now apply (NI (TestHost skip)).
    - apply Q; [apply quiet_lint|]. now apply (NI TestLint).
    - apply Q; [apply quiet_command; repeat constructor|]. now apply (NI TestUi).
    - apply install_shape; [right; right; exists ow, t; exact Ec|]. apply quiet_snapshots.
  Qed.
End Quiet.

Lemma parse_rustc : forall W o s, exists h, Forall (fun e => no_rustup e /\ checking e = false) h /\
  history (match parse W o s with Done _ s' => s' | Panicked s' => s' end) = history s ++ h.
Proof.
  intros W o s. assert (C : forall w s, exists h, Forall (fun e => no_rustup e /\ checking e = false) h /\
    history (match rustc_contains W w s with Done _ s' => s' | Panicked s' => s' end) = history s ++ h).
  { clear. intros w s. exists [Run rustc_version (w_run W (history s) rustc_version)]. split; [repeat constructor|].
    unfold rustc_contains, run_capturing_stdout, andthen, run, ret, panic. destruct (w_run W (history s) rustc_version) as [why|[|] st out err]; try reflexivity.
    now destruct (utf8_valid out). }
  unfold parse. destruct (o_cmd o) as [| | | | | | |ow [t|]]; try (exists []; split; [constructor|cbn; now rewrite app_nil_r]).
  unfold all_snapshot_tests, rustc_is_nightly, rustc_is_msrv, andthen, ret. destruct (C (lit "nightly") s) as (h1 & F1 & E1).
  destruct (rustc_contains W (lit "nightly") s) as [n s1|s1]; [|eauto]. destruct (C (lit "1.76") s1) as (h2 & F2 & E2).
  exists (h1 ++ h2). split; [now apply Forall_app|]. destruct (rustc_contains W (lit "1.76") s1) as [v s2|s2]; rewrite E2, E1; now rewrite app_assoc.
Qed.

(** The whole run: questions to rustc, then the events of the subcommand. *)
Lemma xtask_shape : forall W diff repo o before e after, xtask W diff repo o before = (e, after) ->
  exists q h, after = before ++ q ++ h /\ Forall (fun e => no_rustup e /\ checking e = false) q /\
    (((e = Usage \/ e = Crashed) /\ h = []) \/ exists done, (done = false <-> e = Crashed) /\ e <> Usage /\ shape W o (before ++ q) done h).
Proof.
  intros W diff repo o before e after H. unfold xtask in H. destruct (parse_rustc W o (MkState before [])) as (q & Fq & Eq). cbn [history] in Eq.
  destruct (parse W o (MkState before [])) as [[|] s1|s1].
  - destruct (body_shape W diff repo o s1) as (h & Eh & Sh). rewrite Eq in Eh, Sh. exists q, h. destruct (body W diff repo o s1) as [u s2|s2].
    + injection H as <- <-. split; [rewrite Eh; now rewrite app_assoc|]. split; auto. right. exists true. split; [destruct (errors s2); split; discriminate|].
      split; [destruct (errors s2); discriminate|exact Sh].
    + injection H as <- <-. split; [rewrite Eh; now rewrite app_assoc|]. split; auto. right. exists false. split; [tauto|]. split; [discriminate|exact Sh].
  - injection H as <- <-. exists q, []. rewrite app_nil_r. split; [exact Eq|]. split; [exact Fq|]. left. auto.
  - injection H as <- <-. exists q, []. rewrite app_nil_r. split; [exact Eq|]. split; [exact Fq|]. left. auto.
Qed.

Lemma quiet_list : forall (q : list event), Forall (fun e => no_rustup e /\ checking e = false) q -> Forall no_rustup q.
Proof. intros q H. eapply Forall_impl; [|exact H]. now intros e (A & _). Qed.

Lemma step_listed : forall have r, target_step have (Run target_list r) = have.
Proof. intros have [why|[|] st o er]; reflexivity. Qed.
Lemma step_added : forall have st o er ts, target_step have (Run (rustup (target_add ++ ts)) (Ran true st o er)) = have ++ ts.
Proof. reflexivity. Qed.
Lemma step_failed : forall have c r, ~ succeeded r -> target_step have (Run c r) = have.
Proof. intros have [p [|a [|b ts]] d v] [why|[|] st o er] H; auto. destruct H. unfold succeeded. eauto. Qed.
Lemma step_removed : forall have r ts, succeeded r -> target_step have (Run (rustup (target_remove ++ ts)) r) = filter (fun t => negb (existsb (beq t) ts)) have.
Proof. intros have r ts (st & o & er & ->). reflexivity. Qed.

Lemma in_removed : forall have ts t, In t (filter (fun t => negb (existsb (beq t) ts)) have) <-> In t have /\ ~ In t ts.
Proof.
  intros have ts t. rewrite filter_In, negb_true_iff. split; intros (A & B); split; auto.
  - intros I. assert (X : existsb (beq t) ts = true) by (apply existsb_exists; exists t; split; auto; apply beq_refl). rewrite X in B. discriminate.
  - apply not_true_is_false. intros X. apply B. apply existsb_exists in X as (u & I & E). apply beq_eq in E. now subst.
Qed.

Lemma succeeded_dec : forall r, succeeded r \/ ~ succeeded r.
Proof. intros [why|[|] st o er]; [right|left; unfold succeeded; eauto|right]; intros (a & b & c & X); discriminate. Qed.

Lemma after_install : forall have r st o er ts h, targets_after have ([Run target_list r; Run (rustup (target_add ++ ts)) (Ran true st o er)] ++ h) = targets_after (have ++ ts) h.
Proof. intros have r st o er ts h. unfold targets_after. cbn [app fold_left]. now rewrite step_listed, step_added. Qed.

Lemma after_one : forall have e, targets_after have [e] = target_step have e.
Proof. reflexivity. Qed.

(** The targets at the end of a subcommand. *)
Lemma shape_targets : forall W o start s done h, lists_targets W start -> shape W o s done h ->
  (forall t, In t (targets_after start s) -> In t (targets_after start (s ++ h))) /\
  (done = true -> o_keep o = false -> removals_work h -> forall t, In t (targets_after start (s ++ h)) -> In t (targets_after start s)) /\
  (done = true -> o_keep o = true -> forall t, In t (targets_after start (s ++ h)) <-> In t (targets_after start s) \/ (installs (o_cmd o) /\ In t required_targets)).
Proof.
  intros W o start s done h L Sh. rewrite after_app. set (T := targets_after start s).
  destruct Sh as [done h Ni N|Hi N|r st out err Hi Ew N|st out err st' out' err' h Hi Ew N|st out err st' out' err' h Hi Ew N K|done st out err st' out' err' h ts r Hi Ew N K Ets Er].
  - rewrite (after_same h T N). split; [auto|]. split; [auto|]. intros _ _ t. split; [auto|]. intros [X|(X & _)]; [exact X|contradiction].
  - rewrite after_one, step_listed. repeat split; (tauto || discriminate).
  - unfold targets_after at 1. cbn [fold_left]. rewrite step_listed, step_failed by exact N. repeat split; (tauto || discriminate).
  - rewrite after_install, after_same by exact N.
    split; [intros t I; apply in_or_app; now left|]. split; discriminate.
  - rewrite after_install, after_same by exact N.
    split; [intros t I; apply in_or_app; now left|]. split.
    + intros _ Ek _ t I. destruct K as [K|K]; [congruence|]. apply in_app_or in I as [I|I]; auto. apply (L s st out err Ew). auto.
    + intros _ _ t. rewrite in_app_iff. tauto.
  - rewrite after_install, after_app. rewrite (after_same h) by exact N. rewrite after_one. pose proof (L s st out err Ew) as Lw. fold T in Lw. split; [|split].
    + intros t I. destruct (succeeded_dec r) as [Y|Y]; [rewrite step_removed by exact Y; apply in_removed|rewrite step_failed by exact Y; apply in_or_app; now left].
      split; [apply in_or_app; now left|]. intros X. apply Ets in X as (_ & X). apply X. now apply Lw.
    + intros _ _ Rw t J0. assert (Y : succeeded r).
      { apply (Rw ts). apply in_or_app. right. apply in_or_app. right. now left. }

      rewrite step_removed in J0 by exact Y. apply in_removed in J0 as (I & J). apply in_app_or in I as [I|I]; auto. apply Lw.
      destruct (in_dec (list_eq_dec Z.eq_dec) t (lines out)) as [X|X]; auto. exfalso. apply J. now apply Ets.
    + intros _ Ek. congruence.
Qed.

(** Whatever happens, a target that was installed stays installed. *)
Theorem targets_stay : forall W diff repo o start before e after, lists_targets W start -> xtask W diff repo o before = (e, after) ->
  forall t, In t (targets_after start before) -> In t (targets_after start after).
Proof.
  intros W diff repo o start before e after L H t I. destruct (xtask_shape _ _ _ _ _ _ _ H) as (q & h & -> & Fq & D).
  assert (Eq : targets_after start (before ++ q) = targets_after start before) by (rewrite after_app; now apply after_same, quiet_list).
  destruct D as [(_ & ->)|(done & _ & _ & Sh)]; [now rewrite app_nil_r, Eq|]. rewrite app_assoc. destruct (shape_targets W o start (before ++ q) done h L Sh) as (A & _). apply A. now rewrite Eq.
Qed.

(** Without [--keep-targets] those that were added are gone afterwards, if removing them works. *)
Theorem targets_restored : forall W diff repo o start before e h, lists_targets W start -> xtask W diff repo o before = (e, before ++ h) -> e <> Crashed ->
  o_keep o = false -> removals_work h -> forall t, In t (targets_after start (before ++ h)) <-> In t (targets_after start before).
Proof.
  intros W diff repo o start before e h0 L H NC Ek Rw t. split; [|intros I; exact (targets_stay _ _ _ _ _ _ _ _ L H t I)].
  destruct (xtask_shape _ _ _ _ _ _ _ H) as (q & h & E & Fq & D). apply app_inv_head in E. subst h0.
  assert (Eq : targets_after start (before ++ q) = targets_after start before) by (rewrite after_app; now apply after_same, quiet_list).
  destruct D as [(_ & ->)|(done & Ed & _ & Sh)]; [now rewrite app_nil_r, Eq|]. rewrite app_assoc. intros I.
  destruct (shape_targets W o start (before ++ q) done h L Sh) as (_ & B & _). rewrite Eq in B. apply B; auto.
  - destruct done; auto. destruct NC. now apply Ed.
  - intros ts r J. apply (Rw ts). apply in_or_app. now right.
Qed.

(** With it they stay. *)
Theorem targets_kept : forall W diff repo o start before e after, lists_targets W start -> xtask W diff repo o before = (e, after) -> e <> Crashed -> e <> Usage ->
  o_keep o = true -> forall t, In t (targets_after start after) <-> In t (targets_after start before) \/ (installs (o_cmd o) /\ In t required_targets).
Proof.
  intros W diff repo o start before e after L H NC NU Ek t. destruct (xtask_shape _ _ _ _ _ _ _ H) as (q & h & -> & Fq & D).
  assert (Eq : targets_after start (before ++ q) = targets_after start before) by (rewrite after_app; now apply after_same, quiet_list).
  destruct D as [([X|X] & _)|(done & Ed & _ & Sh)]; [contradiction..|]. rewrite app_assoc.
  destruct (shape_targets W o start (before ++ q) done h L Sh) as (_ & _ & C). rewrite Eq in C. apply C; auto. destruct done; auto. destruct NC. now apply Ed.
Qed.

(** The checks of these subcommands are made while all targets are installed. *)
Theorem targets_present : forall W diff repo o start before e a x b, xtask W diff repo o before = (e, before ++ a ++ x :: b) -> installs (o_cmd o) ->
  checking x = true -> forall t, In t required_targets -> In t (targets_after start (before ++ a)).
Proof.
  intros W diff repo o start before e a x b H Hi Cx t It. destruct (xtask_shape _ _ _ _ _ _ _ H) as (q & h & E & Fq & D). apply app_inv_head in E.
  assert (Nq : ~ In x q). { intros I. rewrite Forall_forall in Fq. destruct (Fq x I). congruence. }
  assert (S1 : exists l, a = q ++ l /\ h = l ++ x :: b).
  { clear - E Nq. apply app_eq_app in E as (l & [[-> E]|[-> E]]).
    - exists l. auto.
    - destruct l as [|y l]; [exists []; rewrite !app_nil_r; auto|]. injection E as <- ->. destruct Nq. apply in_or_app. right. now left. }
  destruct S1 as (l & -> & El). clear E. destruct D as [(_ & ->)|(done & _ & _ & Sh)]; [destruct l; discriminate|].
  assert (K : forall st' o' e' z, [Run target_list (w_run W (before ++ q) target_list); Run (rustup (target_add ++ required_targets)) (Ran true st' o' e')] ++ z = l ++ x :: b ->
    (Forall no_rustup z \/ exists h ts r, z = h ++ [Run (rustup (target_remove ++ ts)) r] /\ Forall no_rustup h) -> In t (targets_after start (before ++ q ++ l))).
  { intros st' o' e' z Ez Fz. destruct l as [|y1 [|y2 l]].
    - injection Ez as <- _. discriminate.
    - injection Ez as _ <- _. discriminate.
    - injection Ez as <- <- Ez. assert (Fl : Forall no_rustup l).
      { destruct Fz as [Fz|(h' & ts & r & -> & Fz)]; [rewrite Ez in Fz; now apply Forall_app in Fz|].
        destruct (exists_last (l := x :: b)) as (b' & y & Eb); [discriminate|]. rewrite Eb, app_assoc in Ez. apply app_inj_tail in Ez as (-> & _).
        now apply Forall_app in Fz. }
      rewrite app_assoc, after_app.
      match goal with |- In t (targets_after _ (?x :: ?y :: l)) =>
        change (x :: y :: l) with ([Run target_list (w_run W (before ++ q) target_list); Run (rustup (target_add ++ required_targets)) (Ran true st' o' e')] ++ l) end. rewrite after_install, after_same by exact Fl. apply in_or_app. now right. }
  destruct Sh as [done h Ni N|_ N|r st out err _ Ew N|st out err st' out' err' h _ Ew N|st out err st' out' err' h _ Ew N _|done st out err st' out' err' h ts r _ Ew N _ Ets Er].
  - contradiction.
  - destruct l as [|y [|? ?]]; try discriminate. injection El as <- _. discriminate.
  - destruct l as [|y1 [|y2 [|? ?]]]; try discriminate; [injection El as <- _|injection El as _ <- _]; discriminate.
  - eapply K; [exact El|]. now left.
  - eapply K; [exact El|]. now left.
  - eapply K; [exact El|]. right. eauto.
Qed.
