(** Snapshots that are written and then compared. *)
From Verif Require Import Base Utf8 XtaskModel XtaskSpec XtaskProofs.

(** Events are answers of the world. *)
Definition answers (W : world) (before h : list event) : Prop := forall a e b, h = a ++ e :: b -> answer W (before ++ a) e.

Lemma answers_app : forall W b h1 h2, answers W b h1 -> answers W (b ++ h1) h2 -> answers W b (h1 ++ h2).
Proof.
  intros W b h1 h2 H1 H2 a e z E. apply app_eq_app in E as (l & [[-> E]|[-> E]]).
  - destruct l as [|x l]; cbn [app] in E.
    + specialize (H2 [] e z (eq_sym E)). now rewrite !app_nil_r in H2.
    + injection E as <- ->. eapply H1. reflexivity.
  - rewrite app_assoc. eapply H2. exact E.
Qed.

Lemma answers_one : forall W b e, answer W b e -> answers W b [e].
Proof. intros W b e H a e' z E. destruct a as [|x a]; [injection E as <- <-; now rewrite app_nil_r|]. destruct a; discriminate. Qed.

Section Honest.
  Context (W : world) (diff : bytes -> bytes -> list (tag * bytes)).

  Definition honest {A} (m : M A) : Prop := forall s, exists h, answers W (history s) h /\
    history (match m s with Done _ s' => s' | Panicked s' => s' end) = history s ++ h.

  Lemma honest_ret : forall A (a : A), honest (ret a).
  Proof. intros A a s. exists []. split; [|cbn; now rewrite app_nil_r]. intros [|] ? ? E; discriminate. Qed.
  Lemma honest_panic : forall A, honest (@panic A).
  Proof. intros A s. exists []. split; [|cbn; now rewrite app_nil_r]. intros [|] ? ? E; discriminate. Qed.
  Lemma honest_then : forall A B (m : M A) (k : A -> M B), honest m -> (forall a, honest (k a)) -> honest (andthen m k).
  Proof.
    intros A B m k Hm Hk s. destruct (Hm s) as (h & A1 & E1). unfold andthen. destruct (m s) as [a s1|s1]; [|eauto].
    destruct (Hk a s1) as (h2 & A2 & E2). rewrite E1 in *. exists (h ++ h2). split; [now apply answers_app|]. now rewrite app_assoc.
  Qed.
  Lemma honest_note : forall A (f : list event -> A) (e : list event -> event), (forall h, answer W h (e h)) -> honest (fun s => Done (f (history s)) (note (e (history s)) s)).
  Proof. intros A f e H s. exists [e (history s)]. split; [now apply answers_one|reflexivity]. Qed.
  Lemma honest_run : forall c, honest (run W c).
  Proof. intros c. apply (honest_note _ (fun h => w_run W h c) (fun h => Run c (w_run W h c))). reflexivity. Qed.
  Lemma honest_read : forall p, honest (read_file W p).
  Proof. intros p. apply (honest_note _ (fun h => w_read W h p) (fun h => ReadFile p (w_read W h p))). reflexivity. Qed.
  Lemma honest_write : forall p b, honest (write_file W p b).
  Proof. intros p b. apply (honest_note _ (fun h => w_write W h p b) (fun h => WriteFile p b (w_write W h p b))). reflexivity. Qed.
  Lemma honest_temp : honest (temp_dir W).
  Proof. apply (honest_note _ (fun h => w_temp W h) (fun h => TempDir (w_temp W h))). reflexivity. Qed.
  Lemma honest_exists : forall p, honest (exists_file W p).
  Proof. intros p. apply (honest_note _ (fun h => w_exists W h p) (fun h => Exists p (w_exists W h p))). reflexivity. Qed.
  Lemma honest_test : forall m c, honest m -> honest (do_test m c).
  Proof. intros m c H. apply honest_then; auto. intros v s. exists []. split; [intros [|] ? ? E; discriminate|]. destruct v; cbn; now rewrite app_nil_r. Qed.
  Lemma honest_each : forall A (f : A -> M unit) l, (forall a, honest (f a)) -> honest (each f l).
  Proof. intros A f l H. induction l as [|x l IH]; [apply honest_ret|]. apply honest_then; auto. Qed.

  Ltac honest := repeat first [apply honest_run|apply honest_read|apply honest_write|apply honest_temp|apply honest_exists|apply honest_ret|apply honest_panic
    |apply honest_test|apply honest_each; intros ?|apply honest_then; [|intros ?]
    |match goal with |- honest (match ?x with _ => _ end) => destruct x | |- honest (if ?x then _ else _) => destruct x end].

  Lemma honest_contains : forall w, honest (rustc_contains W w).
  Proof. intros w. unfold rustc_contains, run_capturing_stdout. honest. Qed.
  Lemma honest_tests : honest (all_snapshot_tests W).
  Proof. unfold all_snapshot_tests, rustc_is_nightly, rustc_is_msrv. repeat (apply honest_then; [apply honest_contains|intros ?]). apply honest_ret. Qed.
  Lemma honest_snapshot : forall n f o, honest (test_single_snapshot W diff n f o).
  Proof. intros n f o. unfold test_single_snapshot, run_capturing_stdout. honest. Qed.
  Lemma honest_command : forall l, honest (each (do_command W) l).
  Proof. intros l. apply honest_each. intros x. unfold do_command, run_command. honest. Qed.
  Lemma honest_silent : forall c e, honest (run_silently W c e).
  Proof. intros c e. unfold run_silently. honest. Qed.
  Lemma honest_old : forall repo, honest (test_backcompat W repo).
  Proof.
    intros repo. unfold test_backcompat. apply honest_then.
    - unfold build_qemu_run. repeat first [apply honest_silent | progress honest].
    - intros [exe|].
      + apply honest_then; [apply honest_tests|]. intros l. apply honest_each. intros t. apply honest_test, honest_silent.
      + intros s. exists []. split; [intros [|] ? ? E; discriminate|]. cbn. now rewrite app_nil_r.
  Qed.
  Lemma honest_snapshots : forall o x, honest (test_snapshot W diff o x).
  Proof.
    intros o [t|]; cbn [test_snapshot]; [apply honest_test, honest_snapshot|]. apply honest_then; [apply honest_tests|]. intros l. apply honest_each. intros t. apply honest_test, honest_snapshot.
  Qed.
  Lemma honest_cross : forall d, honest (test_cross W d).
  Proof. intros d. apply honest_then; [apply honest_contains|]. intros m. apply honest_command. Qed.

  Lemma honest_body : forall repo o, honest (body W diff repo o).
  Proof.
    intros repo o. assert (I : honest (install W)) by (unfold install, run_capturing_stdout; honest).
    assert (U : forall (keep : bool) l, honest (if keep then ret tt else match l with [] => ret tt | _ => uninstall W l end)).
    { intros [|] [|t l]; try apply honest_ret. unfold uninstall. honest. }
    unfold body. destruct (o_cmd o); try apply honest_command; try apply honest_old; try (apply honest_then; [exact I|]; intros l; apply honest_then; [|intros _; apply U]).
    - repeat (apply honest_then; [first [apply honest_command|apply honest_cross|apply honest_snapshots|apply honest_old]|intros _]). apply honest_command.
    - apply honest_cross.
    - apply honest_snapshots.
  Qed.

  Theorem honest_xtask : forall repo o before e after, xtask W diff repo o before = (e, after) -> exists h, after = before ++ h /\ answers W before h.
  Proof.
    intros repo o before e after H. unfold xtask in H. assert (P : honest (parse W o)).
    { unfold parse. destruct (o_cmd o) as [| | | |skip| | |ow [t|]]; try apply honest_ret. apply honest_then; [apply honest_tests|]. intros l. apply honest_ret. }
    destruct (P (MkState before [])) as (h1 & A1 & E1). destruct (parse W o (MkState before [])) as [[|] s1|s1]; cbn [history] in *; try (injection H as <- <-; eauto; fail).
    destruct (honest_body repo o s1) as (h2 & A2 & E2). rewrite E1 in *. exists (h1 ++ h2). split; [|now apply answers_app].
    destruct (body W diff repo o s1) as [u s2|s2]; injection H as <- <-; rewrite E2; now rewrite app_assoc.
  Qed.
End Honest.

(* ------------------------------------------------------------------ *)
(** * Files *)

Lemma beq_eq : forall a b, beq a b = true -> a = b.
Proof. induction a as [|x a IH]; intros [|y b] H; try discriminate; auto. cbn in H. apply andb_true_iff in H as [H1 H2]. f_equal; [lia|auto]. Qed.

Lemma last_app : forall p a b, last_written p (a ++ b) = match last_written p b with Some x => Some x | None => last_written p a end.
Proof.
  intros p a b. induction a as [|e a IH]; cbn [app last_written]; [destruct (last_written p b); auto|]. rewrite IH. destruct (last_written p b); auto.
Qed.

Lemma last_only : forall p out h, (forall b, In (WriteFile p b true) h -> b = out) -> In (WriteFile p out true) h -> last_written p h = Some out.
Proof.
  intros p out. induction h as [|e h IH]; intros H I; [contradiction|]. cbn [last_written]. destruct (last_written p h) as [b|] eqn:L.
  - f_equal. apply H. right. clear - L. induction h as [|e h IH]; [discriminate|]. cbn [last_written] in L. destruct (last_written p h) as [b'|] eqn:L'.
    + injection L as ->. right. auto.
    + destruct e as [| |p' b' []| |]; try discriminate. destruct (beq p p') eqn:E; [|discriminate]. injection L as <-. apply beq_eq in E. subst. now left.
  - destruct I as [->|I].
    + now rewrite (XtaskProofs.beq_same p).
    + discriminate IH; auto. intros b Hb. apply H. now right.
Qed.

Lemma last_none : forall p h, (forall b, ~ In (WriteFile p b true) h) -> last_written p h = None.
Proof.
  intros p. induction h as [|e h IH]; intros H; auto. cbn [last_written]. rewrite IH by (intros b I; apply (H b); now right).
  destruct e as [| |p' b []| |]; auto. destruct (beq p p') eqn:E; auto. apply beq_eq in E. subst. exfalso. apply (H b). now left.
Qed.

Lemma path_inj : forall n m, output_path n = output_path m -> n = m.
Proof.
  intros n m H. unfold output_path, expected_output_path in H. apply app_inv_head in H.
  destruct (contains (lit "test") n), (contains (lit "test") m); try (cbn in H; discriminate); apply app_inv_head in H; now apply app_inv_tail in H.
Qed.

Lemma F2_in_l : forall {A B} (R : A -> B -> Prop) l m x, Forall2 R l m -> In x l -> exists y, In y m /\ R x y.
Proof. intros A B R l m x H. induction H as [|a b l m H F IH]; intros I; [contradiction|]. destruct I as [->|I]; [exists b; split; auto; now left|]. destruct (IH I) as (y & I' & Q). exists y. split; auto. now right. Qed.
Lemma F2_in_r : forall {A B} (R : A -> B -> Prop) l m y, Forall2 R l m -> In y m -> exists x, In x l /\ R x y.
Proof. intros A B R l m x H. induction H as [|a b l m H F IH]; intros I; [contradiction|]. destruct I as [->|I]; [exists a; split; auto; now left|]. destruct (IH I) as (y & I' & Q). exists y. split; auto. now right. Qed.

(** After [--overwrite] the comparison succeeds. *)
Theorem overwrite_then_compare : forall W diff version repo deny keep deny' keep' before mid e after,
  diff_ok diff -> compiler W version -> files W -> repeatable W ->
  xtask W diff repo (MkOptions (TestSnapshot true None) deny keep) before = (Success, mid) ->
  xtask W diff repo (MkOptions (TestSnapshot false None) deny' keep') mid = (e, after) -> e <> Crashed -> e = Success.
Proof.
  intros W diff version repo deny keep deny' keep' before mid e after Hd Hv Hf Hr H1 H2 NC.
  destruct (xtask_verdict _ _ _ _ _ _ _ _ Hd Hv H1 ltac:(discriminate) ltac:(discriminate)) as (h1 & segs1 & E1 & F1 & _ & P1). apply proj1 in P1. specialize (P1 eq_refl).
  assert (NU : e <> Usage). { intros ->. destruct (xtask_usage _ _ _ Hv _ _ _ _ H2) as (ow & t & Q & _). discriminate. }
  destruct (xtask_verdict _ _ _ _ _ _ _ _ Hd Hv H2 NU NC) as (h2 & segs2 & E2 & F2 & A2 & P2). apply P2. clear P2.
  destruct (honest_xtask _ _ _ _ _ _ _ H1) as (h1' & E1' & An1). destruct (honest_xtask _ _ _ _ _ _ _ H2) as (h2' & E2' & An2).
  rewrite E1 in E1'. apply app_inv_head in E1'. subst h1'. rewrite E2 in E2'. apply app_inv_head in E2'. subst h2'.
  unfold plan in P1, A2 |- *. cbn [o_cmd] in P1, A2 |- *.
  assert (In1 : forall x s, In s segs1 -> In x s -> In x h1). { intros x s Is Ix. apply (filter_In checking x h1). rewrite F1. apply in_concat. eauto. }
  assert (In2 : forall x s, In s segs2 -> In x s -> In x h2). { intros x s Is Ix. apply (filter_In checking x h2). rewrite F2. apply in_concat. eauto. }
  (* what the first run wrote *)
  assert (Wrote : forall t, In t (tests_of version) -> exists out, utf8_valid out = true /\
    (exists st err, forall h, w_run W h (snapshot_command t (features_of t)) = Ran true st out err) /\ last_written (output_path t) mid = Some out).
  { intros t It. destruct (F2_in_l _ _ _ (Written t (features_of t)) P1) as (s & Is & st & out & err & -> & U).
    { apply in_map_iff. eauto. }
    exists out. split; auto. split.
    - exists st, err. intros h. assert (I : In (Run (snapshot_command t (features_of t)) (Ran true st out err)) h1) by (eapply In1; [exact Is|now left]).
      apply in_split in I as (a & b & Eq). pose proof (An1 a _ b Eq) as An. cbn [answer] in An. rewrite An. apply Hr.
    - subst mid. rewrite last_app. rewrite (last_only _ out); auto.
      + intros b I. assert (I' : In (WriteFile (output_path t) b true) (concat segs1)) by (rewrite <- F1; apply filter_In; auto).
        apply in_concat in I' as (s' & Is' & Ib). destruct (F2_in_r _ _ _ s' P1 Is') as (c & Ic & Pc). apply in_map_iff in Ic as (t' & <- & It').
        destruct Pc as (st' & out' & err' & -> & U'). destruct Ib as [Ib|[Ib|[]]]; [discriminate|]. 
        pose proof (f_equal (fun e => match e with WriteFile p _ _ => p | _ => [] end) Ib) as Ep. pose proof (f_equal (fun e => match e with WriteFile _ x _ => x | _ => [] end) Ib) as Eb.
        cbv beta iota in Ep, Eb. apply path_inj in Ep. subst t' b.
        assert (I1 : In (Run (snapshot_command t (features_of t)) (Ran true st out err)) h1) by (eapply In1; [exact Is|now left]).
        assert (I2 : In (Run (snapshot_command t (features_of t)) (Ran true st' out' err')) h1) by (eapply In1; [exact Is'|now left]).
        apply in_split in I1 as (a1 & b1 & Q1). apply in_split in I2 as (a2 & b2 & Q2). pose proof (An1 _ _ _ Q1) as R1. pose proof (An1 _ _ _ Q2) as R2. cbn [answer] in R1, R2.
        rewrite (Hr _ _ _ (before ++ a2)) in R1. congruence.
      + eapply In1; [exact Is|]. right. now left. }
  (* the second run writes nothing *)
  assert (NoW : forall p b, ~ In (WriteFile p b true) h2).
  { intros p b I. assert (I' : In (WriteFile p b true) (concat segs2)) by (rewrite <- F2; apply filter_In; auto).
    apply in_concat in I' as (s' & Is' & Ib). destruct (F2_in_r _ _ _ s' A2 Is') as (c & Ic & Pc). apply in_map_iff in Ic as (t' & <- & It').
    destruct Pc as [(r & -> & _)|(r & x & -> & _)]; cbn [In] in Ib; intuition discriminate. }
  remember (tests_of version) as tests eqn:Q. clear Q F2. revert In2 Wrote A2. clear P1. revert tests.
  induction segs2 as [|s segs2 IH]; intros tests In2 Wrote A2.
  { inversion A2 as [Em|]. apply eq_sym, map_eq_nil in Em. subst tests. constructor. }
  destruct tests as [|t tests]; cbn [map] in *; [inversion A2|]. inversion A2 as [|? ? ? ? At A2']; subst. constructor.
  - destruct (Wrote t (or_introl eq_refl)) as (out & U & (st & err & R) & L).
    assert (Rr : forall r, In (Run (snapshot_command t (features_of t)) r) h2 -> r = Ran true st out err).
    { intros r I. apply in_split in I as (a & b & Eq). pose proof (An2 _ _ _ Eq) as An. cbn [answer] in An. rewrite An. apply R. }
    destruct At as [(r & -> & N)|(r & x & -> & Rd)].
    + exfalso. apply N. rewrite (Rr r) by (eapply In2; [now left|now left]). exists st, out, err. auto.
    + exists st, out, err. split; auto. rewrite (Rr r) by (eapply In2; [now left|now left]). do 2 f_equal.
      assert (I : In (ReadFile (output_path t) x) h2) by (eapply In2; [now left|right; now left]). apply in_split in I as (a & b & Eq).
      pose proof (An2 _ _ _ Eq) as An. cbn [answer] in An. f_equal. rewrite An. apply Hf. rewrite last_app, last_none; auto.
      intros b' I'. apply (NoW (output_path t) b'). rewrite Eq. apply in_or_app. now left.
  - apply IH; auto.
    + intros x s' Is Ix. eapply In2; [right; exact Is|exact Ix].
    + intros t' It. apply Wrote. now right.
Qed.
