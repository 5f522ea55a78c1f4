(** The runs of the test runner. *)
From Verif Require Import Base Utf8 XtaskModel XtaskSpec.

Inductive Forall3 {A B C} (R : A -> B -> C -> Prop) : list A -> list B -> list C -> Prop :=
| F3_nil : Forall3 R [] [] []
| F3_cons a b c la lb lc : R a b c -> Forall3 R la lb lc -> Forall3 R (a :: la) (b :: lb) (c :: lc).

Lemma Forall3_app : forall {A B C} (R : A -> B -> C -> Prop) l1 m1 n1 l2 m2 n2, Forall3 R l1 m1 n1 -> Forall3 R l2 m2 n2 ->
  Forall3 R (l1 ++ l2) (m1 ++ m2) (n1 ++ n2).
Proof. intros A B C R l1 m1 n1 l2 m2 n2 H1 H2. induction H1; auto. cbn. now constructor. Qed.

Definition context_of (k : check) : bytes :=
  match k with Command c _ => c | Matches _ _ | Written _ _ => lit "qemu/snapshot" | OldRunner _ _ => lit "backcompat" end.

(** A check, its events and what is reported of it. *)
Definition result (k : check) (evs : list event) (report : list bytes) : Prop :=
  attempted k evs /\ (report = [] <-> passes k evs) /\ Forall (fun e => exists rest, e = context_of k ++ rest) report.

Section Proofs.
  Context (W : world) (diff : bytes -> bytes -> list (tag * bytes)) (Hdiff : diff_ok diff).
  Context (version : bytes) (Hversion : compiler W version).

  Definition gives_up (s s' : state) : Prop := exists h, history s' = history s ++ h /\ exists e, In e h /\ fatal e.

  Definition does (m : M unit) (p : list check) : Prop := forall s,
    match m s with
    | Done _ s' => exists h segs reports, history s' = history s ++ h /\ errors s' = errors s ++ concat reports /\
        filter checking h = concat segs /\ Forall3 result p segs reports
    | Panicked s' => gives_up s s'
    end.

  Lemma does_then : forall m1 m2 p1 p2, does m1 p1 -> does m2 p2 -> does (_ <~ m1 ;; m2) (p1 ++ p2).
  Proof.
    intros m1 m2 p1 p2 H1 H2 s. unfold andthen. specialize (H1 s). destruct (m1 s) as [a s1|s1]; [|exact H1].
    destruct H1 as (h1 & g1 & r1 & A1 & B1 & C1 & D1). specialize (H2 s1). destruct (m2 s1) as [b s2|s2].
    - destruct H2 as (h2 & g2 & r2 & A2 & B2 & C2 & D2). exists (h1 ++ h2), (g1 ++ g2), (r1 ++ r2).
      rewrite A2, A1, app_assoc, B2, B1, !concat_app, filter_app, C1, C2, app_assoc. repeat split; auto. now apply Forall3_app.
    - destruct H2 as (h2 & A2 & e & I & F). exists (h1 ++ h2). split; [now rewrite A2, A1, app_assoc|]. exists e. split; auto. apply in_or_app. auto.
  Qed.

  Lemma does_nothing : does (ret tt) [].
  Proof. intros s. exists [], [], []. rewrite !app_nil_r. repeat split; auto. constructor. Qed.

  (** Questions in between. *)
  Definition asks {A} (m : M A) (P : A -> Prop) : Prop := forall s,
    match m s with
    | Done a s' => P a /\ errors s' = errors s /\ exists h, history s' = history s ++ h /\ filter checking h = []
    | Panicked s' => gives_up s s'
    end.

  Lemma asks_does : forall {A} (m : M A) P k p, asks m P -> (forall a, P a -> does (k a) p) -> does (andthen m k) p.
  Proof.
    intros A m P k p Ha Hk s. unfold andthen. specialize (Ha s). destruct (m s) as [a s1|s1]; [|exact Ha].
    destruct Ha as (Pa & E1 & h1 & A1 & C1). specialize (Hk a Pa s1). destruct (k a s1) as [b s2|s2].
    - destruct Hk as (h2 & g2 & r2 & A2 & B2 & C2 & D2). exists (h1 ++ h2), g2, r2. rewrite A2, A1, app_assoc, B2, E1, filter_app, C1, C2. auto.
    - destruct Hk as (h2 & A2 & e & I & F). exists (h1 ++ h2). split; [now rewrite A2, A1, app_assoc|]. exists e. split; auto. apply in_or_app. auto.
  Qed.

  Lemma does_each : forall {A} (f : A -> M unit) (k : A -> check) l, (forall a, does (f a) [k a]) -> does (each f l) (map k l).
  Proof.
    intros A f k. induction l as [|x l IH]; intros H; [apply does_nothing|]. cbn [each map]. change (k x :: map k l) with ([k x] ++ map k l).
    apply does_then; auto.
  Qed.

  Lemma one_check : forall m k, (forall s, exists evs v, m s = Done tt (MkState (history s ++ evs) (errors s ++ v)) /\
    filter checking evs = evs /\ result k evs v) -> does m [k].
  Proof.
    intros m k H s. destruct (H s) as (evs & v & -> & F & R). exists evs, [evs], [v]. cbn [history errors concat]. rewrite !app_nil_r. repeat split; auto.
    constructor; [exact R|constructor].
  Qed.

  Lemma beq_same : forall a, beq a a = true.
  Proof. induction a as [|x a IH]; auto. cbn [beq]. now rewrite Z.eqb_refl, IH. Qed.

  (* ---------------------------------------------------------------- *)
  (** ** Commands *)

  Lemma command_check : forall ctx c, beq (c_program c) (lit "rustc") = false -> beq (c_program c) (lit "rustup") = false -> does (do_command W (ctx, c)) [Command ctx c].
  Proof.
    intros ctx c N1 N2. apply one_check. intros s. unfold do_command, do_test, run_command, run, andthen, ret, note. cbn [fst snd history errors].
    destruct (w_run W (history s) c) as [why|[] st out err] eqn:R.
    - eexists [Run c (CannotRun why)], [_]. split; [reflexivity|]. cbn [filter checking]. rewrite N1, N2. cbn [negb andb]. split; auto.
      split; [eexists; reflexivity|]. split; [split; [discriminate|]; intros (r & E & (a & b & d & ->)); discriminate|]. repeat constructor. cbn [context_of]. eexists. reflexivity.
    - eexists [Run c (Ran true st out err)], []. rewrite app_nil_r. split; [reflexivity|]. cbn [filter checking]. rewrite N1, N2. cbn [negb andb]. split; auto.
      split; [eexists; reflexivity|]. split; [|constructor]. split; auto. intros _. eexists. split; [reflexivity|]. repeat eexists.
    - eexists [Run c (Ran false st out err)], [_]. split; [reflexivity|]. cbn [filter checking]. rewrite N1, N2. cbn [negb andb]. split; auto.
      split; [eexists; reflexivity|]. split; [split; [discriminate|]; intros (r & E & (a & b & d & ->)); discriminate|]. repeat constructor. cbn [context_of]. eexists. reflexivity.
  Qed.

  Definition plain (l : list (bytes * command)) : Prop := Forall (fun x => beq (c_program (snd x)) (lit "rustc") = false /\ beq (c_program (snd x)) (lit "rustup") = false) l.

  Lemma commands_check : forall l, plain l -> does (each (do_command W) l) (commands l).
  Proof.
    induction l as [|[ctx c] l IH]; intros H; [apply does_nothing|]. inversion H as [|? ? [N1 N2] H']; subst. cbn [each commands map fst snd] in *.
    change (Command ctx c :: map (fun x : bytes * command => Command (fst x) (snd x)) l) with ([Command ctx c] ++ commands l). apply does_then; auto. now apply command_check.
  Qed.

  Lemma cargo_plain : forall f l, (forall x : bytes, exists args dir env, f x = (lit "host", cargo args dir env) \/ f x = (lit "cross", cargo args dir env) \/ f x = (lit "lint", cargo args dir env)) -> plain (map f l).
  Proof. intros f l H. apply Forall_forall. intros x I. apply in_map_iff in I as (y & <- & _). destruct (H y) as (a & d & e & [ -> | [ -> | -> ]]); split; reflexivity. Qed.

  Lemma host_plain : forall d u, plain (host_commands d u).
  Proof. intros d u. repeat constructor. Qed.
  Lemma cross_plain : forall d m, plain (cross_commands d m).
  Proof. intros d [|]; repeat constructor. Qed.
  Lemma book_plain : plain book_commands.
  Proof. repeat constructor. Qed.
  Lemma lint_plain : plain lint_commands.
  Proof. repeat constructor. Qed.
  Lemma ui_plain : plain ui_commands.
  Proof. repeat constructor. Qed.

  (* ---------------------------------------------------------------- *)
  (** ** Snapshots *)

  Lemma all_equal : forall l, forallb (fun x : tag * bytes => match fst x with Equal => true | _ => false end) l = true <-> Forall (fun x => fst x = Equal) l.
  Proof. intros l. rewrite forallb_forall, Forall_forall. split; intros H x I; specialize (H x I); destruct (fst x); auto; discriminate. Qed.

  Lemma diff_none : forall a b, forallb (fun x : tag * bytes => match fst x with Equal => true | _ => false end) (diff a b) = true <-> a = b.
  Proof.
    intros a b. rewrite all_equal. destruct (Hdiff a b) as (A & B & C). split; auto. intros F. eapply eq_trans; [symmetry; exact A|]. eapply eq_trans; [|exact B].
    clear A B C. induction F as [|[t x] l E0 F IH]; auto. cbn [fst] in E0. subst t. cbn [filter fst map snd concat]. now rewrite IH.
  Qed.

  Lemma matches_check : forall n f, does (do_test (test_single_snapshot W diff n f false) (lit "qemu/snapshot")) [Matches n f].
  Proof.
    intros n f. apply one_check. intros s. unfold do_test, test_single_snapshot, run_capturing_stdout, run, read_file, andthen, ret, note. cbn [history errors].
    destruct (w_run W (history s) (snapshot_command n f)) as [why|[] st out err] eqn:R.
    - eexists [Run _ (CannotRun why)], [_]. split; [reflexivity|]. split; [reflexivity|]. split; [left; eexists; split; [reflexivity|]; intros (a & b & d & E & U'); first [discriminate|injection E as <- <- <-; congruence]|].
      split; [split; [discriminate|]; intros (a & b & d & E & _); discriminate|]. repeat constructor. eexists. reflexivity.
    - destruct (utf8_valid out) eqn:U.
      + fold (output_path n). destruct (w_read W _ (output_path n)) as [expected|] eqn:Rd.
        * destruct (forallb _ (diff expected out)) eqn:F.
          -- apply diff_none in F. subst expected. eexists [_; _], []. rewrite app_nil_r. split; [cbn [history errors]; rewrite <- app_assoc; reflexivity|]. split; [reflexivity|].
             split; [right; do 2 eexists; split; [reflexivity|]; exists st, out, err; auto|]. split; [|constructor]. split; auto. intros _. exists st, out, err. auto.
          -- eexists [_; _], [_]. split; [cbn [history errors]; rewrite <- app_assoc; reflexivity|]. split; [reflexivity|].
             split; [right; do 2 eexists; split; [reflexivity|]; exists st, out, err; auto|]. split; [|repeat constructor; eexists; reflexivity].
             split; [discriminate|]. intros (a & b & d & E & _). injection E as <- <- <- E. subst expected. rewrite (proj2 (diff_none out out) eq_refl) in F. discriminate.
        * eexists [_; _], [_]. split; [cbn [history errors]; rewrite <- app_assoc; reflexivity|]. split; [reflexivity|].
          split; [right; do 2 eexists; split; [reflexivity|]; exists st, out, err; auto|]. split; [|repeat constructor; eexists; reflexivity].
          split; [discriminate|]. intros (a & b & d & E & _). discriminate.
      + eexists [_], [_]. split; [reflexivity|]. split; [reflexivity|]. split; [left; eexists; split; [reflexivity|]; intros (a & b & d & E & U'); first [discriminate|injection E as <- <- <-; congruence]|].
        split; [split; [discriminate|]; intros (a & b & d & E & _); discriminate|]. repeat constructor. eexists. reflexivity.
    - eexists [_], [_]. split; [reflexivity|]. split; [reflexivity|]. split; [left; eexists; split; [reflexivity|]; intros (a & b & d & E & U'); first [discriminate|injection E as <- <- <-; congruence]|].
      split; [split; [discriminate|]; intros (a & b & d & E & _); discriminate|]. repeat constructor. eexists. reflexivity.
  Qed.

  Lemma written_check : forall n f, does (do_test (test_single_snapshot W diff n f true) (lit "qemu/snapshot")) [Written n f].
  Proof.
    intros n f. apply one_check. intros s. unfold do_test, test_single_snapshot, run_capturing_stdout, run, write_file, andthen, ret, note. cbn [history errors].
    destruct (w_run W (history s) (snapshot_command n f)) as [why|[] st out err] eqn:R.
    - eexists [Run _ (CannotRun why)], [_]. split; [reflexivity|]. split; [reflexivity|]. split; [left; eexists; split; [reflexivity|]; intros (a & b & d & E & U'); first [discriminate|injection E as <- <- <-; congruence]|].
      split; [split; [discriminate|]; intros (a & b & d & E & _); discriminate|]. repeat constructor. eexists. reflexivity.
    - destruct (utf8_valid out) eqn:U.
      + fold (output_path n). destruct (w_write W _ (output_path n) out) eqn:Wr.
        * eexists [_; _], []. rewrite app_nil_r. split; [cbn [history errors]; rewrite <- app_assoc; reflexivity|]. split; [reflexivity|].
          split; [right; exists st, out, err; eexists; split; [reflexivity|]; auto|]. split; [|constructor]. split; auto. intros _. exists st, out, err. auto.
        * eexists [_; _], [_]. split; [cbn [history errors]; rewrite <- app_assoc; reflexivity|]. split; [reflexivity|].
          split; [right; exists st, out, err; eexists; split; [reflexivity|]; auto|]. split; [|repeat constructor; eexists; reflexivity].
          split; [discriminate|]. intros (a & b & d & E & _). discriminate.
      + eexists [_], [_]. split; [reflexivity|]. split; [reflexivity|]. split; [left; eexists; split; [reflexivity|]; intros (a & b & d & E & U'); first [discriminate|injection E as <- <- <-; congruence]|].
        split; [split; [discriminate|]; intros (a & b & d & E & _); discriminate|]. repeat constructor. eexists. reflexivity.
    - eexists [_], [_]. split; [reflexivity|]. split; [reflexivity|]. split; [left; eexists; split; [reflexivity|]; intros (a & b & d & E & U'); first [discriminate|injection E as <- <- <-; congruence]|].
      split; [split; [discriminate|]; intros (a & b & d & E & _); discriminate|]. repeat constructor. eexists. reflexivity.
  Qed.

  (* ---------------------------------------------------------------- *)
  (** ** The tool chain *)

  Lemma asks_contains : forall what, asks (rustc_contains W what) (fun b => b = contains what version).
  Proof.
    intros what s. unfold rustc_contains, run_capturing_stdout, run, andthen, ret. destruct Hversion as (U & V). destruct (V (history s)) as (st & err & ->). rewrite U.
    unfold note; cbn [history errors]. split; auto. split; auto. eexists. split; [reflexivity|reflexivity].
  Qed.

  Lemma asks_then : forall {A B} (m : M A) (k : A -> M B) P Q, asks m P -> (forall a, P a -> asks (k a) Q) -> asks (andthen m k) Q.
  Proof.
    intros A B m k P Q Ha Hk s. unfold andthen. specialize (Ha s). destruct (m s) as [a s1|s1]; [|exact Ha].
    destruct Ha as (Pa & E1 & h1 & A1 & C1). specialize (Hk a Pa s1). destruct (k a s1) as [b s2|s2].
    - destruct Hk as (Qb & E2 & h2 & A2 & C2). split; auto. split; [congruence|]. exists (h1 ++ h2). rewrite A2, A1, app_assoc, filter_app, C1, C2. auto.
    - destruct Hk as (h2 & A2 & e & I & F). exists (h1 ++ h2). split; [now rewrite A2, A1, app_assoc|]. exists e. split; auto. apply in_or_app. auto.
  Qed.

  Lemma asks_ret : forall {A} (a : A) (P : A -> Prop), P a -> asks (ret a) P.
  Proof. intros A a P H s. split; auto. split; auto. exists []. rewrite app_nil_r. auto. Qed.

  Lemma asks_tests : asks (all_snapshot_tests W) (fun l => l = tests_of version).
  Proof.
    eapply asks_then; [apply asks_contains|]. intros n ->. eapply asks_then; [apply asks_contains|]. intros m ->. now apply asks_ret.
  Qed.

  Lemma asks_install : asks (install W) (fun _ => True).
  Proof.
    intros s. unfold install, run_capturing_stdout, run, andthen, ret, panic. unfold note; cbn [history errors].
    destruct (w_run W (history s) _) as [why|[] st out err] eqn:R1; unfold note; cbn [history errors].
    - eexists. split; [reflexivity|]. eexists. split; [now left|]. split; [reflexivity|]. intros (a & b & d & E & _). discriminate.
    - destruct (utf8_valid out) eqn:U.
      + match goal with |- context [w_run W ?h ?c] => destruct (w_run W h c) as [why|[] st' out' err'] eqn:R2 end; unfold note; cbn [history errors].
        * unfold gives_up; unfold note; cbn [history errors]; rewrite <- app_assoc. eexists. split; [reflexivity|]. eexists. split; [right; now left|]. split; [reflexivity|]. intros (a & b & d & E & _). discriminate.
        * split; auto. split; auto. rewrite <- app_assoc. eexists. split; [reflexivity|]. reflexivity.
        * unfold gives_up; unfold note; cbn [history errors]; rewrite <- app_assoc. eexists. split; [reflexivity|]. eexists. split; [right; now left|]. split; [reflexivity|]. intros (a & b & d & E & _). discriminate.
      + eexists. split; [reflexivity|]. eexists. split; [now left|]. split; [reflexivity|]. intros (a & b & d & E & U'). injection E as <- <- <-. congruence.
    - eexists. split; [reflexivity|]. eexists. split; [now left|]. split; [reflexivity|]. intros (a & b & d & E & _). discriminate.
  Qed.

  Lemma does_uninstall : forall t, does (uninstall W t) [].
  Proof.
    intros t s. unfold uninstall, run, andthen, ret, panic. unfold note; cbn [history errors]. destruct (w_run W (history s) _) as [why|b st out err] eqn:R1; unfold note; cbn [history errors].
    - eexists. split; [reflexivity|]. eexists. split; [now left|]. split; [reflexivity|]. intros (a & b & d & E & _). discriminate.
    - eexists [_], [], []. cbn [concat]. rewrite app_nil_r. split; [reflexivity|]. split; auto. split; [reflexivity|constructor].
  Qed.

  (* ---------------------------------------------------------------- *)
  (** ** The old runner *)

  Definition silent (c : command) (ctx err : bytes) : M unit := do_test (run_silently W c err) ctx.

  Lemma silent_run : forall c err s, exists v, run_silently W c err s = Done v (note (Run c (w_run W (history s) c)) s) /\ (v = None <-> succeeded (w_run W (history s) c)).
  Proof.
    intros c err s. unfold run_silently, run, andthen, ret. eexists. split; [reflexivity|].
    destruct (w_run W (history s) c) as [why|[] st out er].
    - split; [discriminate|]. intros (a & b & d & E). discriminate.
    - split; auto. intros _. repeat eexists.
    - split; [destruct (_ || _); discriminate|]. intros (a & b & d & E). discriminate.
  Qed.

  Lemma old_runs : forall exe tests s, exists runs v,
    each (fun test => do_test (run_silently W (old_command exe test (features_of test)) test) old_context) tests s = Done tt (MkState (history s ++ runs) (errors s ++ v)) /\
    filter checking runs = runs /\ Forall (fun e => exists rest, e = lit "backcompat" ++ rest) v /\
    (v = [] <-> Forall2 (fun t e => exists r, e = Run (old_command exe t (features_of t)) r /\ succeeded r) tests runs).
  Proof.
    intros exe. induction tests as [|t tests IH]; intros s.
    - exists [], []. cbn [each ret]. unfold ret. rewrite !app_nil_r. destruct s. repeat split; auto.
    - cbn [each]. unfold andthen at 1, do_test at 1, andthen at 1. destruct (silent_run (old_command exe t (features_of t)) t s) as (v0 & -> & S0).
      set (r := w_run W (history s) (old_command exe t (features_of t))) in *.
      match goal with |- context [each _ tests ?s1] => destruct (IH s1) as (runs & v & E & F & G & H) end. rewrite E. clear E.
      exists (Run (old_command exe t (features_of t)) r :: runs), (match v0 with None => [] | Some e => [old_context ++ lit ": " ++ e] end ++ v).
      split; [|split; [|split]].
      + destruct v0; unfold note; cbn [history errors]; rewrite <- !app_assoc; reflexivity.
      + cbn [filter checking]. change (negb (beq (c_program (old_command exe t (features_of t))) (lit "rustc")) && negb (beq (c_program (old_command exe t (features_of t))) (lit "rustup"))) with true.
        cbn iota. now rewrite F.
      + apply Forall_app. split; auto. destruct v0; repeat constructor. eexists. reflexivity.
      + split.
        * intros Q. apply app_eq_nil in Q as [Q1 Q2]. constructor; [|now apply H]. eexists. split; [reflexivity|]. apply S0. destruct v0; [discriminate|reflexivity].
        * intros Q. inversion Q as [|? ? ? ? (r' & E & S1) Q']; subst. injection E as <-. apply S0 in S1. rewrite S1. cbn [app]. now apply H.
  Qed.

  Definition build_events (repo dir : bytes) (a b c : ran) : list event :=
    [TempDir (Some dir); Run (git [lit "clone"; repo; lit "."] dir) a;
     Run (git [lit "reset"; lit "--hard"; lit "0e92d3a88aa472377b964979f522829d961d8986"] dir) b;
     Run (cargo [lit "build"; lit "-p"; lit "qemu-run"] (Some dir) []) c; Exists (dir ++ lit "/target/debug/qemu-run") true].

  Lemma build_runs : forall repo s,
    match build_qemu_run W repo s with
    | Done (Some exe) s' => exists dir a b c, exe = dir ++ lit "/target/debug/qemu-run" /\ succeeded a /\ succeeded b /\ succeeded c /\
        s' = MkState (history s ++ build_events repo dir a b c) (errors s)
    | Done None s' => exists x rest, s' = MkState (history s ++ TempDir x :: rest) (errors s) /\ filter checking rest = rest /\
        forall dir a b c more, succeeded a -> succeeded b -> succeeded c -> TempDir x :: rest <> build_events repo dir a b c ++ more
    | Panicked s' => gives_up s s'
    end.
  Proof.
    intros repo s. unfold build_qemu_run, temp_dir, exists_file. unfold andthen at 1. unfold note; cbn [history errors].
    destruct (w_temp W (history s)) as [dir|].
    2:{ unfold ret. exists None, []. split; [reflexivity|]. split; auto. intros dir a b c more _ _ _ E. discriminate. }
    unfold andthen at 1. match goal with |- context [run_silently W ?c ?e ?s1] => destruct (silent_run c e s1) as (v1 & -> & S1); set (r1 := w_run W (history s1) c) in * end.
    destruct v1 as [e1|].
    { unfold ret. eexists (Some dir), [_]. split; [unfold note; cbn [history errors]; rewrite <- app_assoc; reflexivity|]. split; [reflexivity|].
      intros d a b c more A B C E. injection E as <- E1 E2. subst a. apply S1 in A. discriminate. }
    unfold andthen at 1. match goal with |- context [run_silently W ?c ?e ?s1] => destruct (silent_run c e s1) as (v2 & -> & S2); set (r2 := w_run W (history s1) c) in * end.
    destruct v2 as [e2|].
    { unfold ret. eexists (Some dir), [_; _]. split; [unfold note; cbn [history errors]; rewrite <- !app_assoc; reflexivity|]. split; [reflexivity|].
      intros d a b c more A B C E. injection E as <- E1 E2. subst b. apply S2 in B. discriminate. }
    unfold andthen at 1. match goal with |- context [run_silently W ?c ?e ?s1] => destruct (silent_run c e s1) as (v3 & -> & S3); set (r3 := w_run W (history s1) c) in * end.
    destruct v3 as [e3|].
    { unfold ret. eexists (Some dir), [_; _; _]. split; [unfold note; cbn [history errors]; rewrite <- !app_assoc; reflexivity|]. split; [reflexivity|].
      intros d a b c more A B C E. discriminate. }
    unfold andthen at 1. match goal with |- context [w_exists W ?h ?p] => destruct (w_exists W h p) eqn:X end.
    - unfold ret. exists dir, r1, r2, r3. split; [reflexivity|]. split; [now apply S1|]. split; [now apply S2|]. split; [now apply S3|].
      unfold note; cbn [history errors]. unfold build_events. rewrite <- !app_assoc. reflexivity.
    - unfold panic, gives_up. eexists. unfold note; cbn [history errors]. rewrite <- !app_assoc. split; [reflexivity|]. eexists. split; [right; right; right; right; left; reflexivity|]. reflexivity.
  Qed.

  Lemma old_check : forall repo, does (test_backcompat W repo) [OldRunner repo (tests_of version)].
  Proof.
    intros repo s. unfold test_backcompat. unfold andthen at 1. pose proof (build_runs repo s) as Hb. destruct (build_qemu_run W repo s) as [[exe|] s1|s1]; [| |exact Hb].
    - destruct Hb as (dir & a & b & c & -> & Sa & Sb & Sc & ->). unfold andthen. pose proof (asks_tests (MkState (history s ++ build_events repo dir a b c) (errors s))) as T.
      destruct (all_snapshot_tests W _) as [tests s2|s2].
      + destruct T as (-> & Es & h & Eh & Fh). destruct (old_runs (dir ++ lit "/target/debug/qemu-run") (tests_of version) s2) as (runs & v & -> & F & G & H).
        cbn [history errors] in *. exists (build_events repo dir a b c ++ h ++ runs), [build_events repo dir a b c ++ runs], [v]. rewrite Eh, Es. cbn [concat]. rewrite !app_nil_r.
        split; [now rewrite <- !app_assoc|]. split; auto. split; [now rewrite !filter_app, Fh, F|]. constructor; [|constructor].
        split; [do 2 eexists; reflexivity|]. split; [|exact G]. rewrite H. split.
        * intros R. exists dir, a, b, c, runs. auto 10.
        * intros (dir' & a' & b' & c' & runs' & E & A & B & C & R). unfold build_events in E. injection E; intros; subst; exact R.
      + destruct T as (h & Eh & e & I & F). exists (build_events repo dir a b c ++ h). cbn [history] in Eh. rewrite Eh, app_assoc. split; auto. exists e. split; auto. apply in_or_app. auto.
    - destruct Hb as (x & rest & -> & F & N). cbn [history errors]. exists (TempDir x :: rest), [TempDir x :: rest], [[lit "backcompat (building qemu-run)"]]. cbn [concat]. rewrite !app_nil_r.
      split; auto. split; auto. split; [cbn [filter checking]; now rewrite F|]. constructor; [|constructor]. split; [do 2 eexists; reflexivity|]. split.
      + split; [discriminate|]. intros (dir & a & b & c & runs & E & A & B & C & _). exfalso. exact (N dir a b c runs A B C E).
      + repeat constructor. eexists. reflexivity.
  Qed.

  (* ---------------------------------------------------------------- *)
  (** ** Everything *)

  Lemma snapshots_check : forall l, does (each (fun t => do_test (test_single_snapshot W diff t (features_of t) false) (lit "qemu/snapshot")) l) (map (fun t => Matches t (features_of t)) l).
  Proof. intros l. apply does_each. intros t. apply matches_check. Qed.
  Lemma overwrite_check : forall l, does (each (fun t => do_test (test_single_snapshot W diff t (features_of t) true) (lit "qemu/snapshot")) l) (map (fun t => Written t (features_of t)) l).
  Proof. intros l. apply does_each. intros t. apply written_check. Qed.

  Lemma all_snapshots : does (test_all_snapshots W diff false) (map (fun t => Matches t (features_of t)) (tests_of version)).
  Proof. eapply asks_does; [apply asks_tests|]. intros l ->. apply snapshots_check. Qed.

  Lemma does_cross : forall d, does (test_cross W d) (commands (cross_commands d (contains (lit "1.76") version))).
  Proof. intros d. eapply asks_does; [apply asks_contains|]. intros m ->. apply commands_check, cross_plain. Qed.

  Lemma cleaned : forall (keep : bool) added, does (if keep then ret tt else match added with [] => ret tt | _ => uninstall W added end) [].
  Proof. intros [|] [|t l]; try apply does_nothing. apply does_uninstall. Qed.

  Theorem body_does : forall repo o, does (body W diff repo o) (plan repo o version).
  Proof.
    intros repo o. unfold body, plan. destruct (o_cmd o) as [| | | |skip| | |ow single].
    - eapply asks_does; [apply asks_install|]. intros added _. rewrite <- (app_nil_r (_ ++ _)). apply does_then; [|apply cleaned].
      apply does_then; [apply commands_check, host_plain|]. apply does_then; [apply does_cross|]. apply does_then; [apply all_snapshots|].
      apply does_then; [apply old_check|]. apply does_then; [apply commands_check, book_plain|]. apply commands_check, lint_plain.
    - apply old_check.
    - apply commands_check, book_plain.
    - eapply asks_does; [apply asks_install|]. intros added _. rewrite <- (app_nil_r (commands _)). apply does_then; [apply does_cross|apply cleaned].
    - apply commands_check, host_plain.
    - apply commands_check, lint_plain.
    - apply commands_check, ui_plain.
    - eapply asks_does; [apply asks_install|]. intros added _. destruct single as [t|].
      + destruct ow; rewrite <- (app_nil_r [_]); (apply does_then; [|apply cleaned]); [apply written_check|apply matches_check].
      + destruct ow; rewrite <- (app_nil_r (map _ _)); (apply does_then; [|apply cleaned]); [|apply all_snapshots]. cbn [test_snapshot]. eapply asks_does; [apply asks_tests|]. intros l ->. apply overwrite_check.
  Qed.

  Lemma asks_parse : forall o, asks (parse W o) (fun b => b = match o_cmd o with TestSnapshot _ (Some t) => existsb (beq t) (tests_of version) | _ => true end).
  Proof.
    intros o. unfold parse. destruct (o_cmd o) as [| | | |skip| | |ow [t|]]; try (now apply asks_ret).
    eapply asks_then; [apply asks_tests|]. intros l ->. now apply asks_ret.
  Qed.

  (** Every check is made, whatever the others gave; the exit status tells whether all passed. *)
  Theorem xtask_ends : forall repo o before e after, xtask W diff repo o before = (e, after) -> e <> Usage -> e <> Crashed ->
    exists h segs reports, after = before ++ h /\ filter checking h = concat segs /\ Forall3 result (plan repo o version) segs reports /\
      e = match concat reports with [] => Success | es => Failed es end.
  Proof.
    intros repo o before e after H NU NC. unfold xtask in H. pose proof (asks_parse o (MkState before [])) as P. destruct (parse W o (MkState before [])) as [b s1|s1]; [|injection H as <- <-; congruence].
    destruct P as (_ & E1 & h1 & A1 & F1). cbn [errors history] in *. destruct b; [|injection H as <- <-; congruence].
    pose proof (body_does repo o s1) as B. destruct (body W diff repo o s1) as [[] s2|s2]; [|injection H as <- <-; congruence].
    destruct B as (h2 & segs & reports & A2 & E2 & F2 & R). injection H as <- <-. exists (h1 ++ h2), segs, reports. rewrite A2, A1, app_assoc. split; auto.
    split; [now rewrite filter_app, F1, F2|]. split; auto. now rewrite E2, E1.
  Qed.

  Theorem xtask_crashes : forall repo o before after, xtask W diff repo o before = (Crashed, after) -> exists h, after = before ++ h /\ exists e, In e h /\ fatal e.
  Proof.
    intros repo o before after H. unfold xtask in H. pose proof (asks_parse o (MkState before [])) as P. destruct (parse W o (MkState before [])) as [b s1|s1].
    - destruct P as (_ & E1 & h1 & A1 & F1). cbn [errors history] in *. destruct b; [|discriminate]. pose proof (body_does repo o s1) as B.
      destruct (body W diff repo o s1) as [[] s2|s2]; [injection H as H _; destruct (errors s2); discriminate|].
      destruct B as (h2 & A2 & e & I & F). injection H as <-. exists (h1 ++ h2). split; [now rewrite A2, A1, app_assoc|]. exists e. split; auto. apply in_or_app. auto.
    - injection H as <-. destruct P as (h & A & Q). cbn [history] in A. exists h. auto.
  Qed.

  Theorem xtask_usage : forall repo o before after, xtask W diff repo o before = (Usage, after) ->
    exists ow t, o_cmd o = TestSnapshot ow (Some t) /\ existsb (beq t) (tests_of version) = false.
  Proof.
    intros repo o before after H. unfold xtask in H. pose proof (asks_parse o (MkState before [])) as P. destruct (parse W o (MkState before [])) as [b s1|s1]; [|discriminate].
    destruct P as (Pb & _). destruct b.
    - destruct (body W diff repo o s1) as [[] s2|s2]; [injection H as H _; destruct (errors s2); discriminate|discriminate].
    - destruct (o_cmd o) as [| | | |skip| | |ow [t|]]; try discriminate. eauto.
  Qed.
End Proofs.

Lemma all_pass : forall p segs reports, Forall3 result p segs reports -> (concat reports = [] <-> Forall2 passes p segs).
Proof.
  intros p segs reports H. induction H as [|k seg rep p segs reports (_ & H & _) F IH]; [split; constructor|]. cbn [concat]. split.
  - intros E. apply app_eq_nil in E as [E1 E2]. constructor; [now apply H|now apply IH].
  - intros E. inversion E; subst. rewrite (proj2 H), (proj2 IH) by auto. reflexivity.
Qed.

Lemma all_attempted : forall p segs reports, Forall3 result p segs reports -> Forall2 attempted p segs.
Proof. intros p segs reports H. induction H as [|k seg rep p segs reports (A & _) F IH]; constructor; auto. Qed.

(** The exit status. *)
Theorem xtask_verdict : forall W diff version repo o before e after, diff_ok diff -> compiler W version -> xtask W diff repo o before = (e, after) -> e <> Usage -> e <> Crashed ->
  exists h segs, after = before ++ h /\ filter checking h = concat segs /\ Forall2 attempted (plan repo o version) segs /\ (e = Success <-> Forall2 passes (plan repo o version) segs).
Proof.
  intros W diff version repo o before e after Hd Hv H NU NC. destruct (xtask_ends W diff Hd version Hv repo o before e after H NU NC) as (h & segs & reports & A & B & C & D).
  exists h, segs. split; auto. split; auto. split; [eapply all_attempted; eauto|]. rewrite <- (all_pass _ _ _ C), D. destruct (concat reports); split; auto; discriminate.
Qed.
