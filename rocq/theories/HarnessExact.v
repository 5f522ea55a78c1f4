(** When the code that [#[tests]] generates compiles: exactly which clashes of names and which conditional hooks stop it. *)
From Verif Require Import Base HarnessModel HarnessSpec HarnessProofs HarnessMain.

(** The functions that are called: [before_each] and [after_each] only if a test is run. *)
Definition used (u : suite) (f : func) : Prop :=
  u_init u = Some f \/ u_teardown u = Some f \/ In f (u_tests u) \/
  ((u_before u = Some f \/ u_after u = Some f) /\ exists t, In t (u_tests u) /\ ~ marked t "ignore").

(** [hs] are the hooks that are compiled. *)
Definition compiles (u : suite) (hs : list func) : Prop :=
  NoDup (lit "__defmt_test_entry" :: map f_name (hs ++ u_tests u)) /\
  forall f, used u f ->
    In (f_name f) (map f_name (hs ++ u_tests u)) /\ f_name f <> lit "DEFMT_TEST_COUNT" /\
    (u_init u <> Some f -> f_name f <> lit "__defmt_test_number" /\ (u_init u <> None -> f_name f <> lit "state")).

Lemma opt_calls : forall h s f, In s (opt_stmt (suite_call h)) -> In f (called s) ->
  exists g, h = Some g /\ f = f_name g /\ forall x, s <> SLetState x.
Proof.
  intros [g|] s f H Hf; [|destruct H]. destruct H as [<-|[]]. cbn [called the_call k_fn] in Hf. destruct Hf as [<-|[]].
  exists g. split; [reflexivity|]. split; [reflexivity|discriminate].
Qed.

(** The calls are those of the functions that are used. *)
Lemma code_used : forall u s f, In s (code u) -> In f (called s) ->
  (exists g, u_init u = Some g /\ s = SLetState (f_name g) /\ f = f_name g) \/
  (exists g, f = f_name g /\ (forall x, s <> SLetState x) /\ used u g /\
     (In g (u_tests u) \/ u_teardown u = Some g \/ u_before u = Some g \/ u_after u = Some g)).
Proof.
  intros u s f Hs Hf. unfold code in Hs. rewrite !in_app_iff in Hs. unfold used.
  destruct Hs as [Hs|[Hs|[Hs|[Hs|Hs]]]].
  - left. destruct (u_init u) as [g|]; [|destruct Hs]. destruct Hs as [<-|[]]. destruct Hf as [<-|[]]. eauto.
  - right. apply in_flat_map in Hs as (g & Hg & Hs). unfold body in Hs. destruct Hs as [<-|Hs]; [destruct Hf|].
    cbn [app] in Hs. apply in_app_iff in Hs as [Hs|[<-|[]]]; [|destruct Hf].
    destruct (mk_ignore (marks_of g)) eqn:Ig.
    + destruct Hs as [<-|[]]. cbn [called the_call k_fn] in Hf. destruct Hf as [<-|[]]. exists g. split; [reflexivity|]. split; [discriminate|]. tauto.
    + assert (T : exists t, In t (u_tests u) /\ ~ marked t "ignore").
      { exists g. split; [exact Hg|]. intros M. apply ignore_mark in M. congruence. }
      rewrite !in_app_iff in Hs. destruct Hs as [Hs|[<-|Hs]].
      * destruct (opt_calls _ s f Hs Hf) as (h & E & -> & N). exists h. split; [reflexivity|]. split; [exact N|]. tauto.
      * cbn [called the_call k_fn] in Hf. destruct Hf as [<-|[]]. exists g. split; [reflexivity|]. split; [discriminate|]. tauto.
      * destruct (opt_calls _ s f Hs Hf) as (h & E & -> & N). exists h. split; [reflexivity|]. split; [exact N|]. tauto.
  - destruct Hs as [<-|[]]. destruct Hf.
  - right. destruct (opt_calls _ s f Hs Hf) as (h & E & -> & N). exists h. split; [reflexivity|]. split; [exact N|]. tauto.
  - destruct Hs as [<-|[]]. destruct Hf.
Qed.

Lemma used_code : forall u g, used u g -> exists s, In s (code u) /\ In (f_name g) (called s) /\
  (u_init u = Some g \/ forall x, s <> SLetState x).
Proof.
  intros u g H. unfold code.
  assert (P : forall h, h = Some g -> forall l, In (SCall (the_call g (state_in g))) (opt_stmt (suite_call h) ++ l)) by (intros h -> l; left; reflexivity).
  destruct H as [H|[H|[H|(H & t & Ht & Nt)]]].
  - exists (SLetState (f_name g)). rewrite H. split; [left; reflexivity|]. split; [left; reflexivity|left; reflexivity].
  - exists (SCall (the_call g (state_in g))). split; [|split; [left; reflexivity|right; discriminate]].
    rewrite !in_app_iff. right. right. right. left. rewrite H. left. reflexivity.
  - exists (if mk_ignore (marks_of g) then SDiscard (the_call g (state_in g)) else SCheck (the_call g (state_in g)) (mk_error (marks_of g))).
    split; [|split; [destruct (mk_ignore (marks_of g)); left; reflexivity|right; destruct (mk_ignore (marks_of g)); discriminate]].
    rewrite !in_app_iff. right. left. apply in_flat_map. exists g. split; [exact H|]. unfold body. right. cbn [app].
    destruct (mk_ignore (marks_of g)); rewrite !in_app_iff; [left; left; reflexivity|left; right; left; reflexivity].
  - exists (SCall (the_call g (state_in g))). split; [|split; [left; reflexivity|right; discriminate]].
    rewrite !in_app_iff. right. left. apply in_flat_map. exists t. split; [exact Ht|]. unfold body. right. cbn [app].
    destruct (mk_ignore (marks_of t)) eqn:Ig; [destruct Nt; apply ignore_mark; exact Ig|].
    rewrite !in_app_iff. left. destruct H as [H|H]; rewrite H; [left; left; reflexivity|right; right; left; reflexivity].
Qed.

Lemma state_iff : forall u, has_state (code u) = true <-> u_init u <> None.
Proof.
  intros u. split.
  - intros H E. apply existsb_exists in H as (s & Hs & Q). destruct s as [f| | | | | | | |]; try discriminate Q.
    destruct (code_used u (SLetState f) f Hs (or_introl eq_refl)) as [(g & Eg & _)|(g & _ & N & _)]; [congruence|]. destruct (N f). reflexivity.
  - intros H. unfold code. destruct (u_init u) as [g|]; [reflexivity|congruence].
Qed.

Theorem builds_exact : forall cfg m o u hs, tests_impl true m = Ok o -> suite_of cfg m u -> selected (present cfg) (hooks u) hs ->
  (builds cfg o = true <-> compiles u hs).
Proof.
  intros cfg m o u hs H Su Sel. pose proof Su as (items & Em & _).
  destruct (generated_code cfg m items u o Em H Su) as (E1 & _ & F & A & Ef & Et).
  assert (Eh : hs = filter (here cfg) (hooks u)).
  { apply (selected_filter (present cfg)); [|exact Sel]. intros f. unfold here. apply kept_active. }
  assert (Na : active_names cfg o = map f_name (hs ++ u_tests u)).
  { unfold active_names. rewrite Ef, filter_app, map_app, !active_filter, map_app, Et, <- Eh. reflexivity. }
  assert (Mem : forall f l, existsb (beq f) l = true <-> In f l).
  { intros f l. split; [intros Q; apply existsb_exists in Q as (y & Hy & Q); apply beq_true in Q; subst y; exact Hy|].
    intros Hy. apply existsb_exists. exists f. split; [exact Hy|apply beq_refl]. }
  assert (NB : forall a b : bytes, beq a b = false <-> a <> b).
  { intros a b. split; [intros Q ->; rewrite beq_refl in Q; discriminate|apply beq_false]. }
  assert (Hid : forall s f, (forall x, s <> SLetState x) -> (hidden cfg o s f = false <->
     f <> lit "DEFMT_TEST_COUNT" /\ f <> lit "__defmt_test_number" /\ (u_init u <> None -> f <> lit "state"))).
  { intros s f Ns. unfold hidden. rewrite E1.
    assert (Q : forall b, match s with SLetState _ => false | _ => b end = b) by (intros b; destruct s; try reflexivity; destruct (Ns f0); reflexivity).
    rewrite Q, !orb_false_iff, andb_false_iff, !NB. pose proof (state_iff u) as SI. destruct (has_state (code u)) eqn:Hs.
    - assert (u_init u <> None) by (apply SI; reflexivity). intuition congruence.
    - assert (u_init u = None) by (destruct (u_init u); [|reflexivity]; destruct SI as [_ SI]; discriminate SI; discriminate). intuition congruence. }
  unfold builds, compiles. rewrite Na, andb_true_iff, no_dup_spec, E1. apply and_iff_compat_l. rewrite forallb_forall. split.
  - intros B f U. destruct (used_code u f U) as (s & Hs & Hf & Init). specialize (B s Hs). rewrite forallb_forall in B. specialize (B _ Hf).
    apply andb_true_iff in B as [B1 B2]. apply Mem in B1. apply negb_true_iff in B2. split; [exact B1|].
    destruct Init as [Init|Ns].
    + split; [|intros N; congruence]. unfold hidden in B2. apply orb_false_iff in B2 as [B2 _]. apply NB. exact B2.
    + apply Hid in B2; [|exact Ns]. tauto.
  - intros C s Hs. apply forallb_forall. intros f Hf. apply andb_true_iff. rewrite negb_true_iff, Mem.
    destruct (code_used u s f Hs Hf) as [(g & Eg & -> & ->)|(g & -> & Ns & U & Role)].
    + destruct (C g (or_introl Eg)) as (C1 & C2 & _). split; [exact C1|]. unfold hidden. rewrite (proj2 (NB _ _) C2). reflexivity.
    + destruct (C g U) as (C1 & C2 & C3). split; [exact C1|]. apply Hid; [exact Ns|]. split; [exact C2|]. apply C3.
      exact (roles_differ cfg m items u g Em Su Role).
Qed.

(** ** Hooks: conditions on them, errors that they return, and panics after the last line *)
From Verif Require Import FormatSpec EncodeModel DisplayModel DisplayExamples MacroModel MacroSpec MacroExamples TextSpec HarnessExamples.

Definition off_hook : func := MkFunc [cfg_ "never"; at_ "before_each"] (lit "before") (sig_ [] None).
Definition off_test : func := MkFunc [at_ "test"] (lit "works") (sig_ [] None).
Definition off_module : module := mod_ [IFn off_hook; IFn off_test].

(** A hook whose condition does not hold: the macro accepts it, the code calls it, and does not compile. *)
Lemma hook_condition : exists o, tests_impl true off_module = Ok o /\ builds not_never o = false /\ builds (fun _ => true) o = true.
Proof. eexists. split; [vm_compute; reflexivity|]. split; vm_compute; reflexivity. Qed.

Definition end_fn : func := MkFunc [at_ "teardown"] (lit "end") (sig_ [] (Some (ty_ "Result<(),()>"))).
Definition end_module : module := mod_ [IFn end_fn; IFn off_test].
Definition end_apply (e : ended) (f : bytes) (state : bool) (w : Z) : Z * ended :=
  (w, if beq f (lit "end") then e else Returns RetUnit).
Definition an_error : returned := RetErr unit_ty unit_ty (VList []).

(** A hook that returns an error: success is reported. *)
Lemma hook_error : exists o, tests_impl true end_module = Ok o /\ builds not_never o = true /\ forall w,
  let evs := run_main not_never all_levels (end_apply (Returns an_error)) o w in
  In (Called Z (lit "end") false w (Returns an_error)) evs /\ reports_success evs.
Proof.
  eexists. split; [vm_compute; reflexivity|]. split; [vm_compute; reflexivity|]. intros w. vm_compute. split; [do 3 right; left; reflexivity|do 4 right; left; reflexivity].
Qed.

(** A panic of the last hook: the last line has been shown all the same. *)
Lemma late_panic : exists o, tests_impl true end_module = Ok o /\ builds not_never o = true /\ forall w,
  let evs := run_main not_never all_levels (end_apply Panics) o w in
  In (Said Z (lit "all tests passed!") []) evs /\ ~ reports_success evs.
Proof.
  eexists. split; [vm_compute; reflexivity|]. split; [vm_compute; reflexivity|]. intros w. vm_compute. split; [do 2 right; left; reflexivity|].
  intros H. repeat (destruct H as [H|H]; [discriminate|]). destruct H.
Qed.
