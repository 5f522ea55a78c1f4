(** The harness: the run of the generated code. *)
From Verif Require Import Base Numerals FormatSpec ParserModel DecoderModel EncodeModel EncodeSpec EncodeProofs DeriveProofs EncodeMain EncodeTop EncodeExamples DisplayModel TextSpec TextProofs TextMain
  MacroModel MacroSpec MacroParse MacroProofs HarnessModel HarnessSpec HarnessProofs.

(* ------------------------------------------------------------------ *)
(** * The suite of a module *)

Lemma selected_filter : forall {A} (P : A -> Prop) (p : A -> bool), (forall x, p x = true <-> P x) ->
  forall l l', selected P l l' <-> l' = filter p l.
Proof.
  intros A P p H l l'. split.
  - induction 1 as [|x l l' Px _ IH|x l l' Nx _ IH]; cbn [filter]; [reflexivity| |].
    + rewrite (proj2 (H x) Px), IH. reflexivity.
    + destruct (p x) eqn:E; [apply H in E; contradiction|exact IH].
  - intros ->. induction l as [|x l IH]; [constructor|]. cbn [filter]. destruct (p x) eqn:E.
    + constructor; [apply H; exact E|exact IH].
    + constructor; [rewrite <- H, E; discriminate|exact IH].
Qed.

Definition here (cfg : bytes -> bool) (f : func) : bool := active cfg (f_attrs (kept_of f)).

Lemma filter_and : forall {A} (p q : A -> bool) l, filter (fun x => p x && q x) l = filter q (filter p l).
Proof.
  induction l as [|x l IH]; [reflexivity|]. cbn [filter]. destruct (p x); cbn [andb filter]; [|exact IH].
  destruct (q x); rewrite IH; reflexivity.
Qed.

Lemma suite_tests_spec : forall cfg fs ts, suite_tests cfg fs ts -> ts = filter (here cfg) (of_kind KTest fs).
Proof.
  intros cfg fs ts H. unfold suite_tests in H.
  rewrite (selected_filter _ (fun f => kindb KTest f && here cfg f)) in H.
  - rewrite filter_and in H. exact H.
  - intros f. rewrite andb_true_iff, kindb_role. unfold here. rewrite kept_active. reflexivity.
Qed.

Lemma the_hook_spec : forall k fs h, (length (of_kind k fs) <= 1)%nat -> the_hook fs (role_of k) h -> hd_error (of_kind k fs) = h.
Proof.
  intros k fs [f|] L H; cbn [the_hook] in H.
  - destruct H as [Hf R]. assert (Hk : In f (of_kind k fs)) by (apply filter_In; split; [exact Hf|apply kindb_role; exact R]).
    destruct (of_kind k fs) as [|g [|? ?]]; [destruct Hk| |cbn [length] in L; lia]. destruct Hk as [->|[]]. reflexivity.
  - destruct (of_kind k fs) as [|g l] eqn:E; [reflexivity|]. assert (Hg : In g (of_kind k fs)) by (rewrite E; left; reflexivity).
    apply filter_In in Hg as [Hg R]. apply kindb_role in R. destruct (H g Hg R).
Qed.

(** Everything about an accepted module in terms of its suite. *)
Lemma suite_gathered : forall cfg items u,
  (exists m, m_content m = Some items /\ suite_of cfg m u) -> fine (functions items) ->
  let g := gathered items in
  c_init g = option_map (fun f => (kept_of f, s_output (f_sig f))) (u_init u) /\
  c_teardown g = option_map (fun f => (kept_of f, state_in f)) (u_teardown u) /\
  c_before g = option_map (fun f => (kept_of f, state_in f)) (u_before u) /\
  c_after g = option_map (fun f => (kept_of f, state_in f)) (u_after u) /\
  u_tests u = filter (here cfg) (of_kind KTest (functions items)) /\
  Forall ok_fn (hooks u ++ u_tests u).
Proof.
  intros cfg items u (m & Em & items' & Em' & HI & HB & HA & HT & HS) [A U]. rewrite Em in Em'. injection Em' as <-.
  set (fs := functions items) in *.
  pose proof (the_hook_spec KInit fs _ (U KInit ltac:(discriminate)) HI) as EI.
  pose proof (the_hook_spec KBeforeEach fs _ (U KBeforeEach ltac:(discriminate)) HB) as EB.
  pose proof (the_hook_spec KAfterEach fs _ (U KAfterEach ltac:(discriminate)) HA) as EA.
  pose proof (the_hook_spec KTeardown fs _ (U KTeardown ltac:(discriminate)) HT) as ET.
  pose proof (suite_tests_spec _ _ _ HS) as ES.
  unfold gathered. fold fs. cbn [c_init c_teardown c_before c_after]. unfold first_hook. rewrite EI, EB, EA, ET.
  repeat (split; [reflexivity|]). split; [exact ES|].
  rewrite Forall_forall in A. apply Forall_forall. intros f Hf. apply A. apply in_app_iff in Hf as [Hf|Hf].
  - unfold hooks in Hf. apply in_flat_map in Hf as (h & Hh & Hf). destruct h as [g|]; [|destruct Hf].
    destruct Hf as [->|[]]. cbn [In] in Hh.
    destruct Hh as [E|[E|[E|[E|[]]]]]; [rewrite E in HI|rewrite E in HT|rewrite E in HB|rewrite E in HA];
      cbn [the_hook] in *; tauto.
  - rewrite ES in Hf. apply filter_In in Hf as [Hf _]. apply filter_In in Hf as [Hf _]. exact Hf.
Qed.

(* ------------------------------------------------------------------ *)
(** * The code that is left *)

Definition body (before after : option call) (f : func) : list stmt :=
  [SProgress (progress_message (as_test f))] ++
  (if mk_ignore (marks_of f) then [SDiscard (the_call f (state_in f))]
   else opt_stmt before ++ [SCheck (the_call f (state_in f)) (mk_error (marks_of f))] ++ opt_stmt after) ++ [SNext].

Lemma flatten_block : forall cfg b a f, flatten cfg (the_block b a (as_test f)) = if here cfg f then body b a f else [].
Proof.
  intros cfg b a f. unfold the_block. cbn [flatten as_test t_cfgs t_ignore t_error t_func t_input]. rewrite active_cfgs. fold (here cfg f).
  destruct (here cfg f); [|reflexivity]. unfold body. destruct (mk_ignore (marks_of f)), b, a; reflexivity.
Qed.

Lemma flat_map_if : forall {A B} (p : A -> bool) (g : A -> list B) l,
  flat_map (fun x => if p x then g x else []) l = flat_map g (filter p l).
Proof. induction l as [|x l IH]; [reflexivity|]. cbn [flat_map filter]. destruct (p x); cbn [flat_map app]; rewrite IH; reflexivity. Qed.

Lemma flat_map_map : forall {A B C} (h : A -> B) (g : B -> list C) l, flat_map g (map h l) = flat_map (fun x => g (h x)) l.
Proof. induction l as [|x l IH]; [reflexivity|]. cbn [map flat_map]. rewrite IH. reflexivity. Qed.

Definition suite_call (h : option func) : option call := option_map (fun f => the_call f (state_in f)) h.

Lemma hook_call_suite : forall h : option func, hook_call (option_map (fun f => (kept_of f, state_in f)) h) = suite_call h.
Proof. intros [f|]; reflexivity. Qed.

Definition code (u : suite) : list stmt :=
  match u_init u with Some f => [SLetState (f_name f)] | None => [] end ++
  flat_map (body (suite_call (u_before u)) (suite_call (u_after u))) (u_tests u) ++
  [SPrintln (lit "all tests passed!")] ++ opt_stmt (suite_call (u_teardown u)) ++ [SExit].

Lemma flatten_stmts : forall cfg k, flat_map (flatten cfg) (opt_stmt k) = opt_stmt k.
Proof. intros cfg [k|]; reflexivity. Qed.

Lemma generated_code : forall cfg m items u o, m_content m = Some items -> tests_impl true m = Ok o -> suite_of cfg m u ->
  main_code cfg o = code u /\ test_count cfg o = Z.of_nat (length (u_tests u)) /\
  fine (functions items) /\ Forall ok_fn (hooks u ++ u_tests u) /\
  o_fns o = map kept_of (hooks u) ++ map kept_of (of_kind KTest (functions items)) /\
  u_tests u = filter (here cfg) (of_kind KTest (functions items)).
Proof.
  intros cfg m items u o Em H S. destruct (accepted_output m o H) as (items' & Em' & F & G & ->).
  rewrite Em in Em'. injection Em' as <-.
  destruct (suite_gathered cfg items u (ex_intro _ m (conj Em S)) F) as (E1 & E2 & E3 & E4 & E5 & A).
  cbv zeta in *.
  assert (Et : c_tests (gathered items) = map as_test (of_kind KTest (functions items))) by reflexivity.
  split; [|split; [|split; [exact F|split; [exact A|split; [|exact E5]]]]].
  - unfold main_code, generated, code. cbn [o_main]. rewrite E1, E2, E3, E4, Et, !hook_call_suite.
    rewrite !flat_map_app. rewrite !flatten_stmts. f_equal.
    + destruct (u_init u); reflexivity.
    + f_equal. rewrite !flat_map_map. rewrite E5, <- flat_map_if. apply flat_map_ext. intros f. apply flatten_block.
  - unfold test_count, generated. cbn [o_count]. rewrite Et, map_map. cbn [as_test t_cfgs]. rewrite E5. f_equal. clear.
    induction (of_kind KTest (functions items)) as [|f l IH]; [reflexivity|]. cbn [map filter]. rewrite active_cfgs. fold (here cfg f).
    destruct (here cfg f); cbn [length]; rewrite IH; reflexivity.
  - unfold generated. cbn [o_fns]. rewrite E1, E2, E3, E4, Et, map_map. unfold hooks. cbn [flat_map].
    rewrite app_nil_r, !map_app. rewrite <- !app_assoc.
    destruct (u_init u), (u_teardown u), (u_before u), (u_after u); reflexivity.
Qed.

(* ------------------------------------------------------------------ *)
(** * The run *)

Section Run.
  Context (cfg : bytes -> bool) (X : externals) (addr : bytes -> Z) (tbl : table) (enabled : level -> bool).
  Context {W : Type} (apply : bytes -> bool -> W -> W * ended).

  Notation reads := (reads X addr tbl).
  Notation performs := (performs X addr tbl enabled apply).

  Lemma begins_usize : forall f args s x, begins X addr tbl f args s -> 0 <= x < 2 ^ 32 ->
    begins X addr tbl (f ++ lit "{=usize}") (args ++ [AvPrim (VNum x)]) (s ++ dec_str x).
  Proof.
    intros f args s x H Hx. change (lit "{=usize}") with (123 :: lit "=usize" ++ [125]).
    eapply begins_arg; [exact H|split; vm_compute; intuition discriminate|vm_compute; reflexivity| |].
    - eapply MG_prim; [reflexivity|]. constructor. exact Hx.
    - intros n. eapply TG_prim; [reflexivity|]. reflexivity.
  Qed.

  Lemma progress_reads : forall n k f what, 0 <= n < 2 ^ 32 -> 0 <= k < 2 ^ 32 -> no_braces f -> no_braces what ->
    reads (lit "({=usize}/{=usize}) " ++ what ++ lit " `" ++ f ++ lit "`...") [AvPrim (VNum k); AvPrim (VNum n)]
      (lit "(" ++ dec_str k ++ lit "/" ++ dec_str n ++ lit ") " ++ what ++ lit " `" ++ f ++ lit "`...").
  Proof.
    intros n k f what Hn Hk B Bw.
    pose proof (begins_text X addr tbl []) as H. cbn [escape] in H.
    apply (begins_after _ _ _ _ _ _ (lit "(")) in H; [|split; vm_compute; intuition discriminate|discriminate].
    apply (begins_usize _ _ _ k) in H; [|exact Hk].
    apply (begins_after _ _ _ _ _ _ (lit "/")) in H; [|split; vm_compute; intuition discriminate|discriminate].
    apply (begins_usize _ _ _ n) in H; [|exact Hn].
    apply (begins_after _ _ _ _ _ _ (lit ") " ++ what ++ lit " `" ++ f ++ lit "`...")) in H; [| |discriminate].
    - apply begins_reads in H; [|vm_compute; reflexivity]. rewrite <- !app_assoc in H. exact H.
    - destruct B as [B1 B2], Bw as [C1 C2]. split; rewrite !in_app_iff; intros Q;
        repeat destruct Q as [Q|Q]; try contradiction; vm_compute in Q; intuition discriminate.
  Qed.

  (** Statements that follow steps, when the number of the next test is [n]. *)
  Inductive follows (count : Z) : Z -> list stmt -> list step -> Prop :=
  | F_progress n m s l ss : reads m [AvPrim (VNum n); AvPrim (VNum count)] s -> follows count n l ss ->
      follows count n (SProgress m :: l) (Say s :: ss)
  | F_print n m s l ss : reads m [] s -> follows count n l ss -> follows count n (SPrintln m :: l) (Say s :: ss)
  | F_next n l ss : follows count (n + 1) l ss -> follows count n (SNext :: l) ss
  | F_let n f l ss : with_state f = false -> follows count n l ss -> follows count n (SLetState (f_name f) :: l) (Do f :: ss)
  | F_call n f l ss : follows count n l ss -> follows count n (SCall (MkCall (f_name f) (with_state f)) :: l) (Do f :: ss)
  | F_discard n f l ss : follows count n l ss -> follows count n (SDiscard (MkCall (f_name f) (with_state f)) :: l) (Do f :: ss)
  | F_check n f b l ss : follows count n l ss -> follows count n (SCheck (MkCall (f_name f) (with_state f)) b :: l) (Judge f b :: ss)
  | F_exit n : follows count n [SExit] [Quit].

  Lemma returned_printable : forall r s, returned_text X addr tbl r s ->
    match returned_arg r with AvFmt t v => printable X addr tbl None t v s | _ => False end.
  Proof.
    intros [|t e v|t e v] s H; cbn [returned_arg returned_text] in *.
    - destruct H as [L ->]. split; [exact L|]. split.
      + do 2 eexists. eapply M_comp; [types_tac|apply nobar_b_ok; vm_compute; reflexivity|constructor].
      + eapply says_eq; [eapply T_comp; [vm_compute; reflexivity|says_tac]|text_eq].
    - destruct H as (L & sv & P & ->). apply (proj2 (result_text X addr tbl None t e v sv L)). exact P.
    - destruct H as (L & sv & P & ->). apply (proj1 (result_text X addr tbl None t e v sv L)). exact P.
  Qed.

  Lemma outcome_reads : forall note r s, linked addr tbl (lit "{=istr}") -> linked addr tbl note -> returned_text X addr tbl r s ->
    reads (lit "{}test failed with outcome: {}") [AvFmt (RPrim PIStr) (VText note); returned_arg r]
      (note ++ lit "test failed with outcome: " ++ s).
  Proof.
    intros note r s L1 L2 T. apply returned_printable in T.
    pose proof (begins_text X addr tbl []) as H. cbn [escape] in H.
    assert (P : printable X addr tbl None (RPrim PIStr) (VText note) note).
    { eapply printable_prim; [exact L1|constructor; exact L2|reflexivity]. }
    apply (begins_param _ _ _ _ _ _ [] None _ _ _ H) in P; [|split; intros []|exact (display_param)].
    apply (begins_after _ _ _ _ _ _ (lit "test failed with outcome: ")) in P; [|split; vm_compute; intuition discriminate|discriminate].
    destruct (returned_arg r) as [| t v| | | |]; try contradiction.
    apply (begins_param _ _ _ _ _ _ [] None _ _ _ P) in T; [|split; intros []|exact (display_param)].
    apply begins_reads in T; [|vm_compute; reflexivity]. cbn [app] in T. rewrite <- app_assoc in T. exact T.
  Qed.

  Lemma check_ok : forall r b, judged_ok r b -> check_outcome enabled r b = None.
  Proof. intros [| |] b H; cbn [judged_ok] in H; subst b; reflexivity. Qed.

  Lemma judged_dec : forall r b, judged_ok r b \/ ~ judged_ok r b.
  Proof. intros [| |] [|]; cbn [judged_ok]; (left; reflexivity) || (right; discriminate). Qed.

  Lemma check_fails : forall r b, ~ judged_ok r b -> exists l, check_outcome enabled r b = Some l /\ failure_logged X addr tbl enabled r b l.
  Proof.
    intros r b N. unfold check_outcome. assert (E : Bool.eqb (is_success r) b = true).
    { destruct r, b; cbn [judged_ok is_success Bool.eqb] in *; congruence. }
    rewrite E. eexists. split; [reflexivity|]. unfold failure_logged.
    set (note := if b then lit "`#[should_error]` " else []).
    set (es := [fun _ : scope => AvFmt (RPrim PIStr) (VText note); fun _ : scope => returned_arg r]).
    assert (Q : panic_macro enabled (Some (MkLogArgs (lit "{}test failed with outcome: {}") es)) =
      Some (fun en => (if enabled LError then [(LError, lit "panicked at '{}test failed with outcome: {}'", map (fun e => e en) es)] else [], None))).
    { reflexivity. }
    rewrite Q. cbn [fst]. clear Q. destruct (enabled LError); [|reflexivity].
    eexists _, _. split; [reflexivity|]. intros s L1 L2 T. unfold quoted.
    apply (reads_between X addr tbl _ _ _ (lit "panicked at '") (lit "'") (outcome_reads note r s L1 L2 T));
      (discriminate || (split; vm_compute; intuition discriminate)).
  Qed.

  Lemma follows_performs : forall count n l ss, follows count n l ss -> forall w, performs ss w (exec enabled apply count l w n).
  Proof.
    intros count n l ss F. induction F as [n m s l ss R F IH|n m s l ss R F IH|n l ss F IH|n f l ss Hs F IH|n f l ss F IH|
      n f l ss F IH|n f b l ss F IH|n]; intros w; cbn [exec k_fn k_state].
    - constructor; auto.
    - constructor; auto.
    - apply IH.
    - rewrite <- Hs. destruct (apply (f_name f) (with_state f) w) as [w' [r| |]] eqn:E.
      + econstructor; [exact E|apply IH].
      + eapply P_do_stops; [exact E|auto].
      + eapply P_do_stops; [exact E|auto].
    - destruct (apply (f_name f) (with_state f) w) as [w' [r| |]] eqn:E.
      + econstructor; [exact E|apply IH].
      + eapply P_do_stops; [exact E|auto].
      + eapply P_do_stops; [exact E|auto].
    - destruct (apply (f_name f) (with_state f) w) as [w' [r| |]] eqn:E.
      + econstructor; [exact E|apply IH].
      + eapply P_do_stops; [exact E|auto].
      + eapply P_do_stops; [exact E|auto].
    - destruct (apply (f_name f) (with_state f) w) as [w' [r| |]] eqn:E.
      + destruct (judged_dec r b) as [J|J].
        * rewrite (check_ok _ _ J). eapply P_passes; [exact E|exact J|apply IH].
        * destruct (check_fails _ _ J) as (logs & -> & Fl). eapply P_fails; eauto.
      + eapply P_stops; [exact E|auto].
      + eapply P_stops; [exact E|auto].
    - constructor.
  Qed.

  Lemma call_state : forall f, ok_fn f -> the_call f (state_in f) = MkCall (f_name f) (with_state f).
  Proof.
    intros f (k & _ & _ & Sh). unfold the_call, state_in, with_state. f_equal.
    assert (S : shape_ok f) by (destruct k; try exact Sh; destruct Sh as [C E]; split; [exact C|left; exact E]).
    destruct S as [_ [->|(lt & t & ->)]]; reflexivity.
  Qed.

  (** The steps, as a list. *)
  Definition steps_of (u : suite) (k : nat) (f : func) : list step :=
    if mk_ignore (marks_of f) then [progress k (length (u_tests u)) "ignoring" f; Do f]
    else progress k (length (u_tests u)) "running" f :: do_hook (u_before u) ++ [Judge f (mk_error (marks_of f))] ++ do_hook (u_after u).

  Lemma steps_spec : forall u k f, test_steps (fun f => [Do f]) u k f (steps_of u k f).
  Proof.
    intros u k f. unfold steps_of. destruct (mk_ignore (marks_of f)) eqn:E.
    - apply TS_ignored. apply ignore_mark. exact E.
    - apply TS_test; [intros H; apply ignore_mark in H; congruence|apply error_mark].
  Qed.

  Lemma follows_hook : forall count n h l ss, (forall f, h = Some f -> ok_fn f) -> follows count n l ss ->
    follows count n (opt_stmt (suite_call h) ++ l) (do_hook h ++ ss).
  Proof.
    intros count n [f|] l ss H F; [|exact F]. cbn [suite_call option_map opt_stmt do_hook app].
    rewrite call_state by (apply H; reflexivity). constructor. exact F.
  Qed.

  Lemma follows_body : forall u k f l ss, (forall g, In g (hooks u) -> ok_fn g) -> ok_fn f -> no_braces (f_name f) ->
    Z.of_nat (length (u_tests u)) < 2 ^ 32 -> Z.of_nat k < 2 ^ 32 ->
    follows (Z.of_nat (length (u_tests u))) (Z.of_nat (S k)) l ss ->
    follows (Z.of_nat (length (u_tests u))) (Z.of_nat k) (body (suite_call (u_before u)) (suite_call (u_after u)) f ++ l) (steps_of u k f ++ ss).
  Proof.
    intros u k f l ss H Ok B Hn Hk F. unfold body, steps_of, progress.
    assert (Hb : forall g, u_before u = Some g -> ok_fn g) by (intros g E; apply H; unfold hooks; rewrite E; cbn [flat_map]; rewrite !in_app_iff; cbn [In]; tauto).
    assert (Ha : forall g, u_after u = Some g -> ok_fn g) by (intros g E; apply H; unfold hooks; rewrite E; cbn [flat_map]; rewrite !in_app_iff; cbn [In]; tauto).
    assert (N : follows (Z.of_nat (length (u_tests u))) (Z.of_nat k) (SNext :: l) ss).
    { constructor. replace (Z.of_nat k + 1) with (Z.of_nat (S k)) by lia. exact F. }
    unfold progress_message. cbn [as_test t_ignore t_func].
    destruct (mk_ignore (marks_of f)).
    - cbn [app]. rewrite call_state by exact Ok. constructor.
      + apply progress_reads; [lia|lia|exact B|split; vm_compute; intuition discriminate].
      + constructor. exact N.
    - cbn [app]. rewrite call_state by exact Ok. constructor.
      + apply progress_reads; [lia|lia|exact B|split; vm_compute; intuition discriminate].
      + rewrite <- !app_assoc. apply follows_hook; [exact Hb|]. cbn [app]. constructor.
        apply follows_hook; [exact Ha|]. exact N.
  Qed.

  Lemma follows_tests : forall u l ss ts k, (forall g, In g (hooks u) -> ok_fn g) -> Forall ok_fn ts ->
    Forall (fun f => no_braces (f_name f)) ts -> Z.of_nat (length (u_tests u)) < 2 ^ 32 ->
    Z.of_nat k + Z.of_nat (length ts) <= 2 ^ 32 ->
    (forall n, follows (Z.of_nat (length (u_tests u))) n l ss) ->
    exists ts', tests_steps (fun f => [Do f]) u k ts ts' /\
      follows (Z.of_nat (length (u_tests u))) (Z.of_nat k)
        (flat_map (body (suite_call (u_before u)) (suite_call (u_after u))) ts ++ l) (ts' ++ ss).
  Proof.
    intros u l ss ts. induction ts as [|f ts IH]; intros k H A B Hn Hk F.
    - exists []. split; [constructor|apply F].
    - inversion A; subst. inversion B; subst. cbn [length] in Hk.
      destruct (IH (S k)) as (ts' & T & G); auto; [lia|]. exists (steps_of u k f ++ ts').
      split; [constructor; [apply steps_spec|exact T]|]. cbn [flat_map]. rewrite <- !app_assoc.
      apply follows_body; auto; lia.
  Qed.

  Theorem run_performs : forall m o u w, tests_impl true m = Ok o -> suite_of cfg m u ->
    Forall (fun f => no_braces (f_name f)) (u_tests u) -> Z.of_nat (length (u_tests u)) < 2 ^ 32 ->
    exists ss, actual_script u ss /\ performs ss w (run_main cfg enabled apply o w).
  Proof.
    intros m o u w H S B Hn. pose proof S as (items & Em & _).
    destruct (generated_code cfg m items u o Em H S) as (E1 & E2 & F & A & _).
    unfold run_main. rewrite E1, E2. unfold code.
    apply Forall_app in A as [Ah At]. rewrite Forall_forall in Ah.
    assert (Fin : forall n, follows (Z.of_nat (length (u_tests u))) n
      ([SPrintln (lit "all tests passed!")] ++ opt_stmt (suite_call (u_teardown u)) ++ [SExit])
      ([Say (lit "all tests passed!")] ++ do_hook (u_teardown u) ++ [Quit])).
    { intros n. cbn [app]. apply F_print.
      - pose proof (reads_text X addr tbl (lit "all tests passed!")) as R. exact R.
      - apply follows_hook; [|constructor]. intros g E. apply Ah. unfold hooks. rewrite E. cbn [flat_map].
        rewrite !in_app_iff. cbn [In]. tauto. }
    destruct (follows_tests u _ _ (u_tests u) 1 Ah At B Hn ltac:(lia) Fin) as (ts' & T & G).
    eexists. split; [exists ts'; split; [exact T|reflexivity]|].
    apply follows_performs with (n := 1). destruct (u_init u) as [f|] eqn:EI; [|exact G].
    cbn [do_hook app]. apply F_let; [|exact G].
    assert (Hf : ok_fn f) by (apply Ah; unfold hooks; rewrite EI; left; reflexivity).
    destruct Hf as (k & K & _ & Sh). destruct S as (items' & Em' & HI & _). rewrite EI in HI. cbn [the_hook] in HI.
    destruct HI as [_ HI]. apply (kind_role f KInit) in HI. assert (k = KInit) by congruence. subst k.
    unfold with_state. destruct Sh as [_ ->]. reflexivity.
  Qed.
End Run.

(* ------------------------------------------------------------------ *)
(** * What a performance shows *)

Section Shown.
  Context (X : externals) (addr : bytes -> Z) (tbl : table) (enabled : level -> bool).
  Context {W : Type} (apply : bytes -> bool -> W -> W * ended).

  Notation performs := (performs X addr tbl enabled apply).

  Lemma performs_calls : forall ss w evs, performs ss w evs ->
    exists rest, planned ss = calls evs ++ rest /\ (reports_success evs -> rest = []).
  Proof.
    unfold reports_success. induction 1; unfold planned, calls in *; cbn [flat_map app];
      try (destruct IHperforms as (rest & -> & Q); exists rest; split; [reflexivity|]; intros [E|E]; [discriminate E|auto]).
    - eexists. split; [reflexivity|]. intros [E|[]]. discriminate E.
    - eexists. split; [reflexivity|]. intros [E|[E|[]]]; discriminate E.
    - eexists. split; [reflexivity|]. intros [E|[]]. discriminate E.
    - exists []. split; [reflexivity|auto].
  Qed.

  Lemma performs_verdict : forall ss w evs, performs ss w evs -> (reports_success evs <-> flawless evs).
  Proof.
    unfold reports_success, flawless.
    assert (C1 : forall e evs, e <> Exited W -> (In (Exited W) (e :: evs) <-> In (Exited W) evs)).
    { intros e evs N. cbn [In]. split; [intros [E|E]; [congruence|exact E]|auto]. }
    induction 1.
    - rewrite C1 by discriminate. rewrite IHperforms. split; intros [A B].
      + split; [intros g st v r [E|E]; [discriminate E|eauto]|intros l [E|E]; [discriminate E|exact (B _ E)]].
      + split; [intros; eapply A; right; eauto|intros l E; apply (B l); right; exact E].
    - rewrite C1 by discriminate. rewrite IHperforms. split; intros [A B].
      + split; [intros g st v r' [E|E]; [injection E as <- <- <- <-; eauto|eauto]|intros l [E|E]; [discriminate E|exact (B _ E)]].
      + split; [intros; eapply A; right; eauto|intros l E; apply (B l); right; exact E].
    - split; [intros [E|[]]; discriminate E|]. intros [A _]. destruct (A _ _ _ _ (or_introl eq_refl)) as [v E].
      destruct H0; congruence.
    - rewrite C1 by discriminate. rewrite IHperforms. split; intros [A B].
      + split; [intros g st v r' [E|E]; [injection E as <- <- <- <-; eauto|eauto]|intros l [E|E]; [discriminate E|exact (B _ E)]].
      + split; [intros; eapply A; right; eauto|intros l E; apply (B l); right; exact E].
    - split; [intros [E|[E|[]]]; discriminate E|]. intros [_ B]. destruct (B l). right. left. reflexivity.
    - split; [intros [E|[]]; discriminate E|]. intros [A _]. destruct (A _ _ _ _ (or_introl eq_refl)) as [v E].
      destruct H0; congruence.
    - split; [|intros _; left; reflexivity]. intros _. split; [intros g st v r [E|[]]; discriminate E|intros l [E|[]]; discriminate E].
  Qed.

  Definition ok_outcome (evs : list (event W)) (f : func) (b : bool) : Prop :=
    exists st w r, In (Called W (f_name f) st w (Returns r)) evs /\ judged_ok r b.

  Lemma ok_outcome_cons : forall e evs f b, ok_outcome evs f b -> ok_outcome (e :: evs) f b.
  Proof. intros e evs f b (st & w & r & H & J). exists st, w, r. split; [right; exact H|exact J]. Qed.

  Lemma performs_judged : forall ss w evs, performs ss w evs -> reports_success evs ->
    forall f b, In (Judge f b) ss -> ok_outcome evs f b.
  Proof.
    unfold reports_success. induction 1; intros P g c Hg.
    - destruct P as [E|P]; [discriminate E|]. destruct Hg as [E|Hg]; [discriminate E|]. apply ok_outcome_cons. auto.
    - destruct P as [E|P]; [discriminate E|]. destruct Hg as [E|Hg]; [discriminate E|]. apply ok_outcome_cons. auto.
    - destruct P as [E|[]]; discriminate E.
    - destruct P as [E|P]; [discriminate E|]. destruct Hg as [E|Hg].
      + injection E as <- <-. do 3 eexists. split; [left; reflexivity|exact H0].
      + apply ok_outcome_cons. auto.
    - destruct P as [E|[E|[]]]; discriminate E.
    - destruct P as [E|[]]; discriminate E.
    - destruct Hg as [E|[]]; discriminate E.
  Qed.

  (** The last line of the tests appears only after all of them. *)
  Lemma performs_line : forall text fmt, reads X addr tbl fmt [] text -> forall s2, (forall f b, ~ In (Judge f b) s2) ->
    forall s1 w evs, performs (s1 ++ Say text :: s2) w evs -> (forall s, In (Say s) s1 -> s <> text) ->
    In (Said W fmt []) evs -> forall f b, In (Judge f b) s1 -> ok_outcome evs f b.
  Proof.
    intros text fmt R s2 N2. induction s1 as [|s s1 IH]; intros w evs P N I f b Hf; [destruct Hf|].
    cbn [app] in P. inversion P as [s' ss w0 m args evs' Rd P' E1 E2 E3|g ss w0 w' r evs' Ap P' E1 E2 E3|g ss w0 w' e Ap Q E1 E2 E3|
      g c ss w0 w' r evs' Ap J P' E1 E2 E3|g c ss w0 w' r l Ap J Fl E1 E2 E3|g c ss w0 w' e Ap Q E1 E2 E3|w0 E1 E2 E3]; subst.
    - destruct I as [E|I'].
      + injection E as -> ->. destruct (N s'); [left; reflexivity|]. eapply reads_unique; eauto.
      + destruct Hf as [E|Hf]; [discriminate E|]. apply ok_outcome_cons. eapply IH; eauto. intros s Hs. apply N. right. exact Hs.
    - destruct I as [E|I']; [discriminate E|]. destruct Hf as [E|Hf]; [discriminate E|]. apply ok_outcome_cons. eapply IH; eauto.
      intros s Hs. apply N. right. exact Hs.
    - destruct I as [E|[]]; discriminate E.
    - destruct I as [E|I']; [discriminate E|]. destruct Hf as [E|Hf].
      + injection E as <- <-. do 3 eexists. split; [left; reflexivity|exact J].
      + apply ok_outcome_cons. eapply IH; eauto. intros s Hs. apply N. right. exact Hs.
    - destruct I as [E|[E|[]]]; discriminate E.
    - destruct I as [E|[]]; discriminate E.
    - destruct s1; discriminate.
  Qed.
End Shown.

(** Judgements of a script. *)
Lemma test_steps_judge : forall ig u k f ss, test_steps ig u k f ss -> ~ marked f "ignore" ->
  exists b, In (Judge f b) ss /\ (b = true <-> marked f "should_error").
Proof.
  intros ig u k f ss H N. destruct H as [I|e _ E]; [contradiction|]. exists e. split; [|exact E].
  right. apply in_app_iff. right. left. reflexivity.
Qed.

Lemma tests_steps_judge : forall ig u k ts ss, tests_steps ig u k ts ss -> forall f, In f ts -> ~ marked f "ignore" ->
  exists b, In (Judge f b) ss /\ (b = true <-> marked f "should_error").
Proof.
  induction 1 as [|k g ts ss rest T _ IH]; intros f Hf N; [destruct Hf|]. destruct Hf as [->|Hf].
  - destruct (test_steps_judge _ _ _ _ _ T N) as (b & Hb & E). exists b. rewrite in_app_iff. auto.
  - destruct (IH f Hf N) as (b & Hb & E). exists b. rewrite in_app_iff. auto.
Qed.

Lemma tests_steps_say : forall (ig : func -> list step) u, (forall f s, ~ In (Say s) (ig f)) ->
  forall k ts ss, tests_steps ig u k ts ss -> forall s, In (Say s) ss -> exists r, s = 40 :: r.
Proof.
  intros ig u Hg. induction 1 as [|k g ts ss rest T _ IH]; intros s Hs; [destruct Hs|].
  apply in_app_iff in Hs as [Hs|Hs]; [|auto]. clear IH. destruct T as [_|e _ _].
  - destruct Hs as [E|Hs]; [|destruct (Hg _ _ Hs)]. injection E as <-. eexists. reflexivity.
  - destruct Hs as [E|Hs]; [injection E as <-; eexists; reflexivity|]. exfalso.
    apply in_app_iff in Hs as [Hs|[E|Hs]]; [|discriminate E|]; unfold do_hook in Hs.
    + destruct (u_before u); [destruct Hs as [E|[]]; discriminate E|destruct Hs].
    + destruct (u_after u); [destruct Hs as [E|[]]; discriminate E|destruct Hs].
Qed.

Lemma do_hook_judge : forall h f b, ~ In (Judge f b) (do_hook h).
Proof. intros [g|] f b H; [destruct H as [E|[]]; discriminate E|destruct H]. Qed.

Lemma do_hook_say : forall h s, ~ In (Say s) (do_hook h).
Proof. intros [g|] s H; [destruct H as [E|[]]; discriminate E|destruct H]. Qed.

Lemma ok_passed : forall {W} (evs : list (event W)) f b, (b = true <-> marked f "should_error") -> ok_outcome evs f b -> passed evs f.
Proof.
  intros W evs f b E (st & w & r & H & J). exists st, w, r. split; [exact H|]. destruct r; cbn [judged_ok] in J; subst b.
  - intros Q. apply E in Q. discriminate Q.
  - intros Q. apply E in Q. discriminate Q.
  - apply E. reflexivity.
Qed.

Section Verdict.
  Context (cfg : bytes -> bool) (X : externals) (addr : bytes -> Z) (tbl : table) (enabled : level -> bool).
  Context {W : Type} (apply : bytes -> bool -> W -> W * ended).

  Theorem run_verdict : forall m o u w, tests_impl true m = Ok o -> suite_of cfg m u ->
    Forall (fun f => no_braces (f_name f)) (u_tests u) -> Z.of_nat (length (u_tests u)) < 2 ^ 32 ->
    let evs := run_main cfg enabled apply o w in
    (reports_success evs <-> flawless evs) /\
    (reports_success evs \/ In (Said W (lit "all tests passed!") []) evs ->
      forall f, In f (u_tests u) -> ~ marked f "ignore" -> passed evs f).
  Proof.
    intros m o u w H S B Hn. destruct (run_performs cfg X addr tbl enabled apply m o u w H S B Hn) as (ss & (ts & T & Ess) & P).
    cbv zeta. split; [eapply performs_verdict; exact P|].
    intros Q f Hf N. destruct (tests_steps_judge _ _ _ _ _ T f Hf N) as (b & Hb & E). apply (ok_passed _ f b E).
    destruct Q as [Q|Q].
    - eapply performs_judged; [exact P|exact Q|]. rewrite Ess, !in_app_iff. auto.
    - rewrite app_assoc in Ess. cbn [app] in Ess. rewrite Ess in P.
      eapply performs_line with (text := lit "all tests passed!") (fmt := lit "all tests passed!"); [| |exact P| |exact Q|].
      + exact (reads_text X addr tbl (lit "all tests passed!")).
      + intros g c I'. apply in_app_iff in I' as [I'|[E'|[]]]; [exact (do_hook_judge _ _ _ I')|discriminate E'].
      + intros s Hs. apply in_app_iff in Hs as [Hs|Hs]; [destruct (do_hook_say _ _ Hs)|].
        assert (Hg : forall f s, ~ In (Say s) [Do f]) by (intros g s' [E'|[]]; discriminate E').
        destruct (tests_steps_say (fun f => [Do f]) u Hg _ _ _ T s Hs) as (r & ->). discriminate.
      + apply in_app_iff. auto.
  Qed.

  Theorem run_order : forall m o u w, tests_impl true m = Ok o -> suite_of cfg m u ->
    Forall (fun f => no_braces (f_name f)) (u_tests u) -> Z.of_nat (length (u_tests u)) < 2 ^ 32 ->
    let evs := run_main cfg enabled apply o w in
    exists ss rest, actual_script u ss /\ planned ss = calls evs ++ rest /\ (reports_success evs -> rest = []).
  Proof.
    intros m o u w H S B Hn. destruct (run_performs cfg X addr tbl enabled apply m o u w H S B Hn) as (ss & Sc & P).
    destruct (performs_calls _ _ _ _ _ _ _ _ P) as (rest & E & Q). exists ss, rest. auto.
  Qed.

  (** Without tests that are ignored, the code does what is documented. *)
  Lemma tests_steps_documented : forall (u : suite) k ts ss, (forall f, In f ts -> ~ marked f "ignore") ->
    tests_steps (fun f => [Do f]) u k ts ss -> tests_steps (fun _ => []) u k ts ss.
  Proof.
    intros u k ts ss N H. induction H as [|k f ts ss rest T _ IH]; [constructor|]. constructor; [|apply IH; intros; apply N; right; auto].
    destruct T as [I|e Ni E]; [destruct (N f (or_introl eq_refl) I)|]. apply TS_test; auto.
  Qed.

  Theorem run_documented : forall m o u w, tests_impl true m = Ok o -> suite_of cfg m u ->
    Forall (fun f => no_braces (f_name f)) (u_tests u) -> Z.of_nat (length (u_tests u)) < 2 ^ 32 ->
    (forall f, In f (u_tests u) -> ~ marked f "ignore") ->
    exists ss, documented_script u ss /\ performs X addr tbl enabled apply ss w (run_main cfg enabled apply o w).
  Proof.
    intros m o u w H S B Hn N. destruct (run_performs cfg X addr tbl enabled apply m o u w H S B Hn) as (ss & (ts & T & E) & P).
    exists ss. split; [|exact P]. exists ts. split; [apply tests_steps_documented; auto|exact E].
  Qed.
End Verdict.

(* ------------------------------------------------------------------ *)
(** * Suites and names *)

Lemma hook_exists : forall k fs, the_hook fs (role_of k) (hd_error (of_kind k fs)).
Proof.
  intros k fs. destruct (of_kind k fs) as [|f l] eqn:E; cbn [hd_error the_hook].
  - intros f Hf R. assert (H : In f (of_kind k fs)) by (apply filter_In; split; [exact Hf|apply kindb_role; exact R]). rewrite E in H. destruct H.
  - assert (H : In f (of_kind k fs)) by (rewrite E; left; reflexivity). apply filter_In in H as [Hf R]. apply kindb_role in R. auto.
Qed.

Theorem suite_exists : forall cfg m, m_content m <> None -> exists u, suite_of cfg m u.
Proof.
  intros cfg m H. destruct (m_content m) as [items|] eqn:E; [|congruence]. set (fs := functions items).
  exists (MkSuite (hd_error (of_kind KInit fs)) (hd_error (of_kind KBeforeEach fs)) (hd_error (of_kind KAfterEach fs))
    (hd_error (of_kind KTeardown fs)) (filter (fun f => kindb KTest f && here cfg f) fs)).
  exists items. split; [exact E|]. cbn [u_init u_before u_after u_teardown u_tests]. fold fs.
  split; [apply (hook_exists KInit)|]. split; [apply (hook_exists KBeforeEach)|]. split; [apply (hook_exists KAfterEach)|].
  split; [apply (hook_exists KTeardown)|]. apply (selected_filter _ (fun f => kindb KTest f && here cfg f)); [|reflexivity].
  intros f. rewrite andb_true_iff, kindb_role. unfold here. rewrite kept_active. reflexivity.
Qed.

Lemma no_dup_spec : forall l, no_dup l = true <-> NoDup l.
Proof.
  induction l as [|x l IH]; cbn [no_dup]; [split; [constructor|reflexivity]|]. rewrite andb_true_iff, negb_true_iff, IH. split.
  - intros [E N]. constructor; [|exact N]. intros H. assert (existsb (beq x) l = true) by (apply existsb_exists; exists x; split; [exact H|apply beq_refl]). congruence.
  - intros N. inversion N as [|? ? H N']; subst. split; [|exact N']. destruct (existsb (beq x) l) eqn:E; [|reflexivity].
    apply existsb_exists in E as (y & Hy & E). apply beq_true in E. subst y. contradiction.
Qed.

Lemma active_list : forall cfg l, (forall f, In f l -> present cfg f) -> filter (fun f => active cfg (f_attrs f)) (map kept_of l) = map kept_of l.
Proof.
  induction l as [|f l IH]; intros H; [reflexivity|]. cbn [map filter]. rewrite (proj2 (kept_active cfg f)) by (apply H; left; reflexivity).
  rewrite IH by (intros; apply H; right; auto). reflexivity.
Qed.

Lemma active_filter : forall cfg l, map f_name (filter (fun f => active cfg (f_attrs f)) (map kept_of l)) = map f_name (filter (here cfg) l).
Proof.
  induction l as [|f l IH]; [reflexivity|]. cbn [map filter]. unfold here at 1. destruct (active cfg (f_attrs (kept_of f))); cbn [map]; rewrite IH; reflexivity.
Qed.

(** The calls of [main], with whether they come before the local names. *)
Lemma code_calls : forall u s f, In s (code u) -> In f (called s) ->
  (exists g, u_init u = Some g /\ s = SLetState (f_name g) /\ f = f_name g) \/
  (exists g, In g (hooks u ++ u_tests u) /\ f = f_name g /\
     (forall x, s <> SLetState x) /\ (In g (u_tests u) \/ u_teardown u = Some g \/ u_before u = Some g \/ u_after u = Some g)).
Proof.
  intros u s f Hs Hf. unfold code in Hs. rewrite !in_app_iff in Hs.
  assert (HK : forall g, u_teardown u = Some g \/ u_before u = Some g \/ u_after u = Some g -> In g (hooks u)).
  { intros g H. unfold hooks. cbn [flat_map]. rewrite !in_app_iff. destruct H as [H|[H|H]]; rewrite H; cbn [In]; tauto. }
  assert (OK : forall h, In s (opt_stmt (suite_call h)) -> exists g, h = Some g /\ f = f_name g /\ forall x, s <> SLetState x).
  { intros [g|] H; [|destruct H]. destruct H as [<-|[]]. cbn [called the_call k_fn] in Hf. destruct Hf as [<-|[]].
    exists g. split; [reflexivity|]. split; [reflexivity|discriminate]. }
  destruct Hs as [Hs|[Hs|[Hs|[Hs|Hs]]]].
  - left. destruct (u_init u) as [g|]; [|destruct Hs]. destruct Hs as [<-|[]]. destruct Hf as [<-|[]]. eauto.
  - right. apply in_flat_map in Hs as (g & Hg & Hs). unfold body in Hs. destruct Hs as [<-|Hs]; [destruct Hf|].
    cbn [app] in Hs. apply in_app_iff in Hs as [Hs|[<-|[]]]; [|destruct Hf].
    destruct (mk_ignore (marks_of g)).
    + destruct Hs as [<-|[]]. cbn [called the_call k_fn] in Hf. destruct Hf as [<-|[]]. exists g. rewrite in_app_iff. split; [auto|]. split; [reflexivity|]. split; [discriminate|auto].
    + rewrite !in_app_iff in Hs. destruct Hs as [Hs|[<-|Hs]].
      * destruct (OK _ Hs) as (h & E & -> & N). exists h. rewrite in_app_iff. split; [left; apply HK; tauto|]. split; [reflexivity|]. split; [exact N|tauto].
      * cbn [called the_call k_fn] in Hf. destruct Hf as [<-|[]]. exists g. rewrite in_app_iff. split; [auto|]. split; [reflexivity|]. split; [discriminate|auto].
      * destruct (OK _ Hs) as (h & E & -> & N). exists h. rewrite in_app_iff. split; [left; apply HK; tauto|]. split; [reflexivity|]. split; [exact N|tauto].
  - destruct Hs as [<-|[]]. destruct Hf.
  - right. destruct (OK _ Hs) as (h & E & -> & N). exists h. rewrite in_app_iff. split; [left; apply HK; tauto|]. split; [reflexivity|]. split; [exact N|tauto].
  - destruct Hs as [<-|[]]. destruct Hf.
Qed.

Lemma roles_differ : forall cfg m items u g, m_content m = Some items -> suite_of cfg m u ->
  In g (u_tests u) \/ u_teardown u = Some g \/ u_before u = Some g \/ u_after u = Some g -> u_init u <> Some g.
Proof.
  intros cfg m items u g Em (items' & Em' & HI & HB & HA & HT & HS) H E. rewrite E in HI. cbn [the_hook] in HI. destruct HI as [_ HI].
  destruct H as [H|[H|[H|H]]].
  - apply suite_tests_spec in HS. rewrite HS in H. apply filter_In in H as [H _]. apply filter_In in H as [_ H]. apply kindb_role in H.
    pose proof (last_role_unique _ _ _ HI H). discriminate.
  - rewrite H in HT. destruct HT as [_ HT]. pose proof (last_role_unique _ _ _ HI HT). discriminate.
  - rewrite H in HB. destruct HB as [_ HB]. pose proof (last_role_unique _ _ _ HI HB). discriminate.
  - rewrite H in HA. destruct HA as [_ HA]. pose proof (last_role_unique _ _ _ HI HA). discriminate.
Qed.

Theorem builds_spec : forall cfg m o u, tests_impl true m = Ok o -> suite_of cfg m u -> well_named cfg u -> builds cfg o = true.
Proof.
  intros cfg m o u H S (ND & Res & St & Num & Pr). pose proof S as (items & Em & _).
  destruct (generated_code cfg m items u o Em H S) as (E1 & _ & F & A & Ef & Et).
  assert (Na : active_names cfg o = map f_name (hooks u ++ u_tests u)).
  { unfold active_names. rewrite Ef, filter_app, map_app, !active_filter, map_app, Et. f_equal. rewrite <- active_filter, active_list by exact Pr.
    rewrite map_map. reflexivity. }
  unfold builds. rewrite Na. apply andb_true_iff. split.
  - apply no_dup_spec. constructor; [|exact ND]. intros Q. apply in_map_iff in Q as (g & Eg & Hg). destruct (Res g Hg) as [R _]. congruence.
  - apply forallb_forall. intros s Hs. apply forallb_forall. intros f Hf. rewrite E1 in Hs.
    assert (G : forall g, In g (hooks u ++ u_tests u) -> existsb (beq (f_name g)) (map f_name (hooks u ++ u_tests u)) = true).
    { intros g Hg. apply existsb_exists. exists (f_name g). split; [apply in_map; exact Hg|apply beq_refl]. }
    assert (NB : forall a b, a <> b -> beq a b = false) by (intros a b; apply beq_false).
    destruct (code_calls u s f Hs Hf) as [(g & Eg & -> & ->)|(g & Hg & -> & Ns & Role)].
    + assert (Hg : In g (hooks u ++ u_tests u)) by (apply in_app_iff; left; unfold hooks; rewrite Eg; left; reflexivity).
      rewrite G by exact Hg. cbn [andb]. unfold hidden. rewrite NB by apply (Res g Hg). reflexivity.
    + rewrite G by exact Hg. cbn [andb]. unfold hidden. rewrite NB by apply (Res g Hg). cbn [orb].
      pose proof (roles_differ cfg m items u g Em S Role) as Ni.
      assert (Q : beq (f_name g) (lit "__defmt_test_number") || has_state (main_code cfg o) && beq (f_name g) (lit "state") = false).
      { rewrite (NB _ _ (Num g Hg Ni)). cbn [orb]. rewrite E1. destruct (u_init u) as [i|] eqn:EI.
        - rewrite (NB _ _ (St g Hg ltac:(congruence) ltac:(congruence))). apply andb_false_r.
        - assert (Hn : has_state (code u) = false); [|rewrite Hn; reflexivity].
          destruct (has_state (code u)) eqn:Hh; [|reflexivity]. apply existsb_exists in Hh as (s' & Hs' & Q').
          destruct s' as [f'| | | | | | | |]; try discriminate Q'.
          destruct (code_calls u (SLetState f') f' Hs' (or_introl eq_refl)) as [(g' & Eg' & _)|(g' & _ & _ & N' & _)]; [congruence|].
          destruct (N' f'). reflexivity. }
      destruct s; rewrite ?Q; try reflexivity.
Qed.

Theorem count_spec : forall cfg m o u, tests_impl true m = Ok o -> suite_of cfg m u ->
  test_count cfg o = Z.of_nat (length (u_tests u)).
Proof. intros cfg m o u H S. pose proof S as (items & Em & _). exact (proj1 (proj2 (generated_code cfg m items u o Em H S))). Qed.
