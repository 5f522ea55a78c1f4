(** What the messages of [#[tests]] mean (C56): every message names a fault that the module has. *)
From Verif Require Import Base ParserModel MacroModel HarnessModel HarnessSpec HarnessProofs.

(** The faults of the functions of a module, and their messages. *)
Inductive fault (fs : list func) : bytes -> Prop :=
| F_role f : In f fs -> (forall r, ~ has_role f r) ->
    fault fs (lit "function requires `#[init]`, `#[teardown]`, `#[before_each]`, `#[after_each]`, or `#[test]` attribute")
| F_twice r i j f g : r <> Test -> (i < j)%nat -> nth_error fs i = Some f -> nth_error fs j = Some g -> has_role f r -> has_role g r ->
    fault fs (lit "only a single `#[" ++ lit (role_name r) ++ lit "]` function can be defined")
| F_should_error r f : In f fs -> has_role f r -> r <> Test -> marked f "should_error" ->
    fault fs (lit "`#[should_error]` is not allowed on the `#[" ++ lit (role_name r) ++ lit "]` function")
| F_ignore r f : In f fs -> has_role f r -> r <> Test -> marked f "ignore" ->
    fault fs (lit "`#[ignore]` is not allowed on the `#[" ++ lit (role_name r) ++ lit "]` function")
| F_init f : In f fs -> has_role f Init -> ~ plain_fn (f_sig f) \/ s_inputs (f_sig f) <> [] ->
    fault fs (lit "`#[init]` function must have signature `fn()` or `fn() -> T`")
| F_signature r f : In f fs -> has_role f r -> r <> Init -> ~ plain_fn (f_sig f) \/ (1 < length (s_inputs (f_sig f)))%nat ->
    fault fs (lit "`#[" ++ lit (role_name r) ++ lit "]` function must have signature `fn()` or `fn(state: &mut T)`")
| F_reference r f a : In f fs -> has_role f r -> r <> Init -> s_inputs (f_sig f) = [a] -> (forall lt t, a <> ArgTyped (TyRef lt true t)) ->
    fault fs (lit "parameter must be a mutable reference (`&mut $Type`)")
| F_type r f lt t s : In f fs -> has_role f r -> r <> Init -> s_inputs (f_sig f) = [ArgTyped (TyRef lt true t)] -> makes_state fs s -> t <> s ->
    fault fs (lit "this type must match `#[init]`s return type: " ++ concat (ty_tokens s))
| F_state r f lt t : In f fs -> has_role f r -> r <> Init -> s_inputs (f_sig f) = [ArgTyped (TyRef lt true t)] -> (forall s, ~ makes_state fs s) ->
    fault fs (lit "no state was initialized by `#[init]`; signature must be `fn()`").

Lemma state_input_err : forall name f e, state_input name f = Err e ->
  (e = signature_msg name /\ (~ plain_fn (f_sig f) \/ (1 < length (s_inputs (f_sig f)))%nat)) \/
  (e = lit "parameter must be a mutable reference (`&mut $Type`)" /\ exists a, s_inputs (f_sig f) = [a] /\ forall lt t, a <> ArgTyped (TyRef lt true t)).
Proof.
  intros name f e. unfold state_input. destruct (check_fn_sig (f_sig f)) eqn:C; cbn [negb orb].
  - destruct (s_inputs (f_sig f)) as [|a [|b l]]; cbn [length Nat.ltb Nat.leb]; intros H.
    + discriminate H.
    + right. destruct (get_mutable_reference_type a) eqn:G; [discriminate H|]. split; [congruence|]. exists a. split; [reflexivity|].
      intros lt t ->. discriminate G.
    + left. split; [congruence|]. right. lia.
  - intros H. left. split; [congruence|]. left. intros P. apply plain_spec in P. congruence.
Qed.

Lemma bind_err : forall {E A B} (x : outcome E A) (k : A -> outcome E B) e, bind x k = Err e ->
  x = Err e \/ exists a, x = Ok a /\ k a = Err e.
Proof. intros E A B [a|e'| |] k e H; cbn [bind] in H; try discriminate; [right; eauto|left; congruence]. Qed.

Lemma twice : forall k fs f rest, k <> KTest -> of_kind k fs <> [] -> has_role f (role_of k) ->
  fault (fs ++ f :: rest) (lit "only a single `#[" ++ lit (role_name (role_of k)) ++ lit "]` function can be defined").
Proof.
  intros k fs f rest N E R. destruct (of_kind k fs) as [|g l] eqn:G; [congruence|].
  assert (Ig : In g (of_kind k fs)) by (rewrite G; now left). apply filter_In in Ig as [Ig K]. apply kindb_role in K.
  apply In_nth_error in Ig as (i & Hi). assert (L : (i < length fs)%nat) by (apply nth_error_Some; congruence).
  apply (F_twice _ (role_of k) i (length fs) g f); auto.
  - destruct k; discriminate || congruence.
  - rewrite nth_error_app1; auto.
  - rewrite nth_error_app2, Nat.sub_diag by lia. reflexivity.
Qed.

Lemma hook_err : forall k name fs f rest e, k <> KTest -> k <> KInit -> name = role_name (role_of k) -> mk_kind (marks_of f) = Some k ->
  hook name (first_hook k fs) (marks_of f) (kept_of f) = Err e -> fault (fs ++ f :: rest) e.
Proof.
  intros k name fs f rest e N1 N2 -> K H. apply kind_role in K. unfold hook in H.
  assert (If : In f (fs ++ f :: rest)) by (apply in_or_app; right; now left).
  assert (Nr : role_of k <> Test) by (destruct k; discriminate || congruence). assert (Ni : role_of k <> Init) by (destruct k; discriminate || congruence).
  destruct (is_some (first_hook k fs)) eqn:S.
  { apply first_hook_some in S. injection H as <-. now apply twice. }
  destruct (mk_error (marks_of f)) eqn:Er.
  { apply error_mark in Er. injection H as <-. apply (F_should_error _ (role_of k) f); auto. }
  destruct (mk_ignore (marks_of f)) eqn:Ig.
  { apply ignore_mark in Ig. injection H as <-. apply (F_ignore _ (role_of k) f); auto. }
  apply bind_err in H as [H|(a & _ & H)]; [|discriminate H]. apply state_input_err in H as [(-> & H)|(-> & a & A & B)].
  - apply (F_signature _ (role_of k) f); auto.
  - apply (F_reference _ (role_of k) f a); auto.
Qed.

Lemma collect_item_err : forall l i rest e, collect_item (gathered l) i = Err e -> fault (functions (l ++ i :: rest)) e.
Proof.
  intros l [f|t] rest e H; [|discriminate H]. unfold functions. rewrite flat_map_app. cbn [flat_map app]. fold (functions l) (functions rest).
  cbn [collect_item] in H. rewrite collect_fn in H. change (MkFunc (f_attrs (kept_of f)) (f_name f) (f_sig f)) with (kept_of f) in H.
  assert (If : In f (functions l ++ f :: functions rest)) by (apply in_or_app; right; now left).
  destruct (mk_kind (marks_of f)) as [k|] eqn:K.
  2: { injection H as <-. apply (F_role _ f); auto. intros r R. rewrite <- (role_kind r) in R. apply kind_role in R. congruence. }
  pose proof K as R. apply kind_role in R. unfold gathered in H. cbn [c_init c_teardown c_before c_after c_tests c_untouched] in H.
  destruct k; cbn [role_of] in R; apply bind_err in H as [H|(? & _ & H)]; try discriminate H.
  all: try (eapply hook_err; [| | |exact K|exact H]; discriminate || reflexivity).
  - (* init *) unfold init_hook in H. destruct (is_some (first_hook KInit (functions l))) eqn:S.
    { apply first_hook_some in S. injection H as <-. apply (twice KInit); auto. discriminate. }
    destruct (mk_error (marks_of f)) eqn:Er.
    { apply error_mark in Er. injection H as <-. apply (F_should_error _ Init f); auto. discriminate. }
    destruct (mk_ignore (marks_of f)) eqn:Ig.
    { apply ignore_mark in Ig. injection H as <-. apply (F_ignore _ Init f); auto. discriminate. }
    destruct (negb (check_fn_sig (f_sig (kept_of f))) || negb (length (s_inputs (f_sig (kept_of f))) =? 0)%nat) eqn:Q; [|discriminate H].
    injection H as <-. apply (F_init _ f); auto. change (f_sig (kept_of f)) with (f_sig f) in Q. apply orb_true_iff in Q as [Q|Q]; apply negb_true_iff in Q.
    + left. intros P. apply plain_spec in P. congruence.
    + right. intros P. rewrite P in Q. discriminate Q.
  - (* test *) apply state_input_err in H as [(-> & H)|(-> & a & A & B)].
    + apply (F_signature _ Test f); auto. discriminate.
    + apply (F_reference _ Test f a); auto. discriminate.
Qed.

Lemma collect_err : forall items e, collect start items = Err e -> exists l i rest, items = l ++ i :: rest /\ fine (functions l) /\ collect_item (gathered l) i = Err e.
Proof.
  intros items e. induction items as [|i l IH] using rev_ind; [discriminate|]. rewrite collect_app. intros H. apply bind_err in H as [H|(c & E & H)].
  - destruct (IH H) as (a & j & rest & -> & F & G). exists a, j, (rest ++ [i]). rewrite <- app_assoc. auto.
  - destruct (collect_spec l) as [C1 C2]. pose proof (C2 _ E) as F. rewrite (C1 F) in E. injection E as <-. exists l, i, []. split; [reflexivity|]. split; [exact F|].
    cbn [collect] in H. apply bind_err in H as [H|(? & _ & H)]; [exact H|discriminate H].
Qed.

Lemma state_fault : forall items f r k e, fine (functions items) -> In f (functions items) -> has_role f r -> r <> Init ->
  state_call (state_ty (gathered items)) k (state_in f) = Err e -> fault (functions items) e.
Proof.
  intros items f r k e F If R N H. unfold state_call in H. destruct (state_in f) as [t|] eqn:T; [|discriminate H].
  assert (S : exists lt, s_inputs (f_sig f) = [ArgTyped (TyRef lt true t)]).
  { unfold state_in in T. destruct (s_inputs (f_sig f)) as [|[|[lt [|] t'|l]] [|? ?]]; try discriminate T. cbn in T. exists lt. congruence. }
  destruct S as (lt & S). destruct (state_ty (gathered items)) as [s|] eqn:St.
  - destruct (ty_beq t s) eqn:B; [discriminate H|]. injection H as <-. apply (F_type _ r f lt t s); auto.
    + now apply (state_of_gathered items F).
    + intros ->. rewrite (proj2 (ty_beq_spec s s) eq_refl) in B. discriminate B.
  - injection H as <-. apply (F_state _ r f lt t); auto. intros s M. apply (state_of_gathered items F) in M. congruence.
Qed.

Lemma opt_call_fault : forall items k e, fine (functions items) -> k <> KInit ->
  opt_call (state_ty (gathered items)) (first_hook k (functions items)) = Err e -> fault (functions items) e.
Proof.
  intros items k e F N H. unfold first_hook in H. destruct (of_kind k (functions items)) as [|g l] eqn:G; [discriminate H|].
  assert (Ig : In g (of_kind k (functions items))) by (rewrite G; now left). apply filter_In in Ig as [Ig K]. apply kindb_role in K.
  cbn [hd_error option_map opt_call] in H. apply bind_err in H as [H|(? & _ & H)]; [|discriminate H].
  replace (match k with KInit => s_output (f_sig g) | _ => state_in g end) with (state_in g) in H by (destruct k; congruence).
  eapply state_fault; eauto. destruct k; discriminate || congruence.
Qed.

Theorem message_fault : forall m items e, m_content m = Some items -> tests_impl true m = Err e -> fault (functions items) e.
Proof.
  intros m items e C H. unfold tests_impl in H. rewrite C in H. cbn [negb] in H. apply bind_err in H as [H|(c & E & H)].
  - destruct (collect_err _ _ H) as (l & i & rest & -> & _ & G). now apply collect_item_err.
  - destruct (collect_spec items) as [C1 C2]. pose proof (C2 _ E) as F. rewrite (C1 F) in E. injection E as <-.
    unfold generate in H. fold (state_ty (gathered items)) in H.
    apply bind_err in H as [H|(a & _ & H)]; [apply (opt_call_fault items KTeardown); auto; discriminate|].
    apply bind_err in H as [H|(b & _ & H)]; [apply (opt_call_fault items KBeforeEach); auto; discriminate|].
    apply bind_err in H as [H|(d & _ & H)]; [apply (opt_call_fault items KAfterEach); auto; discriminate|].
    apply bind_err in H as [H|(g & _ & H)]; [|discriminate H].
    assert (T : forall ts, (forall t, In t ts -> exists f, In f (functions items) /\ has_role f Test /\ t = as_test f) ->
      test_blocks (state_ty (gathered items)) b d ts = Err e -> fault (functions items) e).
    { induction ts as [|t ts IH]; intros Hin Q; [discriminate Q|]. cbn [test_blocks] in Q. apply bind_err in Q as [Q|(? & _ & Q)].
      - unfold test_block in Q. apply bind_err in Q as [Q|(? & _ & Q)]; [|discriminate Q]. destruct (Hin t (or_introl eq_refl)) as (f & If & R & ->).
        apply (state_fault items f Test (t_func (as_test f))); auto. discriminate.
      - apply bind_err in Q as [Q|(? & _ & Q)]; [|discriminate Q]. apply IH; auto. intros t' I. apply Hin. now right. }
    apply (T (c_tests (gathered items))); auto. intros t I. unfold gathered in I. cbn [c_tests] in I. apply in_map_iff in I as (f & <- & I).
    apply filter_In in I as [I K]. apply kindb_role in K. exists f. auto.
Qed.

(** And there is always an answer. *)
Theorem always_answers : forall b m, (exists o, tests_impl b m = Ok o) \/ exists e, tests_impl b m = Err e.
Proof.
  assert (B : forall {A B} (x : outcome bytes A) (k : A -> outcome bytes B), ((exists a, x = Ok a) \/ exists e, x = Err e) ->
    (forall a, (exists o, k a = Ok o) \/ exists e, k a = Err e) -> (exists o, bind x k = Ok o) \/ exists e, bind x k = Err e).
  { intros A B x k [(a & ->)|(e & ->)] H; cbn [bind]; eauto. }
  assert (SI : forall n f, (exists o, state_input n f = Ok o) \/ exists e, state_input n f = Err e).
  { intros n f. unfold state_input. destruct (_ || _); [eauto|]. destruct (s_inputs (f_sig f)) as [|a [|? ?]]; eauto. destruct (get_mutable_reference_type a); eauto. }
  assert (HK : forall n o m f, (exists x, hook n o m f = Ok x) \/ exists e, hook n o m f = Err e).
  { intros n o m f. unfold hook. destruct (is_some o); [eauto|]. destruct (mk_error m); [eauto|]. destruct (mk_ignore m); [eauto|]. apply B; eauto. }
  assert (IH : forall o m f, (exists x, init_hook o m f = Ok x) \/ exists e, init_hook o m f = Err e).
  { intros o m f. unfold init_hook. destruct (is_some o); [eauto|]. destruct (mk_error m); [eauto|]. destruct (mk_ignore m); [eauto|]. destruct (_ || _); eauto. }
  assert (CI : forall c i, (exists x, collect_item c i = Ok x) \/ exists e, collect_item c i = Err e).
  { intros c [f|t]; [|cbn; eauto]. cbn [collect_item]. destruct (retain (f_attrs f) (MkMarks None false false)) as [kept m].
    destruct (mk_kind m) as [[]|]; try (eauto; fail); apply B; eauto. }
  assert (CC : forall l c, (exists x, collect c l = Ok x) \/ exists e, collect c l = Err e).
  { induction l as [|i l IHl]; intros c; cbn [collect]; [eauto|]. apply B; auto. }
  assert (SC : forall st f i, (exists x, state_call st f i = Ok x) \/ exists e, state_call st f i = Err e).
  { intros st f i. unfold state_call. destruct i; [|eauto]. destruct st; [|eauto]. destruct (ty_beq _ _); eauto. }
  assert (OC : forall st h, (exists x, opt_call st h = Ok x) \/ exists e, opt_call st h = Err e).
  { intros st [[f i]|]; cbn [opt_call]; [|eauto]. apply B; eauto. }
  assert (TB : forall st b a l, (exists x, test_blocks st b a l = Ok x) \/ exists e, test_blocks st b a l = Err e).
  { intros st b a. induction l as [|t l IHl]; cbn [test_blocks]; [eauto|]. apply B; [|intros; apply B; eauto]. unfold test_block. apply B; eauto. }
  intros b m. unfold tests_impl. destruct b; cbn [negb]; [|eauto]. destruct (m_content m) as [items|]; [|eauto]. apply B; auto.
  intros c. unfold generate. apply B; auto. intros x. apply B; auto. intros y. apply B; auto. intros z. apply B; auto. eauto.
Qed.
