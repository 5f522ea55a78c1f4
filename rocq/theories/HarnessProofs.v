(** The harness: which modules the macro accepts, and what it collects from them. *)
From Verif Require Import Base Numerals ParserModel DecoderModel EncodeModel EncodeSpec DisplayModel TextSpec TextMain MacroModel MacroSpec
  HarnessModel HarnessSpec.

(* ------------------------------------------------------------------ *)
(** * Attributes *)

Definition role_of (k : kind) : role :=
  match k with
  | KInit => Init | KTeardown => Teardown | KBeforeEach => BeforeEach | KAfterEach => AfterEach | KTest => Test
  end.

Definition kind_of_role (r : role) : kind :=
  match r with
  | Init => KInit | Teardown => KTeardown | BeforeEach => KBeforeEach | AfterEach => KAfterEach | Test => KTest
  end.

Lemma role_kind : forall r, role_of (kind_of_role r) = r.
Proof. destruct r; reflexivity. Qed.

Lemma is_ident_spec : forall a s, is_ident a s = true <-> a_path a = [lit s].
Proof.
  intros a s. unfold is_ident. destruct (a_path a) as [|x [|y l]]; try (split; discriminate).
  split; intros H; [apply beq_true in H; subst; reflexivity|]. injection H as ->. apply beq_refl.
Qed.

Definition last_role (l : list attr) (r : role) : Prop :=
  exists l1 a l2, l = l1 ++ a :: l2 /\ a_path a = [lit (role_name r)] /\
    forall b r', In b l2 -> a_path b <> [lit (role_name r')].

Definition names_role (a : attr) : option role :=
  if is_ident a "init" then Some Init else if is_ident a "teardown" then Some Teardown
  else if is_ident a "test" then Some Test else if is_ident a "before_each" then Some BeforeEach
  else if is_ident a "after_each" then Some AfterEach else None.

Lemma names_role_spec : forall a r, names_role a = Some r <-> a_path a = [lit (role_name r)].
Proof.
  intros a r. unfold names_role. split.
  - repeat match goal with |- context [is_ident a ?s] => destruct (is_ident a s) eqn:?H end;
      intros E; try discriminate E; injection E as <-; apply is_ident_spec; assumption.
  - intros E. unfold is_ident. rewrite E. destruct r; vm_compute; reflexivity.
Qed.

Lemma role_injective : forall r r', lit (role_name r) = lit (role_name r') -> r = r'.
Proof. destruct r, r'; intros H; try reflexivity; discriminate H. Qed.

Lemma some_last : forall b r, a_path b = [lit (role_name r)] -> forall l, In b l -> exists r', last_role l r'.
Proof.
  intros b r Eb. induction l as [|x l IH] using rev_ind; intros H; [contradiction|].
  destruct (names_role x) as [r1|] eqn:N.
  - exists r1, l, x, []. split; [reflexivity|]. split; [apply names_role_spec; exact N|]. contradiction.
  - apply in_app_iff in H as [H|[->|[]]]; [|apply names_role_spec in Eb; congruence].
    destruct (IH H) as (r1 & l1 & a & l2 & -> & P & Q). exists r1, l1, a, (l2 ++ [x]).
    rewrite <- app_assoc. split; [reflexivity|]. split; [exact P|]. intros c r'' Hc Ec.
    apply in_app_iff in Hc as [Hc|[->|[]]]; [exact (Q _ _ Hc Ec)|]. apply names_role_spec in Ec. congruence.
Qed.

Lemma last_role_cons : forall a l r, last_role (a :: l) r <->
  last_role l r \/ (names_role a = Some r /\ forall r', ~ last_role l r').
Proof.
  intros a l r. split.
  - intros (l1 & b & l2 & E & P & Q). destruct l1 as [|c l1]; cbn [app] in E; injection E as -> ->.
    + right. split; [apply names_role_spec; exact P|]. intros r' (m1 & c & m2 & E & P' & _).
      apply (Q c r'); [rewrite E; apply in_elt|exact P'].
    + left. exists l1, b, l2. auto.
  - intros [(l1 & b & l2 & -> & P & Q)|[P Q]].
    + exists (a :: l1), b, l2. auto.
    + exists [], a, l. split; [reflexivity|]. split; [apply names_role_spec; exact P|].
      intros b r' Hb E. destruct (some_last b r' E l Hb) as [r'' K]. exact (Q r'' K).
Qed.

Lemma last_role_nil : forall r, ~ last_role [] r.
Proof. intros r (l1 & a & l2 & E & _). destruct l1; discriminate E. Qed.

Lemma last_role_unique : forall l r1 r2, last_role l r1 -> last_role l r2 -> r1 = r2.
Proof.
  induction l as [|a l IH]; intros r1 r2 H1 H2; [destruct (last_role_nil _ H1)|].
  apply last_role_cons in H1 as [H1|[N1 H1]], H2 as [|[N2 H2]]; try (now eauto).
  - destruct (H2 _ H1).
  - destruct (H1 _ H).
  - congruence.
Qed.

(** What [retain] finds. *)
Definition any_mark (a : attr) : bool :=
  match names_role a with Some _ => true | None => is_ident a "should_error" || is_ident a "ignore" end.

Definition in_marked (l : list attr) (s : string) : Prop := exists a, In a l /\ a_path a = [lit s].

Lemma in_marked_cons : forall a l s, in_marked (a :: l) s <-> a_path a = [lit s] \/ in_marked l s.
Proof.
  intros a l s. split.
  - intros (b & [->|H] & E); [auto|right; exists b; auto].
  - intros [E|(b & H & E)]; [exists a; split; [left; reflexivity|exact E]|exists b; split; [right; exact H|exact E]].
Qed.

Lemma ident_other : forall a s t, is_ident a s = true -> lit s <> lit t -> is_ident a t = false.
Proof.
  intros a s t H N. destruct (is_ident a t) eqn:E; [|reflexivity]. apply is_ident_spec in H, E. congruence.
Qed.

Lemma mark_spec : forall a m, mark a m = (negb (any_mark a), MkMarks
  (match names_role a with Some r => Some (kind_of_role r) | None => mk_kind m end)
  (mk_error m || is_ident a "should_error") (mk_ignore m || is_ident a "ignore")).
Proof.
  intros a m. unfold mark, any_mark, names_role. destruct m as [k e i]. cbn [mk_kind mk_error mk_ignore].
  repeat match goal with
  | |- context [if is_ident a ?s then _ else _] =>
      let H := fresh "H" in destruct (is_ident a s) eqn:H; cbn [negb kind_of_role orb]
  end;
  repeat match goal with
  | H : is_ident a ?s = true |- context [is_ident a ?t] => rewrite (ident_other a s t H) by discriminate
  end; rewrite ?orb_false_r, ?orb_true_r; try reflexivity.
Qed.

Lemma retain_spec : forall l m kept m', retain l m = (kept, m') ->
  kept = filter (fun a => negb (any_mark a)) l /\
  (forall r, last_role l r -> mk_kind m' = Some (kind_of_role r)) /\
  ((forall r, ~ last_role l r) -> mk_kind m' = mk_kind m) /\
  (mk_error m' = true <-> mk_error m = true \/ in_marked l "should_error") /\
  (mk_ignore m' = true <-> mk_ignore m = true \/ in_marked l "ignore").
Proof.
  induction l as [|a l IH]; intros m kept m' H.
  - injection H as <- <-. split; [reflexivity|]. split; [intros r Hr; destruct (last_role_nil _ Hr)|].
    split; [reflexivity|]. split; (split; [auto|intros [?|(b & [] & _)]; assumption]).
  - cbn [retain] in H. rewrite mark_spec in H.
    destruct (retain l _) as [k2 m2] eqn:R in H. injection H as <- <-.
    destruct (IH _ _ _ R) as (-> & K1 & K2 & E1 & G1). cbn [mk_kind mk_error mk_ignore] in K2, E1, G1.
    split; [reflexivity|].
    split; [|split; [|split]].
    + intros r Hr. apply last_role_cons in Hr as [Hr|[N Hr]]; [exact (K1 _ Hr)|]. rewrite (K2 Hr), N. reflexivity.
    + intros Hn. assert (Hl : forall r, ~ last_role l r) by (intros r Hr; apply (Hn r), last_role_cons; auto).
      rewrite (K2 Hl). destruct (names_role a) as [r|] eqn:N; [|reflexivity].
      destruct (Hn r). apply last_role_cons. auto.
    + rewrite E1, orb_true_iff, is_ident_spec, in_marked_cons. tauto.
    + rewrite G1, orb_true_iff, is_ident_spec, in_marked_cons. tauto.
Qed.

(** Of a function. *)
Definition marks_of (f : func) : marks := snd (retain (f_attrs f) (MkMarks None false false)).
Definition kept_of (f : func) : func :=
  MkFunc (fst (retain (f_attrs f) (MkMarks None false false))) (f_name f) (f_sig f).

Lemma last_role_dec : forall l, (exists r, last_role l r) \/ (forall r, ~ last_role l r).
Proof.
  induction l as [|a l [[r H]|H]].
  - right. apply last_role_nil.
  - left. exists r. apply last_role_cons. auto.
  - destruct (names_role a) as [r|] eqn:N; [left; exists r; apply last_role_cons; auto|].
    right. intros r Hr. apply last_role_cons in Hr as [Hr|[N' _]]; [exact (H _ Hr)|congruence].
Qed.

Lemma kind_role : forall f k, mk_kind (marks_of f) = Some k <-> has_role f (role_of k).
Proof.
  intros f k. unfold marks_of. destruct (retain _ _) as [kept m'] eqn:R. cbn [snd].
  destruct (retain_spec _ _ _ _ R) as (_ & K1 & K2 & _). change (has_role f (role_of k)) with (last_role (f_attrs f) (role_of k)).
  split; [|intros H; rewrite (K1 _ H); destruct k; reflexivity].
  intros H. destruct (last_role_dec (f_attrs f)) as [[r Hr]|N].
  - rewrite (K1 _ Hr) in H. injection H as <-. rewrite role_kind. exact Hr.
  - rewrite (K2 N) in H. discriminate H.
Qed.

Lemma error_mark : forall f, mk_error (marks_of f) = true <-> marked f "should_error".
Proof.
  intros f. unfold marks_of. destruct (retain _ _) as [kept m'] eqn:R. cbn [snd].
  destruct (retain_spec _ _ _ _ R) as (_ & _ & _ & E & _). rewrite E. cbn [mk_error].
  split; [intros [?|?]; [discriminate|assumption]|auto].
Qed.

Lemma ignore_mark : forall f, mk_ignore (marks_of f) = true <-> marked f "ignore".
Proof.
  intros f. unfold marks_of. destruct (retain _ _) as [kept m'] eqn:R. cbn [snd].
  destruct (retain_spec _ _ _ _ R) as (_ & _ & _ & _ & E). rewrite E. cbn [mk_ignore].
  split; [intros [?|?]; [discriminate|assumption]|auto].
Qed.

Lemma kept_active : forall cfg f, active cfg (f_attrs (kept_of f)) = true <-> present cfg f.
Proof.
  intros cfg f. unfold kept_of. destruct (retain _ _) as [kept m'] eqn:R. cbn [fst f_attrs].
  destruct (retain_spec _ _ _ _ R) as (-> & _). unfold active, extract_cfgs, present. rewrite forallb_forall.
  split.
  - intros H a Ha E. apply H. apply filter_In. split; [|apply is_ident_spec; exact E]. apply filter_In. split; [exact Ha|].
    unfold any_mark, names_role, is_ident. rewrite E. reflexivity.
  - intros H a Ha. apply filter_In in Ha as [Ha E]. apply filter_In in Ha as [Ha _]. apply H; [exact Ha|].
    apply is_ident_spec. exact E.
Qed.

Lemma extract_idem : forall l, extract_cfgs (extract_cfgs l) = extract_cfgs l.
Proof.
  intros l. unfold extract_cfgs. induction l as [|a l IH]; [reflexivity|]. cbn [filter].
  destruct (is_ident a "cfg") eqn:E; [cbn [filter]; rewrite E, IH; reflexivity|exact IH].
Qed.

Lemma active_cfgs : forall cfg l, active cfg (extract_cfgs l) = active cfg l.
Proof. intros. unfold active. rewrite extract_idem. reflexivity. Qed.

(* ------------------------------------------------------------------ *)
(** * Collecting *)

Definition kind_eqb (a b : kind) : bool :=
  match a, b with
  | KInit, KInit | KTeardown, KTeardown | KBeforeEach, KBeforeEach | KAfterEach, KAfterEach | KTest, KTest => true
  | _, _ => false
  end.

Lemma kind_eqb_spec : forall a b, kind_eqb a b = true <-> a = b.
Proof. destruct a, b; split; intros H; try reflexivity; discriminate H. Qed.

Definition kindb (k : kind) (f : func) : bool :=
  match mk_kind (marks_of f) with Some k' => kind_eqb k k' | None => false end.

Lemma kindb_spec : forall k f, kindb k f = true <-> mk_kind (marks_of f) = Some k.
Proof.
  intros k f. unfold kindb. destruct (mk_kind (marks_of f)) as [k'|]; [|split; discriminate].
  rewrite kind_eqb_spec. split; congruence.
Qed.

Lemma kindb_role : forall k f, kindb k f = true <-> has_role f (role_of k).
Proof. intros. rewrite kindb_spec. apply kind_role. Qed.

Definition of_kind (k : kind) (fs : list func) : list func := filter (kindb k) fs.

Definition state_in (f : func) : option ty :=
  match s_inputs (f_sig f) with [a] => get_mutable_reference_type a | _ => None end.

Definition shape_ok (f : func) : Prop := check_fn_sig (f_sig f) = true /\
  (s_inputs (f_sig f) = [] \/ exists lt t, s_inputs (f_sig f) = [ArgTyped (TyRef lt true t)]).

Lemma state_input_ok : forall name f, shape_ok f -> state_input name f = Ok (state_in f).
Proof.
  intros name f [C H]. unfold state_input, state_in. rewrite C. destruct H as [->|(lt & t & ->)]; reflexivity.
Qed.

Lemma state_input_inv : forall name f x, state_input name f = Ok x -> shape_ok f.
Proof.
  intros name f x. unfold state_input, shape_ok. destruct (check_fn_sig (f_sig f)); [|discriminate].
  cbn [negb orb]. destruct (s_inputs (f_sig f)) as [|a [|b l]]; cbn [length Nat.ltb Nat.leb]; intros H; try discriminate H.
  - split; auto.
  - destruct a as [|[lt [|] e|l]]; cbn [get_mutable_reference_type] in H; try discriminate H. split; [reflexivity|]. right. eauto.
Qed.

Definition ok_fn (f : func) : Prop := exists k, mk_kind (marks_of f) = Some k /\
  (k <> KTest -> mk_error (marks_of f) = false /\ mk_ignore (marks_of f) = false) /\
  match k with
  | KInit => check_fn_sig (f_sig f) = true /\ s_inputs (f_sig f) = []
  | _ => shape_ok f
  end.

Definition fine (fs : list func) : Prop := Forall ok_fn fs /\ forall k, k <> KTest -> (length (of_kind k fs) <= 1)%nat.

Definition first_hook (k : kind) (fs : list func) : option (func * option ty) :=
  option_map (fun f => (kept_of f, match k with KInit => s_output (f_sig f) | _ => state_in f end)) (hd_error (of_kind k fs)).

Definition as_test (f : func) : test :=
  MkTest (extract_cfgs (f_attrs (kept_of f))) (kept_of f) (state_in f) (mk_error (marks_of f)) (mk_ignore (marks_of f)).

Definition others (items : list item) : list bytes :=
  flat_map (fun i => match i with IFn _ => [] | IOther t => [t] end) items.

Definition gathered (items : list item) : collected :=
  let fs := functions items in
  MkCollected (first_hook KInit fs) (first_hook KTeardown fs) (first_hook KBeforeEach fs) (first_hook KAfterEach fs)
    (map as_test (of_kind KTest fs)) (others items).

Lemma collect_app : forall l1 l2 c, collect c (l1 ++ l2) = bind (collect c l1) (fun c' => collect c' l2).
Proof.
  induction l1 as [|i l1 IH]; intros l2 c; [reflexivity|]. cbn [app collect].
  destruct (collect_item c i) as [c1| | |]; cbn [bind]; auto.
Qed.

Lemma of_kind_snoc : forall k fs f, of_kind k (fs ++ [f]) = of_kind k fs ++ (if kindb k f then [f] else []).
Proof. intros. unfold of_kind. rewrite filter_app. reflexivity. Qed.

Lemma fine_snoc : forall fs f, fine (fs ++ [f]) -> fine fs.
Proof.
  intros fs f [A U]. apply Forall_app in A as [A _]. split; [exact A|]. intros k Hk. specialize (U k Hk).
  rewrite of_kind_snoc, app_length in U. lia.
Qed.

Lemma first_hook_other : forall k fs f, kindb k f = false -> first_hook k (fs ++ [f]) = first_hook k fs.
Proof. intros k fs f H. unfold first_hook. rewrite of_kind_snoc, H, app_nil_r. reflexivity. Qed.

Lemma first_hook_none : forall k fs, first_hook k fs = None <-> of_kind k fs = [].
Proof. intros k fs. unfold first_hook. destruct (of_kind k fs); split; intros H; try reflexivity; discriminate H. Qed.

Lemma first_hook_some : forall k fs, is_some (first_hook k fs) = true <-> of_kind k fs <> [].
Proof. intros k fs. unfold first_hook. destruct (of_kind k fs); split; intros H; try reflexivity; try discriminate; congruence. Qed.

Lemma hook_ok : forall name f m x, hook name None m f = Ok x ->
  mk_error m = false /\ mk_ignore m = false /\ shape_ok f /\ x = Some (f, state_in f).
Proof.
  intros name f m x. unfold hook. cbn [is_some]. destruct (mk_error m); [discriminate|]. destruct (mk_ignore m); [discriminate|].
  destruct (state_input name f) as [i| | |] eqn:E; try discriminate. cbn [bind]. intros [= <-].
  pose proof (state_input_inv _ _ _ E) as S. rewrite (state_input_ok _ _ S) in E. injection E as <-. auto.
Qed.

Lemma hook_old : forall name old m f x, hook name old m f = Ok x -> old = None.
Proof. intros name [o|] m f x H; [discriminate H|reflexivity]. Qed.

Lemma kept_shape : forall f, shape_ok (kept_of f) <-> shape_ok f.
Proof. intros f. reflexivity. Qed.

Lemma collect_fn : forall f, retain (f_attrs f) (MkMarks None false false) = (f_attrs (kept_of f), marks_of f).
Proof. intros f. unfold kept_of, marks_of. destruct (retain _ _). reflexivity. Qed.

Lemma functions_snoc : forall l i, functions (l ++ [i]) = functions l ++ match i with IFn f => [f] | IOther _ => [] end.
Proof. intros l i. unfold functions. rewrite flat_map_app. cbn [flat_map]. rewrite app_nil_r. reflexivity. Qed.

Lemma others_snoc : forall l i, others (l ++ [i]) = others l ++ match i with IFn _ => [] | IOther t => [t] end.
Proof. intros l i. unfold others. rewrite flat_map_app. cbn [flat_map]. rewrite app_nil_r. reflexivity. Qed.

Lemma unique_empty : forall k fs f, (length (of_kind k (fs ++ [f])) <= 1)%nat -> kindb k f = true -> of_kind k fs = [].
Proof.
  intros k fs f L K. rewrite of_kind_snoc, K, app_length in L. cbn [length] in L. destruct (of_kind k fs); [reflexivity|].
  cbn [length] in L. lia.
Qed.

Lemma kindb_other : forall k k' f, mk_kind (marks_of f) = Some k -> k' <> k -> kindb k' f = false.
Proof. intros k k' f H N. destruct (kindb k' f) eqn:E; [|reflexivity]. apply kindb_spec in E. congruence. Qed.

Ltac other_hooks K := rewrite ?(first_hook_other KInit), ?(first_hook_other KTeardown), ?(first_hook_other KBeforeEach),
  ?(first_hook_other KAfterEach) by (eapply kindb_other; [exact K|discriminate]).

Lemma collect_item_ok : forall l i, fine (functions (l ++ [i])) -> collect_item (gathered l) i = Ok (gathered (l ++ [i])).
Proof.
  intros l i F. unfold gathered at 2. rewrite functions_snoc in *. rewrite others_snoc. unfold collect_item, gathered.
  destruct i as [f|t]; cbn [c_init c_teardown c_before c_after c_tests c_untouched]; [|rewrite app_nil_r; reflexivity].
  rewrite app_nil_r, collect_fn. destruct F as [A U]. apply Forall_app in A as [_ A]. inversion A as [|? ? (k & K & M & Sh) _]; subst.
  change (MkFunc (f_attrs (kept_of f)) (f_name f) (f_sig f)) with (kept_of f). rewrite K.
  set (fs := functions l) in *.
  assert (T : k <> KTest -> of_kind KTest (fs ++ [f]) = of_kind KTest fs).
  { intros N. rewrite of_kind_snoc, (kindb_other k KTest f K) by congruence. apply app_nil_r. }
  assert (Kb : kindb k f = true) by (apply kindb_spec; exact K).
  assert (New : k <> KTest -> first_hook k fs = None /\ first_hook k (fs ++ [f]) =
    Some (kept_of f, match k with KInit => s_output (f_sig f) | _ => state_in f end)).
  { intros N. assert (E0 : of_kind k fs = []) by (apply (unique_empty k fs f); [apply U; exact N|exact Kb]).
    split; [apply first_hook_none; exact E0|]. unfold first_hook. rewrite of_kind_snoc, E0, Kb. reflexivity. }
  destruct k.
  1-4: destruct M as [Me Mi]; [discriminate|]; rewrite T by discriminate; other_hooks K;
       destruct New as [-> ->]; [discriminate|].
  - unfold hook. rewrite Me, Mi, state_input_ok by (apply kept_shape; exact Sh). reflexivity.
  - unfold hook. rewrite Me, Mi, state_input_ok by (apply kept_shape; exact Sh). reflexivity.
  - unfold init_hook. rewrite Me, Mi. destruct Sh as [C E]. cbn [is_some kept_of f_sig]. rewrite C, E. reflexivity.
  - unfold hook. rewrite Me, Mi, state_input_ok by (apply kept_shape; exact Sh). reflexivity.
  - rewrite state_input_ok by (apply kept_shape; exact Sh). cbn [bind]. other_hooks K.
    rewrite of_kind_snoc, Kb, map_app. reflexivity.
Qed.

Lemma collect_item_inv : forall l i c, fine (functions l) -> collect_item (gathered l) i = Ok c -> fine (functions (l ++ [i])).
Proof.
  intros l i c F H. rewrite functions_snoc. destruct i as [f|t]; [|rewrite app_nil_r; exact F].
  unfold collect_item in H. rewrite collect_fn in H. change (MkFunc (f_attrs (kept_of f)) (f_name f) (f_sig f)) with (kept_of f) in H.
  destruct (mk_kind (marks_of f)) as [k|] eqn:K; [|discriminate H].
  unfold gathered in H. cbn [c_init c_teardown c_before c_after c_tests c_untouched] in H. set (fs := functions l) in *.
  assert (G : (k <> KTest -> first_hook k fs = None) /\ ok_fn f).
  { unfold ok_fn.
    destruct k.
    - destruct (hook _ _ _ _) as [x| | |] eqn:E in H; try discriminate H. pose proof (hook_old _ _ _ _ _ E) as O.
      rewrite O in E. apply hook_ok in E as (A & B & S & _). split; [auto|]. exists KAfterEach. repeat split; auto; apply S.
    - destruct (hook _ _ _ _) as [x| | |] eqn:E in H; try discriminate H. pose proof (hook_old _ _ _ _ _ E) as O.
      rewrite O in E. apply hook_ok in E as (A & B & S & _). split; [auto|]. exists KBeforeEach. repeat split; auto; apply S.
    - destruct (init_hook _ _ _) as [x| | |] eqn:E in H; try discriminate H. unfold init_hook in E.
      destruct (first_hook KInit fs) as [o|]; [discriminate E|]. cbn [is_some] in E.
      destruct (mk_error (marks_of f)); [discriminate E|]. destruct (mk_ignore (marks_of f)); [discriminate E|].
      cbn [kept_of f_sig] in E. destruct (check_fn_sig (f_sig f)); [|discriminate E]. cbn [negb orb] in E.
      destruct (s_inputs (f_sig f)); [|discriminate E]. split; [auto|]. exists KInit. repeat split; auto.
    - destruct (hook _ _ _ _) as [x| | |] eqn:E in H; try discriminate H. pose proof (hook_old _ _ _ _ _ E) as O.
      rewrite O in E. apply hook_ok in E as (A & B & S & _). split; [auto|]. exists KTeardown. repeat split; auto; apply S.
    - destruct (state_input _ _) as [x| | |] eqn:E in H; try discriminate H. apply state_input_inv in E.
      split; [congruence|]. exists KTest. repeat split; auto; try congruence; apply E. }
  destruct G as [N Ok], F as [A U]. split; [apply Forall_app; auto|]. intros k' Hk'. rewrite of_kind_snoc, app_length.
  destruct (kindb k' f) eqn:Kb; [|cbn [length]; specialize (U k' Hk'); lia].
  apply kindb_spec in Kb. assert (k' = k) by congruence. subst k'. apply N in Hk'. apply first_hook_none in Hk'. rewrite Hk'.
  cbn [length]. lia.
Qed.

Theorem collect_spec : forall items,
  (fine (functions items) -> collect start items = Ok (gathered items)) /\
  (forall c, collect start items = Ok c -> fine (functions items)).
Proof.
  induction items as [|i l [IH1 IH2]] using rev_ind.
  - split; [reflexivity|]. intros c _. split; [constructor|]. intros k _. cbn [functions flat_map of_kind filter length]. lia.
  - split.
    + intros F. rewrite collect_app, IH1 by (rewrite functions_snoc in F; destruct i; [eapply fine_snoc; exact F|rewrite app_nil_r in F; exact F]).
      cbn [bind collect]. rewrite collect_item_ok by exact F. reflexivity.
    + intros c H. rewrite collect_app in H. destruct (collect start l) as [c'| | |] eqn:E; try discriminate H.
      pose proof (IH2 _ eq_refl) as F. pose proof (IH1 F) as E1. injection E1 as ->. cbn [bind collect] in H.
      destruct (collect_item (gathered l) i) as [c1| | |] eqn:E2; try discriminate H. eapply collect_item_inv; eauto.
Qed.

(* ------------------------------------------------------------------ *)
(** * Generating *)

Lemma opt_beq_spec : forall a b, opt_beq a b = true <-> a = b.
Proof.
  intros [a|] [b|]; cbn [opt_beq]; try (split; intros H; congruence || discriminate H).
  split; intros H; [apply beq_true in H; congruence|]. injection H as ->. apply beq_refl.
Qed.

Lemma tokens_beq_spec : forall a b, tokens_beq a b = true <-> a = b.
Proof.
  induction a as [|x a IH]; intros [|y b]; cbn [tokens_beq]; try (split; intros H; reflexivity || discriminate H).
  rewrite andb_true_iff, IH. split.
  - intros [H ->]. apply beq_true in H. congruence.
  - intros H. injection H as -> ->. split; [apply beq_refl|reflexivity].
Qed.

Lemma ty_beq_spec : forall a b, ty_beq a b = true <-> a = b.
Proof.
  induction a as [l m e IH|l]; intros [l' m' e'|l']; cbn [ty_beq]; try (split; intros H; discriminate H).
  - rewrite !andb_true_iff, opt_beq_spec, eqb_true_iff, IH. split; [intros [[-> ->] ->]; reflexivity|].
    intros H. injection H as -> -> ->. auto.
  - rewrite tokens_beq_spec. split; congruence.
Qed.

Definition matches (st input : option ty) : Prop := input = None \/ input = st.

Definition the_call (f : func) (input : option ty) : call := MkCall (f_name f) (is_some input).

Lemma state_call_ok : forall st f input, matches st input -> state_call st f input = Ok (the_call f input).
Proof.
  intros st f input [->| ->]; [reflexivity|]. unfold state_call, the_call. destruct st as [t|]; [|reflexivity].
  rewrite (proj2 (ty_beq_spec t t) eq_refl). reflexivity.
Qed.

Lemma state_call_inv : forall st f input k, state_call st f input = Ok k -> matches st input.
Proof.
  intros st f input k. unfold state_call, matches. destruct input as [t|]; [|auto]. destruct st as [s|]; [|discriminate].
  destruct (ty_beq t s) eqn:E; [|discriminate]. apply ty_beq_spec in E. subst. auto.
Qed.

Definition hook_call (h : option (func * option ty)) : option call := option_map (fun x => the_call (fst x) (snd x)) h.

Definition hook_matches (st : option ty) (h : option (func * option ty)) : Prop :=
  match h with Some (_, i) => matches st i | None => True end.

Lemma opt_call_ok : forall st h, hook_matches st h -> opt_call st h = Ok (hook_call h).
Proof. intros st [[f i]|] H; [|reflexivity]. cbn [opt_call]. rewrite state_call_ok by exact H. reflexivity. Qed.

Lemma opt_call_inv : forall st h k, opt_call st h = Ok k -> hook_matches st h.
Proof.
  intros st [[f i]|] k H; [|exact I]. cbn [opt_call] in H. destruct (state_call st f i) eqn:E; try discriminate H.
  eapply state_call_inv; eauto.
Qed.

Definition the_block (before after : option call) (t : test) : stmt :=
  SIf (t_cfgs t) (
    [SProgress (progress_message t)] ++
    (if t_ignore t then [SDiscard (the_call (t_func t) (t_input t))]
     else opt_stmt before ++ [SCheck (the_call (t_func t) (t_input t)) (t_error t)] ++ opt_stmt after) ++ [SNext]).

Lemma test_blocks_ok : forall st b a l, Forall (fun t => matches st (t_input t)) l ->
  test_blocks st b a l = Ok (map (the_block b a) l).
Proof.
  induction 1 as [|t l H _ IH]; [reflexivity|]. cbn [test_blocks]. unfold test_block at 1. rewrite state_call_ok by exact H.
  cbn [bind]. rewrite IH. reflexivity.
Qed.

Lemma test_blocks_inv : forall st b a l bs, test_blocks st b a l = Ok bs -> Forall (fun t => matches st (t_input t)) l.
Proof.
  induction l as [|t l IH]; intros bs H; [constructor|]. cbn [test_blocks] in H. unfold test_block at 1 in H.
  destruct (state_call st (t_func t) (t_input t)) eqn:E; try discriminate H. cbn [bind] in H.
  destruct (test_blocks st b a l) eqn:E'; try discriminate H. constructor; [eapply state_call_inv; eauto|eapply IH; eauto].
Qed.

Definition state_ty (c : collected) : option ty := match c_init c with Some (_, t) => t | None => None end.

Definition agrees (c : collected) : Prop :=
  hook_matches (state_ty c) (c_teardown c) /\ hook_matches (state_ty c) (c_before c) /\
  hook_matches (state_ty c) (c_after c) /\ Forall (fun t => matches (state_ty c) (t_input t)) (c_tests c).

Definition generated (name : bytes) (c : collected) : output :=
  MkOutput name (c_untouched c) (map t_cfgs (c_tests c))
    (match c_init c with Some (f, _) => [SLetState (f_name f)] | None => [] end ++
     map (the_block (hook_call (c_before c)) (hook_call (c_after c))) (c_tests c) ++
     [SPrintln (lit "all tests passed!")] ++ opt_stmt (hook_call (c_teardown c)) ++ [SExit])
    (opt_fn (c_init c) ++ opt_fn (c_teardown c) ++ opt_fn (c_before c) ++ opt_fn (c_after c) ++ map t_func (c_tests c)).

Lemma generate_ok : forall name c, agrees c -> generate name c = Ok (generated name c).
Proof.
  intros name c (T & B & A & Ts). unfold generate. fold (state_ty c).
  rewrite (opt_call_ok _ _ T). cbn [bind]. rewrite (opt_call_ok _ _ B). cbn [bind]. rewrite (opt_call_ok _ _ A). cbn [bind].
  rewrite (test_blocks_ok _ _ _ _ Ts). reflexivity.
Qed.

Lemma generate_inv : forall name c o, generate name c = Ok o -> agrees c.
Proof.
  intros name c o H. unfold generate in H. fold (state_ty c) in H.
  destruct (opt_call _ (c_teardown c)) eqn:E1; try discriminate H. cbn [bind] in H.
  destruct (opt_call _ (c_before c)) eqn:E2; try discriminate H. cbn [bind] in H.
  destruct (opt_call _ (c_after c)) eqn:E3; try discriminate H. cbn [bind] in H.
  destruct (test_blocks _ _ _ _) eqn:E4; try discriminate H.
  repeat split; try (eapply opt_call_inv; eauto). eapply test_blocks_inv; eauto.
Qed.

(* ------------------------------------------------------------------ *)
(** * Acceptance *)

Lemma state_of_gathered : forall items, fine (functions items) -> forall t,
  makes_state (functions items) t <-> state_ty (gathered items) = Some t.
Proof.
  intros items [A U] t. unfold state_ty, gathered, makes_state. cbn [c_init]. set (fs := functions items) in *.
  specialize (U KInit). unfold first_hook. destruct (of_kind KInit fs) as [|g [|g' l]] eqn:E; cbn [hd_error option_map].
  - split; [|discriminate]. intros (f & Hf & R & _). assert (In f (of_kind KInit fs)) by (apply filter_In; split; [exact Hf|apply kindb_role; exact R]).
    rewrite E in H. destruct H.
  - split.
    + intros (f & Hf & R & O). assert (H : In f (of_kind KInit fs)) by (apply filter_In; split; [exact Hf|apply kindb_role; exact R]).
      rewrite E in H. destruct H as [->|[]]. exact O.
    + intros O. assert (H : In g (of_kind KInit fs)) by (rewrite E; left; reflexivity). apply filter_In in H as [Hf R].
      exists g. split; [exact Hf|]. split; [apply kindb_role in R; exact R|exact O].
  - cbn [length] in U. specialize (U ltac:(discriminate)). lia.
Qed.

Lemma plain_spec : forall s, check_fn_sig s = true <-> plain_fn s.
Proof.
  intros s. unfold check_fn_sig, plain_fn. rewrite !andb_true_iff, !negb_true_iff. tauto.
Qed.

Lemma hook_matches_first : forall k fs st, k <> KInit -> k <> KTest -> (length (of_kind k fs) <= 1)%nat ->
  (hook_matches st (first_hook k fs) <-> forall f, In f fs -> has_role f (role_of k) -> matches st (state_in f)).
Proof.
  intros k fs st N1 N2 L. unfold first_hook. split.
  - intros H f Hf R. assert (Hk : In f (of_kind k fs)) by (apply filter_In; split; [exact Hf|apply kindb_role; exact R]).
    destruct (of_kind k fs) as [|g [|? ?]]; [destruct Hk| |cbn [length] in L; lia]. destruct Hk as [->|[]].
    cbn [hd_error option_map hook_matches] in H. destruct k; try congruence; exact H.
  - intros H. destruct (of_kind k fs) as [|g l] eqn:E; [exact I|]. cbn [hd_error option_map hook_matches].
    assert (Hg : In g (of_kind k fs)) by (rewrite E; left; reflexivity). apply filter_In in Hg as [Hf R].
    apply kindb_role in R. specialize (H g Hf R). destruct k; try congruence; exact H.
Qed.

Lemma agrees_spec : forall items, fine (functions items) ->
  (agrees (gathered items) <->
   forall f r, In f (functions items) -> has_role f r -> r <> Init -> matches (state_ty (gathered items)) (state_in f)).
Proof.
  intros items F. pose proof F as [A U]. unfold agrees. set (st := state_ty (gathered items)). unfold gathered. cbn [c_teardown c_before c_after c_tests].
  rewrite !hook_matches_first by (discriminate || (apply U; discriminate)). rewrite Forall_map. cbn [t_input as_test].
  assert (T : Forall (fun f => matches st (state_in f)) (of_kind KTest (functions items)) <->
    forall f, In f (functions items) -> has_role f Test -> matches st (state_in f)).
  { rewrite Forall_forall. split.
    - intros H f Hf R. apply H. apply filter_In. split; [exact Hf|]. apply kindb_role. exact R.
    - intros H f Hf. apply filter_In in Hf as [Hf R]. apply kindb_role in R. auto. }
  rewrite T. cbn [role_of]. split.
  - intros (H1 & H2 & H3 & H4) f r Hf R N. destruct r; try congruence; auto.
  - intros H. repeat split; intros f Hf R; (eapply H; [exact Hf|exact R|discriminate]).
Qed.

Lemma filter_unique : forall {A} (p : A -> bool) l, (length (filter p l) <= 1)%nat <->
  forall i j x y, nth_error l i = Some x -> nth_error l j = Some y -> p x = true -> p y = true -> i = j.
Proof.
  intros A p. induction l as [|a l IH].
  - split; [|cbn [filter length]; lia]. intros _ i j x y H. destruct i; discriminate H.
  - cbn [filter]. destruct (p a) eqn:Pa.
    + cbn [length]. split.
      * intros L. assert (E : filter p l = []) by (destruct (filter p l); [reflexivity|cbn [length] in L; lia]).
        assert (Z : forall i x, nth_error l i = Some x -> p x = true -> False).
        { intros i x H Px. assert (In x (filter p l)) by (apply filter_In; split; [eapply nth_error_In; eauto|exact Px]).
          rewrite E in H0. destruct H0. }
        intros [|i] [|j] x y Hx Hy Px Py; cbn [nth_error] in *; auto.
        -- destruct (Z _ _ Hy Py).
        -- destruct (Z _ _ Hx Px).
        -- destruct (Z _ _ Hx Px).
      * intros H. destruct (filter p l) as [|b m] eqn:E; [cbn [length]; lia|].
        assert (Hb : In b (filter p l)) by (rewrite E; left; reflexivity). apply filter_In in Hb as [Hb Pb].
        apply In_nth_error in Hb as (j & Hj). specialize (H 0%nat (S j) a b eq_refl Hj Pa Pb). discriminate H.
    + rewrite IH. split.
      * intros H [|i] [|j] x y Hx Hy Px Py; cbn [nth_error] in *; auto; try congruence. f_equal. eauto.
      * intros H i j x y Hx Hy Px Py. assert (S i = S j) by (eapply (H (S i) (S j)); eauto). congruence.
Qed.

Theorem accepts_spec : forall m, (exists o, tests_impl true m = Ok o) <-> valid_module m.
Proof.
  intros m. unfold tests_impl, valid_module. cbn [negb]. destruct (m_content m) as [items|].
  2: { split; [intros [o H]; discriminate H|intros (items & H & _); discriminate H]. }
  destruct (collect_spec items) as [C1 C2].
  assert (E : (exists o, (c <- collect start items ;; generate (m_name m) c) = Ok o) <->
    fine (functions items) /\ agrees (gathered items)).
  { split.
    - intros [o H]. destruct (collect start items) as [c| | |] eqn:E; try discriminate H. pose proof (C2 _ eq_refl) as F.
      pose proof (C1 F) as E1. injection E1 as ->. split; [exact F|]. eapply generate_inv; exact H.
    - intros [F G]. rewrite (C1 F). cbn [bind]. rewrite (generate_ok _ _ G). eauto. }
  rewrite E. clear E C1 C2. set (fs := functions items).
  assert (U : (forall k, k <> KTest -> (length (of_kind k fs) <= 1)%nat) <->
    (forall r i j f g, r <> Test -> nth_error fs i = Some f -> nth_error fs j = Some g -> has_role f r -> has_role g r -> i = j)).
  { split.
    - intros H r i j f g N Hf Hg Rf Rg. specialize (H (kind_of_role r) ltac:(destruct r; discriminate || congruence)).
      eapply (proj1 (filter_unique _ _) H); eauto; apply kindb_role; rewrite role_kind; auto.
    - intros H k N. apply filter_unique. intros i j x y Hx Hy Px Py. apply kindb_role in Px, Py.
      eapply (H (role_of k)); eauto. destruct k; discriminate || congruence. }
  split.
  - intros [F G]. pose proof F as [A Un]. exists items. split; [reflexivity|]. cbv zeta. fold fs. split; [|apply U; exact Un].
    intros f Hf. pose proof (proj1 (Forall_forall _ _) A f Hf) as (k & K & M & Sh). apply kind_role in K.
    exists (role_of k). split; [exact K|]. pose proof (proj1 (agrees_spec items F) G f (role_of k) Hf K) as Mt.
    assert (St : k <> KInit -> shape_ok f -> takes_state fs (f_sig f)).
    { intros N [_ [Hi|(lt & t & Hi)]]; [left; exact Hi|right]. exists lt, t. split; [exact Hi|].
      apply (state_of_gathered items F). destruct Mt as [Mt|Mt]; [destruct k; discriminate || congruence| |];
      unfold state_in in Mt; rewrite Hi in Mt; cbn [get_mutable_reference_type] in Mt; congruence. }
    unfold valid_fn. split; [apply plain_spec; destruct k; apply Sh|]. split.
    + intros N. destruct M as [M1 M2]; [intros ->; apply N; reflexivity|].
      split; intros Q; [apply error_mark in Q|apply ignore_mark in Q]; congruence.
    + destruct k; cbn [role_of]; try (apply St; [discriminate|exact Sh]). apply Sh.
  - intros (items' & E & V & Un). injection E as <-. fold fs in V, Un.
    assert (F : fine fs).
    { split; [|apply U; exact Un]. apply Forall_forall. intros f Hf. destruct (V f Hf) as (r & R & P & M & Sh).
      exists (kind_of_role r). split; [apply kind_role; rewrite role_kind; exact R|]. split.
      - intros N. destruct M as [M1 M2]; [intros ->; apply N; reflexivity|].
        split; [destruct (mk_error (marks_of f)) eqn:Q; [apply error_mark in Q; contradiction|reflexivity]|].
        destruct (mk_ignore (marks_of f)) eqn:Q; [apply ignore_mark in Q; contradiction|reflexivity].
      - apply plain_spec in P. destruct r; cbn [kind_of_role]; try (split; [exact P|exact Sh]);
          (split; [exact P|]; destruct Sh as [Sh|(lt & t & Sh & _)]; [left; exact Sh|right; eauto]). }
    split; [exact F|]. apply (agrees_spec items F). fold fs. intros f r Hf R N.
    destruct (V f Hf) as (r' & R' & _ & _ & Sh). assert (r' = r) by (eapply last_role_unique; [exact R'|exact R]). subst r'.
    assert (T : takes_state fs (f_sig f)) by (destruct r; try congruence; exact Sh).
    destruct T as [T|(lt & t & T & MS)]; unfold matches, state_in; rewrite T; [left; reflexivity|right].
    cbn [get_mutable_reference_type]. apply (state_of_gathered items F) in MS. congruence.
Qed.

Lemma accepted_output : forall m o, tests_impl true m = Ok o -> exists items, m_content m = Some items /\
  fine (functions items) /\ agrees (gathered items) /\ o = generated (m_name m) (gathered items).
Proof.
  intros m o H. unfold tests_impl in H. cbn [negb] in H. destruct (m_content m) as [items|]; [|discriminate H].
  exists items. split; [reflexivity|]. destruct (collect_spec items) as [C1 C2].
  destruct (collect start items) as [c| | |] eqn:E; try discriminate H. pose proof (C2 _ eq_refl) as F.
  pose proof (C1 F) as E1. injection E1 as ->. split; [exact F|]. cbn [bind] in H. pose proof (generate_inv _ _ _ H) as G.
  rewrite (generate_ok _ _ G) in H. injection H as <-. auto.
Qed.
