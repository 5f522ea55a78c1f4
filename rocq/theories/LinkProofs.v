(** Layout of the [.defmt] section and the table of a linked program (C61). *)
From Verif Require Import Base Utf8 ParserModel DecoderModel EncodeModel EncodeSpec Numerals DisplayModel EnvFilterModel EnvFilterSpec
  SymbolModel SymbolProofs TableModel TableSpec TableProofs TableMain LevelProofs FlagsModel FlagsSpec FlagsProofs LinkModel LinkSpec.
From Coq Require Import Permutation Sorting.Sorted.

(** * Layout *)

Definition size (st : static) : Z := Z.of_nat (length (st_data st)).

(** Statics one after the other from [here] to [stop]. *)
Fixpoint spaced (here : Z) (placed : list (static * Z)) (stop : Z) : Prop :=
  match placed with
  | [] => here <= stop
  | (st, a) :: r => here <= a /\ spaced (a + size st) r stop
  end.

Lemma align_up_le : forall a h, 0 < a -> h <= align_up a h.
Proof. intros a h H. unfold align_up. pose proof (Z.mod_pos_bound (- h) a H). lia. Qed.

Lemma lay_spaced : forall l here, Forall (fun st => 0 < st_align st) l ->
  spaced here (fst (lay here l)) (snd (lay here l)) /\ map fst (fst (lay here l)) = l.
Proof.
  induction l as [|st l IH]; intros here F; cbn [lay]; [cbn; split; [lia|reflexivity]|].
  inversion F as [|? ? A F']; subst. specialize (IH (align_up (st_align st) here + Z.of_nat (length (st_data st))) F').
  destruct (lay _ l) as [pl e]. cbn [fst snd] in *. destruct IH as [S M]. cbn [spaced map fst]. rewrite M.
  split; [split; [now apply align_up_le|exact S]|reflexivity].
Qed.

Lemma spaced_le : forall pl here stop, spaced here pl stop -> here <= stop.
Proof.
  induction pl as [|[st a] pl IH]; intros here stop H; cbn [spaced] in H; [lia|]. destruct H as [H S]. apply IH in S. unfold size in S. lia.
Qed.

Lemma spaced_app : forall pl here mid pl' stop, spaced here pl mid -> spaced mid pl' stop -> spaced here (pl ++ pl') stop.
Proof.
  induction pl as [|[st a] pl IH]; intros here mid pl' stop H H'; cbn [spaced app] in *.
  - destruct pl' as [|[st a] pl']; cbn [spaced] in *; [lia|]. split; [lia|apply H'].
  - destruct H as [H S]. split; [exact H|]. eapply IH; eauto.
Qed.

Lemma spaced_in : forall pl here stop st a, spaced here pl stop -> In (st, a) pl -> here <= a /\ a + size st <= stop.
Proof.
  induction pl as [|[st0 a0] pl IH]; intros here stop st a H I; [destruct I|]. cbn [spaced] in H. destruct H as [H S]. destruct I as [E|I].
  - injection E as -> ->. split; [exact H|]. now apply spaced_le in S.
  - apply (IH _ _ _ _ S) in I. unfold size in *. lia.
Qed.

(** Different statics have different addresses. *)
Lemma spaced_unique : forall pl here stop st st' a, Forall (fun x => st_data (fst x) <> []) pl -> spaced here pl stop ->
  In (st, a) pl -> In (st', a) pl -> st = st'.
Proof.
  induction pl as [|[st0 a0] pl IH]; intros here stop st st' a F H I I'; [destruct I|]. cbn [spaced] in H. destruct H as [H S].
  inversion F as [|? ? D F']; subst. cbn [fst] in D.
  assert (P : 0 < size st0). { unfold size. destruct (st_data st0); [congruence|cbn [length]; lia]. }
  destruct I as [E|I], I' as [E'|I'].
  - congruence.
  - injection E as -> ->. apply (spaced_in _ _ _ _ _ S) in I'. lia.
  - injection E' as -> ->. apply (spaced_in _ _ _ _ _ S) in I. lia.
  - eapply IH; eauto.
Qed.

Lemma zeros_length : forall n, 0 <= n -> Z.of_nat (length (zeros n)) = n.
Proof. intros n H. unfold zeros. rewrite repeat_length. lia. Qed.

(** The contents at the address of a static are its bytes. *)
Lemma contents_at : forall pl here stop st a, spaced here pl stop -> In (st, a) pl ->
  exists before after, contents here pl = before ++ st_data st ++ after /\ Z.of_nat (length before) = a - here.
Proof.
  induction pl as [|[st0 a0] pl IH]; intros here stop st a H I; [destruct I|]. cbn [spaced] in H. destruct H as [H S]. cbn [contents].
  destruct I as [E|I].
  - injection E as -> ->. exists (zeros (a - here)). eexists. split; [reflexivity|]. apply zeros_length. lia.
  - destruct (IH _ _ _ _ S I) as (before & after & E & L). unfold size in *. rewrite E.
    exists (zeros (a0 - here) ++ st_data st0 ++ before), after. split; [now rewrite <- !app_assoc|].
    rewrite !app_length, !Nat2Z.inj_add, zeros_length by lia. lia.
Qed.

(** * The groups of the script *)

Definition starts (p : string) (st : static) : bool := existsb (matches (st_section st)) [(lit p, true)].

(** The number of the rule that takes a section. *)
Definition rank (st : static) : Z :=
  if starts ".defmt.prim." st then 0
  else if starts ".defmt.trace." st then 1
  else if starts ".defmt.debug." st then 2
  else if starts ".defmt.info." st then 3
  else if starts ".defmt.warn." st then 4
  else if starts ".defmt.error." st then 5
  else if starts ".defmt." st then 6
  else if existsb (matches (st_section st)) [(lit ".defmt.end", false); (lit ".defmt.end.", true)] then 7
  else 8.

Definition group (todo : list static) (i : Z) : list static := filter (fun st => rank st =? i) todo.

Lemma partition_filter : forall {A} (f : A -> bool) l, partition f l = (filter f l, filter (fun x => negb (f x)) l).
Proof. intros A f l. induction l as [|x l IH]; cbn [partition filter]; [reflexivity|]. rewrite IH. destruct (f x); reflexivity. Qed.

Lemma filter_filter : forall {A} (f g : A -> bool) l, filter f (filter g l) = filter (fun x => g x && f x) l.
Proof. intros A f g l. induction l as [|x l IH]; cbn [filter]; [reflexivity|]. destruct (g x); cbn [filter andb]; rewrite IH; reflexivity. Qed.

Definition stop_of (todo : list static) (i : nat) : Z :=
  (fix go n := match n with O => snd (lay 1 (group todo 0)) | S m => snd (lay (go m) (group todo (Z.of_nat n))) end) i.
Definition start_of (todo : list static) (i : nat) : Z := match i with O => 1 | S j => stop_of todo j end.
Definition part (todo : list static) (i : nat) : list (static * Z) := fst (lay (start_of todo i) (group todo (Z.of_nat i))).

Lemma part_lay : forall todo i, lay (start_of todo i) (group todo (Z.of_nat i)) = (part todo i, stop_of todo i).
Proof. intros todo i. unfold part. rewrite (surjective_pairing (lay _ _)). f_equal. destruct i; reflexivity. Qed.

Lemma filter_all : forall {A} (f : A -> bool) l, Forall (fun x => f x = true) l -> filter f l = l.
Proof. intros A f l F. induction F as [|x l H F IH]; cbn [filter]; [reflexivity|]. now rewrite H, IH. Qed.

(** What is left before rule [i]. *)
Definition left_over (todo : list static) (i : Z) : list static := filter (fun st => i <=? rank st) todo.

Lemma take_rule : forall todo i f, (forall st, (i <=? rank st) && f st = (rank st =? i)) ->
  partition f (left_over todo i) = (group todo i, left_over todo (i + 1)).
Proof.
  intros todo i f H. rewrite partition_filter. unfold left_over, group. rewrite !filter_filter. f_equal; apply filter_ext; intros st.
  - apply H.
  - specialize (H st). destruct (f st), (Z.leb_spec i (rank st)), (Z.eqb_spec (rank st) i), (Z.leb_spec (i + 1) (rank st)); cbn in *; try congruence; lia.
Qed.

Lemma run_input : forall k ps cmds todo i pl ms, (forall st, (Z.of_nat i <=? rank st) && existsb (matches (st_section st)) ps = (rank st =? Z.of_nat i)) ->
  run cmds (left_over todo (Z.of_nat (S i))) (stop_of todo i) = (pl, ms) ->
  run (CInput k ps :: cmds) (left_over todo (Z.of_nat i)) (start_of todo i) = (part todo i ++ pl, ms).
Proof.
  intros k ps cmds todo i pl ms H E. cbn [run]. rewrite (take_rule todo (Z.of_nat i) _ H). rewrite part_lay.
  replace (Z.of_nat i + 1) with (Z.of_nat (S i)) by lia. now rewrite E.
Qed.

Lemma run_marker : forall n cmds todo here pl ms, run cmds todo here = (pl, ms) -> run (CMarker n :: cmds) todo here = (pl, (n, here) :: ms).
Proof. intros n cmds todo here pl ms E. cbn [run]. now rewrite E. Qed.

Ltac by_rank := intros st; unfold rank, starts;
  repeat match goal with |- context [existsb (matches (st_section st)) ?ps] => let x := fresh "x" in set (x := existsb (matches (st_section st)) ps); clearbody x; destruct x end; reflexivity.

Lemma script_run : forall todo, run script todo 1 =
  (part todo 0 ++ part todo 1 ++ part todo 2 ++ part todo 3 ++ part todo 4 ++ part todo 5 ++ part todo 6 ++ part todo 7,
   [(level_start LTrace, stop_of todo 0); (level_end LTrace, stop_of todo 1); (level_start LDebug, stop_of todo 1); (level_end LDebug, stop_of todo 2);
    (level_start LInfo, stop_of todo 2); (level_end LInfo, stop_of todo 3); (level_start LWarn, stop_of todo 3); (level_end LWarn, stop_of todo 4);
    (level_start LError, stop_of todo 4); (level_end LError, stop_of todo 5); (end_marker, stop_of todo 6)]).
Proof.
  intros todo. unfold script.
  assert (E : todo = left_over todo (Z.of_nat 0)).
  { unfold left_over. symmetry. apply filter_all, Forall_forall. intros st _. unfold rank.
    repeat match goal with |- context [if ?b then _ else _] => destruct b end; reflexivity. }
  rewrite E at 1. change 1 with (start_of todo 0).
  apply (run_input false _ _ todo 0); [by_rank|]. apply run_marker.
  apply (run_input false _ _ todo 1); [by_rank|]. do 2 apply run_marker.
  apply (run_input false _ _ todo 2); [by_rank|]. do 2 apply run_marker.
  apply (run_input false _ _ todo 3); [by_rank|]. do 2 apply run_marker.
  apply (run_input false _ _ todo 4); [by_rank|]. do 2 apply run_marker.
  apply (run_input false _ _ todo 5); [by_rank|]. apply run_marker.
  apply (run_input false _ _ todo 6); [by_rank|]. apply run_marker.
  rewrite <- (app_nil_r (part todo 7)). apply (run_input true _ _ todo 7); [by_rank|]. reflexivity.
Qed.

(** The statics of a program: positive alignment, some contents, and a section of the script. *)
Definition static_ok (st : static) : Prop := 0 < st_align st /\ st_data st <> [] /\ 0 <= rank st <= 6.

Lemma starts_app : forall p st r, st_section st = lit p ++ r -> starts p st = true.
Proof. intros p st r E. unfold starts, matches. cbn [existsb fst snd]. rewrite E, strip_prefix_app. destruct r; reflexivity. Qed.

(** * Sections of the macros *)

Lemma mangled_brace : forall i kind d, exists r, mangled i kind d = 123 :: r.
Proof. intros i kind d. eexists. unfold mangled, interned, mangle. cbn [lit list_ascii_of_string map app s_package]. reflexivity. Qed.

Definition level_rank (l : level) : Z := match l with LTrace => 1 | LDebug => 2 | LInfo => 3 | LWarn => 4 | LError => 5 end.

Lemma rank_of : forall st s, st_section st = s -> rank st = rank (MkStatic s [] 0 [] false).
Proof. intros st s <-. reflexivity. Qed.

Lemma variable_rank : forall i kind d live, rank (static_variable i kind None d live) = 6.
Proof. intros i kind d live. destruct (mangled_brace i kind d) as [r E]. rewrite (rank_of _ (lit ".defmt." ++ 123 :: r)); [reflexivity|].
  unfold static_variable, linker_section. cbn [st_section]. now rewrite E. Qed.

Lemma log_rank : forall i kind l d live, rank (static_variable i kind (Some (level_str l)) d live) = level_rank l.
Proof.
  intros i kind l d live. rewrite (rank_of _ (lit ".defmt." ++ level_str l ++ lit "." ++ mangled i kind d)) by reflexivity.
  destruct (mangled_brace i kind d) as [r ->]. destruct l; reflexivity.
Qed.

Lemma prim_rank : forall i kind d live, rank (static_variable i kind (Some (lit "prim")) d live) = 0.
Proof.
  intros i kind d live. rewrite (rank_of _ (lit ".defmt." ++ lit "prim" ++ lit "." ++ mangled i kind d)) by reflexivity.
  destruct (mangled_brace i kind d) as [r ->]. reflexivity.
Qed.

(** * The statics of a program *)

Lemma level_rank_range : forall l, 1 <= level_rank l <= 5.
Proof. destruct l; cbn; lia. Qed.

Lemma string_of_rank : forall u kind prefix s live, string_of u = Some (kind, prefix, s) ->
  0 <= rank (static_variable (u_at u) kind prefix s live) <= 6.
Proof.
  intros u kind prefix s live E. unfold string_of in E. destruct (u_macro u); inversion E; subst;
    rewrite ?variable_rank, ?log_rank, ?prim_rank; try lia. pose proof (level_rank_range l). lia.
Qed.

Lemma le_bytes_ne : forall n x, le_bytes (S n) x <> [].
Proof. intros n x. cbn [le_bytes]. discriminate. Qed.

Lemma statics_of_ok : forall align u, 0 < align -> Forall static_ok (statics_of align u).
Proof.
  intros align u A. unfold statics_of. apply Forall_app. split.
  - destruct (string_of u) as [[[kind prefix] s]|] eqn:E; constructor; [|constructor].
    split; [cbn; lia|]. split; [discriminate|]. eapply string_of_rank; eauto.
  - destruct (u_macro u); try constructor.
    + apply Forall_forall. intros st I. apply in_map_iff in I as (x & <- & I). split; [exact A|]. split.
      * cbn [st_data]. apply statics_in in I as (n & fl & _ & _ & ->). cbn [snd]. apply le_bytes_ne.
      * cbn. lia.
    + split; [cbn; lia|]. split; [discriminate|]. rewrite variable_rank. lia.
    + constructor; [|constructor]. split; [cbn; lia|]. split; [discriminate|]. cbn. lia.
Qed.

Lemma statics_ok : forall p, 0 < p_align p -> Forall static_ok (statics p).
Proof.
  intros p A. unfold statics. apply Forall_app. split.
  - apply Forall_flat_map. apply Forall_forall. intros u _. now apply statics_of_ok.
  - unfold defmt_statics. repeat constructor; cbn; try lia; try discriminate.
Qed.

Lemma filter_split : forall {A} (f : A -> bool) l, Permutation (filter f l ++ filter (fun x => negb (f x)) l) l.
Proof.
  intros A f l. induction l as [|x l IH]; cbn [filter app]; [constructor|]. destruct (f x); cbn [negb app]; [now constructor|].
  rewrite <- Permutation_middle. now constructor.
Qed.

Lemma groups_perm : forall ks todo, NoDup ks -> Forall (fun st => In (rank st) ks) todo -> Permutation (flat_map (group todo) ks) todo.
Proof.
  induction ks as [|i ks IH]; intros todo N F; cbn [flat_map].
  - destruct F as [|x todo I _]; [constructor|destruct I].
  - inversion N as [|? ? Ni Nk]; subst.
    rewrite <- (filter_split (fun st => rank st =? i) todo) at 3. apply Permutation_app; [reflexivity|].
    replace (flat_map (group todo) ks) with (flat_map (group (filter (fun x => negb (rank x =? i)) todo)) ks).
    + apply IH; auto. apply Forall_forall. intros st I. apply filter_In in I as [I R]. rewrite Forall_forall in F.
      destruct (F st I) as [E|J]; [subst i; rewrite Z.eqb_refl in R; discriminate|exact J].
    + clear - Ni. induction ks as [|j ks IH]; cbn [flat_map]; [reflexivity|]. rewrite IH by (intros J; apply Ni; now right).
      f_equal. unfold group. rewrite filter_filter. apply filter_ext. intros st.
      assert (j <> i) by (intros ->; apply Ni; now left). destruct (Z.eqb_spec (rank st) i), (Z.eqb_spec (rank st) j); cbn; congruence.
Qed.

Lemma group_nil : forall todo i, Forall (fun st => rank st < i) todo -> group todo i = [].
Proof.
  intros todo i F. unfold group. induction F as [|st todo R F IH]; cbn [filter]; [reflexivity|].
  destruct (Z.eqb_spec (rank st) i); [lia|exact IH].
Qed.

Definition laid_out (todo : list static) : list (static * Z) :=
  part todo 0 ++ part todo 1 ++ part todo 2 ++ part todo 3 ++ part todo 4 ++ part todo 5 ++ part todo 6.

Section Layout.
  Context (todo : list static) (OK : Forall static_ok todo).

  Lemma group_align : forall i, Forall (fun st => 0 < st_align st) (group todo i).
  Proof using OK. intros i. unfold group. apply Forall_forall. intros st I. apply filter_In in I as [I _]. rewrite Forall_forall in OK. now apply OK. Qed.

  Lemma part_spaced : forall i, spaced (start_of todo i) (part todo i) (stop_of todo i) /\ map fst (part todo i) = group todo (Z.of_nat i).
  Proof using OK.
    intros i. pose proof (lay_spaced (group todo (Z.of_nat i)) (start_of todo i) (group_align _)) as H. rewrite part_lay in H. exact H.
  Qed.

  Lemma part_last : part todo 7 = [].
  Proof using OK.
    unfold part. rewrite group_nil; [reflexivity|]. eapply Forall_impl; [|exact OK]. intros st (_ & _ & R). lia.
  Qed.

  Lemma layout_spaced : spaced 1 (laid_out todo) (stop_of todo 6).
  Proof using OK.
    unfold laid_out.
    apply (spaced_app _ _ _ _ _ (proj1 (part_spaced 0))). apply (spaced_app _ _ _ _ _ (proj1 (part_spaced 1))).
    apply (spaced_app _ _ _ _ _ (proj1 (part_spaced 2))). apply (spaced_app _ _ _ _ _ (proj1 (part_spaced 3))).
    apply (spaced_app _ _ _ _ _ (proj1 (part_spaced 4))). apply (spaced_app _ _ _ _ _ (proj1 (part_spaced 5))).
    exact (proj1 (part_spaced 6)).
  Qed.

  Lemma layout_perm : Permutation (map fst (laid_out todo)) todo.
  Proof using OK.
    unfold laid_out. rewrite !map_app. rewrite !(proj2 (part_spaced _)).
    transitivity (flat_map (group todo) [0; 1; 2; 3; 4; 5; 6]); [cbn [flat_map]; rewrite app_nil_r; reflexivity|].
    apply groups_perm.
    - repeat constructor; cbn; intuition lia.
    - eapply Forall_impl; [|exact OK]. intros st (_ & _ & R). cbn [In]. lia.
  Qed.

  Lemma layout_in : forall st, In st todo <-> exists a, In (st, a) (laid_out todo).
  Proof using OK.
    intros st. split.
    - intros I. apply (Permutation_in _ (Permutation_sym layout_perm)) in I. apply in_map_iff in I as ([st' a] & E & I). cbn in E. subst. eauto.
    - intros (a & I). apply (Permutation_in _ layout_perm). apply in_map_iff. exists (st, a). auto.
  Qed.

  (** Where a static is, by the rule that takes it. *)
  Lemma layout_part : forall st a, In (st, a) (laid_out todo) -> exists i : nat, (i <= 6)%nat /\ rank st = Z.of_nat i /\
    start_of todo i <= a /\ a + size st <= stop_of todo i.
  Proof using OK.
    intros st a I.
    assert (P : exists i : nat, (i <= 6)%nat /\ In (st, a) (part todo i)).
    { unfold laid_out in I. rewrite !in_app_iff in I.
      destruct I as [I|[I|[I|[I|[I|[I|I]]]]]]; [exists 0%nat|exists 1%nat|exists 2%nat|exists 3%nat|exists 4%nat|exists 5%nat|exists 6%nat]; (split; [lia|exact I]). }
    destruct P as (i & Hi & P). exists i. split; [exact Hi|]. destruct (part_spaced i) as [S M]. split.
    - assert (J : In st (group todo (Z.of_nat i))) by (rewrite <- M; apply in_map_iff; exists (st, a); auto).
      unfold group in J. apply filter_In in J as [_ J]. now apply Z.eqb_eq in J.
    - exact (spaced_in _ _ _ _ _ S P).
  Qed.

  Lemma stop_mono : forall i, stop_of todo i <= stop_of todo (S i).
  Proof using OK. intros i. pose proof (spaced_le _ _ _ (proj1 (part_spaced (S i)))) as H. exact H. Qed.

  Lemma stop_le : forall j i, (i <= j)%nat -> stop_of todo i <= stop_of todo j.
  Proof using OK. induction 1 as [|j H IH]; [lia|]. pose proof (stop_mono j). lia. Qed.
End Layout.
