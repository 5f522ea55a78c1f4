(** The exact limit of the linker script for programs with flags and a timestamp (C62). *)
From Verif Require Import Base Utf8 ParserModel DecoderModel EncodeModel EncodeSpec Numerals DisplayModel EnvFilterModel EnvFilterSpec
  SymbolModel SymbolProofs TableModel TableSpec TableProofs TableMain LevelProofs FlagsModel FlagsSpec FlagsProofs LinkModel LinkSpec LinkProofs LinkMain LinkTable
  LinkSize LinkRoom.

(** The strings that come first: the used ones of the log macros and of [internp]. *)
Definition comes_first (u : use) : bool := match u_macro u with ULog _ _ | UInternp _ => true | _ => false end.
Definition first_strings (p : program) : Z := Z.of_nat (length (filter (fun u => u_live u && comes_first u) (p_uses p))).

(** Alignment and size of everything else, in the order of the program: a used string is one byte, a flag sixteen, used or not,
    and a timestamp one byte and a pointer. *)
Definition cells (align : Z) (u : use) : list (Z * Z) :=
  match u_macro u with
  | ULog _ _ | UInternp _ | ULogger | UPanicHandler => []
  | UPrintln _ | UWrite _ | UDerived _ | UIntern _ => if u_live u then [(1, 1)] else []
  | UBitflags _ _ fls => (if u_live u then [(1, 1)] else []) ++ repeat (align, 16) (length (filter fl_enabled fls))
  | UTimestamp _ => [(1, 1); (4, 4)]
  end.

(** The first free address when everything is at the next multiple of its alignment. *)
Fixpoint after (here : Z) (l : list (Z * Z)) : Z :=
  match l with
  | [] => here
  | (a, n) :: l' => after ((here + a - 1) / a * a + n) l'
  end.

(** The strings, and one byte each for the version and the encoding; address 0 is not used. *)
Definition extent (p : program) : Z :=
  after (1 + first_strings p) (flat_map (cells (p_align p)) (p_uses p) ++ [(1, 1); (1, 1)]).

Lemma align_up_div : forall a h, 0 < a -> align_up a h = (h + a - 1) / a * a.
Proof.
  intros a h A. unfold align_up. pose proof (Z.div_mod (- h) a ltac:(lia)) as D. pose proof (Z.mod_pos_bound (- h) a A) as B.
  replace ((h + a - 1) / a) with (- ((- h) / a)); [nia|]. apply (Z.div_unique (h + a - 1) a (- (- h / a)) (a - 1 - (- h) mod a)); [left; lia|]. nia.
Qed.

Definition cell (st : static) : Z * Z := (st_align st, size st).

Lemma lay_after : forall l here, Forall (fun st => 0 < st_align st) l -> snd (lay here l) = after here (map cell l).
Proof.
  induction l as [|st l IH]; intros here F; cbn [lay map after cell]; [reflexivity|]. inversion F as [|? ? A F']; subst.
  rewrite <- (align_up_div _ here A). specialize (IH (align_up (st_align st) here + Z.of_nat (length (st_data st))) F').
  destruct (lay _ l) as [pl e]. cbn [snd] in *. exact IH.
Qed.

Lemma flag_cells : forall align u ident w fls, u_macro u = UBitflags ident w fls ->
  let l := map (fun st => MkStatic (lit ".defmt.end") (fst st) align (snd st) false) (flag_statics (flags_at (u_at u) ident w fls)) in
  Forall (fun st => kept st = true /\ rank st = 6) l /\ map cell l = repeat (align, 16) (length (filter fl_enabled fls)).
Proof.
  intros align u ident w fls M l. split.
  - apply Forall_forall. intros st I. apply in_map_iff in I as (x & <- & _). split; reflexivity.
  - pose proof (flag_statics_length fls (flags_at (u_at u) ident w fls) 0) as Q.
    change (concat _) with (flag_statics (flags_at (u_at u) ident w fls)) in Q. apply Nat2Z.inj in Q. rewrite <- Q. clear Q.
    assert (Len : forall x, In x (flag_statics (flags_at (u_at u) ident w fls)) -> length (snd x) = 16%nat).
    { intros x I. apply statics_in in I as (n & fl & _ & _ & ->). cbn [snd]. apply le_bytes_length. }
    subst l. revert Len. generalize (flag_statics (flags_at (u_at u) ident w fls)). induction l as [|x l IH]; intros Len; [reflexivity|].
    cbn [map length repeat]. rewrite IH by (intros y I; apply Len; now right). f_equal. unfold cell, size. cbn [st_align st_data].
    now rewrite (Len x ltac:(now left)).
Qed.

(** What an invocation gives to the groups. *)
Definition early (l : list static) : Z :=
  total (group l 0) + (total (group l 1) + (total (group l 2) + (total (group l 3) + (total (group l 4) + total (group l 5))))).

Lemma group_app : forall l m i, group (l ++ m) i = group l i ++ group m i.
Proof. intros l m i. unfold group. apply filter_app. Qed.

Lemma early_app : forall l m, early (l ++ m) = early l + early m.
Proof. intros l m. unfold early. rewrite !group_app, !total_app. lia. Qed.

Lemma group_six : forall l i, i <> 6 -> Forall (fun st => kept st = true /\ rank st = 6) l -> group l i = [].
Proof.
  intros l i N F. unfold group. induction F as [|st l [_ R] F IH]; cbn [filter]; [reflexivity|]. rewrite R. destruct (Z.eqb_spec 6 i); [lia|exact IH].
Qed.

Lemma early_six : forall l, Forall (fun st => kept st = true /\ rank st = 6) l -> early l = 0.
Proof. intros l F. unfold early. rewrite !group_six by (auto; lia). reflexivity. Qed.

Lemma six_all : forall l, Forall (fun st => kept st = true /\ rank st = 6) l -> filter kept l = l /\ group l 6 = l.
Proof.
  intros l F. split; unfold group; apply filter_all; eapply Forall_impl; [|exact F| |exact F]; cbn; intros st [H R]; [exact H|]. rewrite R. reflexivity.
Qed.

Lemma early_one : forall st, early [st] = if (0 <=? rank st) && (rank st <=? 5) then size st else 0.
Proof.
  intros st. unfold early, group. cbn [filter].
  destruct (Z.eqb_spec (rank st) 0), (Z.eqb_spec (rank st) 1), (Z.eqb_spec (rank st) 2), (Z.eqb_spec (rank st) 3), (Z.eqb_spec (rank st) 4), (Z.eqb_spec (rank st) 5);
    destruct (Z.leb_spec 0 (rank st)), (Z.leb_spec (rank st) 5); cbn [andb total]; lia.
Qed.

Lemma use_parts : forall align u,
  early (filter kept (statics_of align u)) = (if u_live u && comes_first u then 1 else 0) /\
  map cell (group (filter kept (statics_of align u)) 6) = cells align u.
Proof.
  intros align u. unfold statics_of. rewrite filter_app, early_app, group_app, map_app.
  assert (K : forall kind prefix s, string_of u = Some (kind, prefix, s) ->
    filter kept [static_variable (u_at u) kind prefix s (u_live u)] = if u_live u then [static_variable (u_at u) kind prefix s (u_live u)] else []).
  { intros kind prefix s E. cbn [filter]. rewrite (variable_kept u) by exact E. reflexivity. }
  assert (N : forall l, early (if u_live u then l else []) = if u_live u then early l else 0) by (intros l; destruct (u_live u); reflexivity).
  assert (G : forall l, group (if u_live u then l else []) 6 = if u_live u then group l 6 else []) by (intros l; destruct (u_live u); reflexivity).
  unfold string_of in *. unfold comes_first, cells. destruct (u_macro u) as [l t|t|t|t|t|t|ident w fls|t| |] eqn:M;
    try (rewrite (K _ _ _ eq_refl), N, G, early_one, ?log_rank, ?variable_rank, ?prim_rank; unfold group; cbn [filter map app];
         rewrite ?log_rank, ?variable_rank, ?prim_rank; destruct (u_live u); split; try reflexivity; destruct l; reflexivity).
  - (* bitflags *)
    destruct (flag_cells align u ident w fls M) as [F C]. destruct (six_all _ F) as [-> G6]. rewrite (early_six _ F), G6, C.
    rewrite (K _ _ _ eq_refl), N, G, early_one, ?variable_rank. unfold group. cbn [filter]. rewrite ?variable_rank. destruct (u_live u); split; reflexivity.
  - (* timestamp *)
    match goal with |- context [filter kept (?a :: ?l)] => assert (F : Forall (fun st => kept st = true /\ rank st = 6) (a :: l)) end.
    { constructor; [|constructor; [split; reflexivity|constructor]]. split; [reflexivity|apply variable_rank]. }
    destruct (six_all _ F) as [-> G6]. rewrite (early_six _ F), G6. rewrite andb_false_r. split; reflexivity.
  - rewrite andb_false_r. split; reflexivity.
  - rewrite andb_false_r. split; reflexivity.
Qed.

Lemma defmt_parts : forall ft, Forall (fun st => kept st = true /\ rank st = 6) (defmt_statics ft) /\ map cell (defmt_statics ft) = [(1, 1); (1, 1)].
Proof. intros ft. split; [|reflexivity]. constructor; [split; reflexivity|constructor; [split; reflexivity|constructor]]. Qed.

Lemma used_parts : forall p, early (used p) = first_strings p /\
  map cell (group (used p) 6) = flat_map (cells (p_align p)) (p_uses p) ++ [(1, 1); (1, 1)].
Proof.
  intros p. unfold used, statics. rewrite filter_app, early_app, group_app, map_app. destruct (defmt_parts (p_features p)) as [F C].
  destruct (six_all _ F) as [-> ->]. rewrite (early_six _ F), C. unfold first_strings.
  enough (H : early (filter kept (flat_map (statics_of (p_align p)) (p_uses p))) = Z.of_nat (length (filter (fun u => u_live u && comes_first u) (p_uses p))) /\
    map cell (group (filter kept (flat_map (statics_of (p_align p)) (p_uses p))) 6) = flat_map (cells (p_align p)) (p_uses p)).
  { destruct H as [-> ->]. split; [lia|reflexivity]. }
  induction (p_uses p) as [|u us [IH1 IH2]]; [split; reflexivity|]. cbn [flat_map filter]. rewrite filter_app, early_app, group_app, map_app, IH1, IH2.
  destruct (use_parts (p_align p) u) as [-> ->]. split; [|reflexivity]. destruct (u_live u && comes_first u); cbn [length]; lia.
Qed.

Lemma early_align : forall p i, 0 <= i <= 5 -> Forall (fun st => st_align st = 1) (group (used p) i).
Proof.
  intros p i R. apply Forall_forall. intros st I. apply filter_In in I as [I E]. apply Z.eqb_eq in E. apply filter_In in I as [I _].
  apply statics_origin in I.
  destruct I as [u kind g prefix s Iu G H|u ident w fls x Iu M Ix|u s Iu M|u s Iu M| |]; try reflexivity.
  - exfalso. change (rank _) with 6 in E. lia.
  - exfalso. change (rank _) with 6 in E. lia.
Qed.

(** The end marker is the end of this layout. *)
Lemma stop_extent : forall p, 0 < p_align p -> stop_of (used p) 6 = extent p.
Proof.
  intros p A. destruct (used_parts p) as [U1 U2]. unfold extent. rewrite <- U1, <- U2.
  assert (E : forall i, (i <= 5)%nat -> stop_of (used p) i = start_of (used p) i + total (group (used p) (Z.of_nat i))).
  { intros i L. pose proof (part_lay (used p) i) as H. rewrite <- (lay_ones _ _ (early_align p (Z.of_nat i) ltac:(lia))), H. reflexivity. }
  change (stop_of (used p) 6) with (snd (lay (stop_of (used p) 5) (group (used p) 6))). rewrite lay_after.
  - f_equal. unfold early. pose proof (E 5%nat ltac:(lia)). pose proof (E 4%nat ltac:(lia)). pose proof (E 3%nat ltac:(lia)). pose proof (E 2%nat ltac:(lia)).
    pose proof (E 1%nat ltac:(lia)). pose proof (E 0%nat ltac:(lia)). cbn [start_of] in *. change (Z.of_nat 0) with 0 in *. change (Z.of_nat 1) with 1 in *.
    change (Z.of_nat 2) with 2 in *. change (Z.of_nat 3) with 3 in *. change (Z.of_nat 4) with 4 in *. change (Z.of_nat 5) with 5 in *. lia.
  - apply group_align. apply used_ok. exact A.
Qed.

(** Exactly the programs whose layout ends before 65534 are linked. *)
Theorem capacity_exact : forall p, program_ok p ->
  (exists k, link p = Ok k) <-> chosen_encoding (p_features p) <> None /\ NoDup (defined p) /\ resolvable p /\ extent p < 65534.
Proof.
  intros p [A O]. rewrite <- (stop_extent p A). unfold resolvable. rewrite <- resolve_all_iff. split.
  - intros (k & L). apply (link_iff p k A) in L as (C & N & R & S & _). repeat split; auto. eauto.
  - intros (C & N & (cs & R) & S).
    exists (MkImage (laid_out (used p)) (the_markers (used p)) (contents 0 (laid_out (used p))) cs). apply link_iff; [exact A|].
    cbn [im_calls im_placed im_markers im_data]. repeat split; auto.
Qed.

(** Which error it is. *)
Theorem link_errors : forall p e, program_ok p -> link p = Err e <->
  match e with
  | TwoEncodings => feat_raw (p_features p) = true /\ feat_rzcobs (p_features p) = true
  | Duplicate => chosen_encoding (p_features p) <> None /\ ~ NoDup (defined p)
  | Undefined => chosen_encoding (p_features p) <> None /\ NoDup (defined p) /\ ~ resolvable p
  | TooMany => chosen_encoding (p_features p) <> None /\ NoDup (defined p) /\ resolvable p /\ 65534 <= extent p
  end.
Proof.
  intros p e [A O]. rewrite <- (stop_extent p A). pose proof (resolve_all_iff p (p_calls p)) as R. fold (resolvable p) in R.
  unfold link. fold (used p). rewrite (script_run (used p)). fold (the_markers (used p)). change (marker end_marker (the_markers (used p))) with (stop_of (used p) 6).
  assert (T : chosen_encoding (p_features p) = None <-> feat_raw (p_features p) = true /\ feat_rzcobs (p_features p) = true).
  { unfold chosen_encoding. destruct (feat_raw (p_features p)), (feat_rzcobs (p_features p)); cbn [andb]; split; try discriminate; try tauto; intros [? ?]; discriminate. }
  destruct (chosen_encoding (p_features p)) as [enc|].
  2: { destruct e; try (split; [discriminate|intros (H & _); congruence]). split; [intros _; now apply T|reflexivity]. }
  assert (T' : ~ (feat_raw (p_features p) = true /\ feat_rzcobs (p_features p) = true)) by (intros H; apply T in H; discriminate).
  pose proof (nodupb_iff (defined p)) as N. destruct (nodupb (defined p)) eqn:D; cbn [negb].
  2: { assert (~ NoDup (defined p)) by (intros H; apply N in H; discriminate).
       destruct e; try (split; [discriminate|tauto]). split; [intros _; split; [discriminate|assumption]|reflexivity]. }
  assert (N' : NoDup (defined p)) by (now apply N). clear N.
  destruct (resolve_all p (p_calls p)) as [cs|].
  2: { destruct e; try (split; [discriminate|]); try tauto.
       - split; [intros _|reflexivity]. split; [discriminate|]. split; [exact N'|]. intros H. apply R in H as (c & H). discriminate.
       - intros (_ & _ & H & _). apply R in H as (c & H). discriminate. }
  assert (V : resolvable p) by (apply R; eauto).
  destruct (Z.ltb_spec (stop_of (used p) 6) 65534) as [E|E].
  - split; [discriminate|]. destruct e; try tauto.
    intros (_ & _ & _ & H). lia.
  - destruct e; try (split; [discriminate|]); try tauto.
Qed.
