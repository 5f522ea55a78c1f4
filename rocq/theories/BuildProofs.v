(** What the build scripts set. *)
From Verif Require Import Base ParserModel ParserProofs Numerals TableModel LinkModel BuildModel.

(** A decimal numeral, perhaps with a plus sign, and its value. *)
Definition value (ds : bytes) : Z := fold_left (fun a c => 10 * a + (c - 48)) ds 0.
Definition numeral (s : bytes) (n : Z) : Prop :=
  exists ds, (s = ds \/ s = lit "+" ++ ds) /\ ds <> [] /\ Forall (fun c => 48 <= c <= 57) ds /\ n = value ds.

Lemma dec_value_fold ds : forall a, dec_value a ds = fold_left (fun a c => 10 * a + (c - 48)) ds a.
Proof. induction ds as [|c ds IH]; intros a; cbn [dec_value fold_left]; auto. Qed.

Lemma digits_forall ds : forallb is_digit ds = true <-> Forall (fun c => 48 <= c <= 57) ds.
Proof.
  rewrite forallb_forall, Forall_forall. split; intros H c Hc; specialize (H c Hc); apply is_digit_iff; exact H.
Qed.

Lemma parse_digits_iff max ds n : parse_digits max ds = Some n <-> ds <> [] /\ n = value ds /\ n <= max.
Proof.
  unfold value. rewrite <- dec_value_fold. split.
  - intros H. apply parse_digits_some in H. tauto.
  - intros (N & -> & L). unfold parse_digits. destruct ds; [congruence|]. cbv zeta.
    destruct (Z.leb_spec (dec_value 0 (z :: ds)) max); [reflexivity|lia].
Qed.

Lemma parse_usize_iff s n : parse_usize s = Some n <-> numeral s n /\ n < 2 ^ 64.
Proof.
  unfold parse_usize. cbv zeta.
  set (t := match s with c :: t => if c =? 43 then t else s | [] => [] end).
  assert (T : s = t \/ s = lit "+" ++ t).
  { subst t. destruct s as [|c t]; [auto|]. destruct (Z.eqb_spec c 43); [subst c; right; reflexivity|left; reflexivity]. }
  assert (U : forall ds, (s = ds \/ s = lit "+" ++ ds) -> Forall (fun c => 48 <= c <= 57) ds -> ds <> [] -> t = ds).
  { intros ds [E|E] F N; subst t; rewrite E.
    - destruct ds as [|c ds]; [congruence|]. inversion F; subst. destruct (Z.eqb_spec c 43); [lia|reflexivity].
    - reflexivity. }
  split.
  - intros H. destruct (forallb is_digit t) eqn:D; [|congruence]. apply parse_digits_iff in H. destruct H as (N & V & L).
    split; [|lia]. exists t. apply digits_forall in D. auto.
  - intros [(ds & E & N & F & V) L]. rewrite (U ds E F N). rewrite (proj2 (digits_forall ds) F).
    apply parse_digits_iff. split; [exact N|]. split; [exact V|lia].
Qed.

Lemma rtt_size_iff v n : rtt_size v = Ok n <->
  ((v = VAbsent \/ v = VNotUnicode) /\ n = 1024) \/ (exists s, v = VText s /\ numeral s n /\ n < 2 ^ 64).
Proof.
  destruct v as [| |s]; cbn [rtt_size].
  - split; [intros H; left; split; [auto|congruence]|]. intros [[_ ->]|(s & E & _)]; [reflexivity|discriminate].
  - split; [intros H; left; split; [auto|congruence]|]. intros [[_ ->]|(s & E & _)]; [reflexivity|discriminate].
  - destruct (parse_usize s) as [m|] eqn:E.
    + apply parse_usize_iff in E. split.
      * intros H. right. exists s. assert (m = n) by congruence. subst m. auto.
      * intros [[[H|H] _]|(s' & H & N)]; try discriminate. injection H as <-.
        apply parse_usize_iff in N. apply parse_usize_iff in E. congruence.
    + split; [discriminate|]. intros [[[H|H] _]|(s' & H & N)]; try discriminate. injection H as <-.
      apply parse_usize_iff in N. congruence.
Qed.

Lemma value_bound ds : Forall (fun c => 48 <= c <= 57) ds -> 0 <= value ds.
Proof.
  unfold value. assert (G : forall a, 0 <= a -> Forall (fun c => 48 <= c <= 57) ds -> 0 <= fold_left (fun a c => 10 * a + (c - 48)) ds a).
  { induction ds as [|c ds IH]; intros a Ha F; cbn [fold_left]; auto. inversion F; subst. apply IH; [lia|assumption]. }
  intros F. apply G; [lia|exact F].
Qed.

Lemma rtt_size_range v n : rtt_size v = Ok n -> 0 <= n < 2 ^ 64.
Proof.
  intros H. apply rtt_size_iff in H. destruct H as [[_ ->]|(s & _ & (ds & _ & _ & F & ->) & L)]; [lia|].
  pose proof (value_bound ds F). lia.
Qed.

Lemma digits_all ds c r : Forall (fun c => 48 <= c <= 57) ds -> ~ 48 <= c <= 57 -> digits (ds ++ c :: r) = length ds.
Proof.
  intros F N. induction F as [|d ds D F IH]; cbn [app digits length].
  - destruct (is_digit c) eqn:E; [apply is_digit_iff in E; contradiction|reflexivity].
  - rewrite (proj2 (is_digit_iff d) D), IH. reflexivity.
Qed.

Lemma dec_str_forall n : 0 <= n -> Forall (fun c => 48 <= c <= 57) (dec_str n).
Proof.
  intros H. apply digits_forall. apply forallb_forall. intros c Hc.
  pose proof (dec_str_digits n H) as D. rewrite Forall_forall in D. exact (D c Hc).
Qed.

Lemma rustc_reads bits n : 0 <= n -> rustc_const bits (rtt_consts n) = if n <=? 2 ^ bits - 1 then Some n else None.
Proof.
  intros H. unfold rustc_const, rtt_consts. rewrite strip_prefix_app.
  pose proof (dec_str_forall n H) as F.
  change (lit ";") with [59].
  rewrite (digits_all (dec_str n) 59 [] F) by lia.
  rewrite firstn_app, firstn_all, Nat.sub_diag, skipn_app, skipn_all, Nat.sub_diag.
  cbn [firstn skipn app]. rewrite app_nil_r.
  change (beq [59] [59]) with true. cbv iota.
  destruct (Z.leb_spec n (2 ^ bits - 1)).
  - rewrite (parse_digits_dec_str (2 ^ bits - 1) n) by lia. reflexivity.
  - destruct (parse_digits (2 ^ bits - 1) (dec_str n)) eqn:E; [|reflexivity].
    exfalso. pose proof (parse_digits_dec_str n n ltac:(lia)) as E'.
    apply parse_digits_iff in E, E'. destruct E as (_ & E & L), E' as (_ & E' & _). lia.
Qed.

Lemma rtt_build_iff bits v n : rtt_build bits v = Some n <-> rtt_size v = Ok n /\ n < 2 ^ bits.
Proof.
  unfold rtt_build. split.
  - destruct (rtt_size v) as [m| | |] eqn:E; try discriminate. pose proof (rtt_size_range v m E) as R.
    rewrite rustc_reads by lia. destruct (Z.leb_spec m (2 ^ bits - 1)); [|discriminate].
    intros Q. injection Q as <-. split; [reflexivity|lia].
  - intros [E L]. rewrite E. pose proof (rtt_size_range v n E) as R. rewrite rustc_reads by lia.
    destruct (Z.leb_spec n (2 ^ bits - 1)); [reflexivity|lia].
Qed.

(* ------------------------------------------------------------------ *)
(** * Targets *)

Lemma prefix_dash p arch rest : ~ In 45 p -> ~ In 45 arch ->
  (exists r, strip_prefix (p ++ [45]) (arch ++ 45 :: rest) = Some r) <-> p = arch.
Proof.
  revert arch. induction p as [|x p IH]; intros arch Np Na.
  - cbn [app]. split.
    + intros (r & H). destruct arch as [|y arch]; [reflexivity|]. cbn [app strip_prefix] in H.
      destruct (Z.eqb_spec 45 y); [|discriminate]. exfalso. apply Na. left. auto.
    + intros <-. cbn. eauto.
  - split.
    + intros (r & H). destruct arch as [|y arch]; cbn [app strip_prefix] in H.
      * destruct (Z.eqb_spec x 45); [|discriminate]. exfalso. apply Np. left. auto.
      * destruct (Z.eqb_spec x y); [|discriminate]. subst y. f_equal.
        apply IH; [intros H1; apply Np; right; exact H1|intros H1; apply Na; right; exact H1|eauto].
    + intros <-. change ((x :: p) ++ 45 :: rest) with ((x :: p) ++ [45] ++ rest). rewrite app_assoc.
      rewrite strip_prefix_app. eauto.
Qed.

Lemma prefix_arch p arch rest : ~ In 45 p -> (exists r, strip_prefix p (arch ++ 45 :: rest) = Some r) <-> exists r, arch = p ++ r.
Proof.
  revert arch. induction p as [|x p IH]; intros arch Np.
  - cbn. split; intros _; eauto.
  - split.
    + intros (r & H). destruct arch as [|y arch]; cbn [app strip_prefix] in H.
      * destruct (Z.eqb_spec x 45); [|discriminate]. exfalso. apply Np. left. auto.
      * destruct (Z.eqb_spec x y); [|discriminate]. subst y.
        destruct (proj1 (IH arch (fun H1 => Np (or_intror H1))) (ex_intro _ r H)) as (r' & ->).
        exists r'. reflexivity.
    + intros (r & ->). rewrite <- app_assoc, strip_prefix_app. eauto.
Qed.

(** The architectures with a usage fault exception, and those of Cortex-M at all. *)
Definition has_usage_fault (arch : bytes) : Prop :=
  In arch [lit "thumbv7m"; lit "thumbv7em"] \/ exists r, arch = lit "thumbv8m.main" ++ r.
Definition is_cortex_m (arch : bytes) : Prop :=
  arch = lit "thumbv6m" \/ has_usage_fault arch \/ exists r, arch = lit "thumbv8m.base" ++ r.

Lemma no_dash p : existsb (fun c => c =? 45) p = false -> ~ In 45 p.
Proof.
  intros H I1. assert (existsb (fun c => c =? 45) p = true) by (apply existsb_exists; exists 45; auto). congruence.
Qed.

Lemma probe_targets arch rest : ~ In 45 arch ->
  (probe_compiles (arch ++ 45 :: rest) = true <-> is_cortex_m arch) /\
  (is_cortex_m arch -> (probe_usage_fault (arch ++ 45 :: rest) = true <-> has_usage_fault arch)).
Proof.
  intros Na. unfold probe_compiles, probe_usage_fault, probe_cfgs. cbv zeta.
  assert (D : forall p, existsb (fun c => c =? 45) p = false ->
    (exists r, strip_prefix (p ++ [45]) (arch ++ 45 :: rest) = Some r) <-> p = arch).
  { intros p Np. apply prefix_dash; [apply no_dash, Np|exact Na]. }
  assert (V : forall p, existsb (fun c => c =? 45) p = false ->
    (exists r, strip_prefix p (arch ++ 45 :: rest) = Some r) <-> exists r, arch = p ++ r).
  { intros p Np. apply prefix_arch, no_dash, Np. }
  pose proof (D (lit "thumbv6m") eq_refl) as D6. change (lit "thumbv6m" ++ [45]) with (lit "thumbv6m-") in D6.
  pose proof (D (lit "thumbv7m") eq_refl) as D7. change (lit "thumbv7m" ++ [45]) with (lit "thumbv7m-") in D7.
  pose proof (D (lit "thumbv7em") eq_refl) as D7e. change (lit "thumbv7em" ++ [45]) with (lit "thumbv7em-") in D7e.
  pose proof (V (lit "thumbv8m.base") eq_refl) as Vb. pose proof (V (lit "thumbv8m.main") eq_refl) as Vm.
  clear D V. unfold is_cortex_m, has_usage_fault. cbn [In].
  destruct (strip_prefix (lit "thumbv6m-") (arch ++ 45 :: rest)) as [r|].
  { destruct (proj1 D6 (ex_intro _ r eq_refl)). split; [split; [auto 9|reflexivity]|]. intros _. split; [discriminate|].
    intros [[H|[H|[]]]|(q & H)]; discriminate. }
  destruct (strip_prefix (lit "thumbv7m-") (arch ++ 45 :: rest)) as [r|].
  { destruct (proj1 D7 (ex_intro _ r eq_refl)). split; [split; [auto 9|reflexivity]|]. intros _. split; [auto 9|reflexivity]. }
  destruct (strip_prefix (lit "thumbv7em-") (arch ++ 45 :: rest)) as [r|].
  { destruct (proj1 D7e (ex_intro _ r eq_refl)). split; [split; [auto 9|reflexivity]|]. intros _. split; [auto 9|reflexivity]. }
  assert (N6 : arch <> lit "thumbv6m") by (intros H; symmetry in H; apply D6 in H; destruct H; discriminate).
  assert (N7 : lit "thumbv7m" <> arch) by (intros H; apply D7 in H; destruct H; discriminate).
  assert (N7e : lit "thumbv7em" <> arch) by (intros H; apply D7e in H; destruct H; discriminate).
  destruct (strip_prefix (lit "thumbv8m.base") (arch ++ 45 :: rest)) as [r|].
  { destruct (proj1 Vb (ex_intro _ r eq_refl)) as (q & ->). split; [split; [eauto 9|reflexivity]|]. intros _. split; [discriminate|].
    intros [[H|[H|[]]]|(q' & H)]; try contradiction. discriminate. }
  destruct (strip_prefix (lit "thumbv8m.main") (arch ++ 45 :: rest)) as [r|].
  { destruct (proj1 Vm (ex_intro _ r eq_refl)) as (q & ->). split; [split; [eauto 9|reflexivity]|]. intros _. split; [eauto 9|reflexivity]. }
  assert (Nb : ~ exists r, arch = lit "thumbv8m.base" ++ r) by (intros H; apply Vb in H; destruct H; discriminate).
  assert (Nm : ~ exists r, arch = lit "thumbv8m.main" ++ r) by (intros H; apply Vm in H; destruct H; discriminate).
  split; [split; [discriminate|]|]; tauto.
Qed.

(* ------------------------------------------------------------------ *)
(** * The linker script *)

Lemma remove_first_spec from s : from <> [] ->
  (exists a b, s = a ++ from ++ b /\ remove_first from s = a ++ b /\
     forall a' b', s = a' ++ from ++ b' -> (length a <= length a')%nat) \/
  ((forall a b, s <> a ++ from ++ b) /\ remove_first from s = s).
Proof.
  intros N. induction s as [|c s IH]; cbn [remove_first].
  - destruct from as [|x f]; [congruence|]. cbn [strip_prefix]. right. split; [|reflexivity].
    intros a b H. destruct a; discriminate.
  - destruct (strip_prefix from (c :: s)) as [r|] eqn:E.
    + left. exists [], r. split; [apply strip_prefix_some in E; exact E|]. split; [reflexivity|]. cbn [length]. lia.
    + assert (H0 : forall b, c :: s <> from ++ b).
      { intros b H. rewrite H, strip_prefix_app in E. discriminate. }
      destruct IH as [(a & b & H1 & H2 & H3)|[H1 H2]].
      * left. exists (c :: a), b. split; [rewrite H1; reflexivity|]. split; [rewrite H2; reflexivity|].
        intros a' b' H. destruct a' as [|y a']; [destruct (H0 b' H)|]. cbn [app] in H. injection H as -> H.
        apply H3 in H. cbn [length]. lia.
      * right. split; [|rewrite H2; reflexivity]. intros a b H. destruct a as [|y a]; [destruct (H0 b H)|].
        cbn [app] in H. injection H as -> H. exact (H1 a b H).
Qed.

(** The commands of [LinkModel] as written. *)
Definition pattern_text (p : pattern) : bytes := fst p ++ (if snd p then lit "*" else []).
Definition written (c : command) : lstat :=
  match c with CMarker n => LMark n | CInput k ps => LInput k (map pattern_text ps) end.
Fixpoint provide (cmds : list lcmd) (name : bytes) : option bytes :=
  match cmds with
  | [] => None
  | LProvide n t :: cmds' => if beq name n then Some t else provide cmds' name
  | _ :: cmds' => provide cmds' name
  end.

Definition full_script (ft : features) : list lcmd :=
  [LExtern (lit "_defmt_acquire"); LExtern (lit "_defmt_release"); LExtern (lit "__defmt_default_timestamp");
   LExtern (lit "__DEFMT_MARKER_TIMESTAMP_WAS_DEFINED"); LProvide (lit "_defmt_timestamp") default_timestamp] ++
  (if feat_avoid_default_panic ft then [] else [LProvide (lit "_defmt_panic") default_panic]) ++
  [LSections (lit ".defmt") 1 (lit "INFO") (LSet 1 :: map written script);
   LAssert end_marker 65534 (lit ".defmt section cannot contain more than 65534 interned strings")].

Lemma script_read ft : read_script (built_script ft script_file) = Some (full_script ft).
Proof. destruct ft as [r z []]; vm_compute; reflexivity. Qed.

Lemma script_provides ft name : provide (full_script ft) name = provided ft name.
Proof.
  unfold full_script, provided. destruct (feat_avoid_default_panic ft); cbn [app provide].
  - destruct (beq name (lit "_defmt_timestamp")); [reflexivity|]. rewrite andb_false_r. reflexivity.
  - destruct (beq name (lit "_defmt_timestamp")); [reflexivity|]. rewrite andb_true_r.
    destruct (beq name (lit "_defmt_panic")); reflexivity.
Qed.
