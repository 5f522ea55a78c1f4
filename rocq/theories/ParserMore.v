(** Strict versus forwards-compatible parsing; exactly when the parser panics. *)
From Verif Require Import Base ParserModel ParserProofs.

(* ------------------------------------------------------------------ *)
(** * The two modes *)

Definition has_unknown (h : bytes) (fs : list fragment) : Prop :=
  exists p, In (FParam p) fs /\ p_hint p = Some (HUnknown h).

Lemma parse_param_sim : forall s,
  parse_param s Strict = parse_param s ForwardsCompatible \/
  exists h p, parse_param s Strict = Err (UnknownDisplayHint h) /\
              parse_param s ForwardsCompatible = Ok p /\ pr_hint p = Some (HUnknown h).
Proof.
  intro s. unfold parse_param. cbv zeta.
  match goal with |- context [bind ?x _] => destruct x as [idx| | |]; cbn [bind]; auto end.
  match goal with |- context [bind ?x _] => destruct x as [[t r]| | |]; cbn [bind]; auto end.
  unfold parse_hint_part. destruct (strip_prefix (lit ":") r) as [[|c h]|]; auto.
  destruct (parse_hint (c :: h)) eqn:E; auto.
  right. exists (c :: h), (Param idx t (Some (HUnknown (c :: h)))). cbn [bind pr_hint]. auto.
Qed.

Lemma at_param_sim : forall s pos rest st,
  at_param Strict s pos rest st = at_param ForwardsCompatible s pos rest st \/
  exists h st', at_param Strict s pos rest st = Err (UnknownDisplayHint h) /\
     at_param ForwardsCompatible s pos rest st = Ok st' /\ has_unknown h (fst (fst st')).
Proof.
  intros s pos rest [[fs e] n]. unfold at_param.
  match goal with |- context [bind ?x _] => destruct x as [fs1| | |]; cbn [bind]; auto end.
  destruct (position (fun c => c =? 125) rest) as [len|]; auto.
  destruct (parse_param_sim (firstn len rest)) as [E|(h & p & E1 & E2 & E3)].
  - rewrite E. auto.
  - rewrite E1, E2. cbn [bind]. right. destruct p as [i t hh]. cbn [pr_index pr_ty pr_hint] in *. subst hh.
    destruct i as [i|].
    + exists h. eexists. split; [reflexivity|]. split; [reflexivity|]. cbn [fst].
      eexists. split; [apply in_or_app; right; left; reflexivity|reflexivity].
    + exists h. eexists. split; [reflexivity|]. split; [reflexivity|]. cbn [fst].
      eexists. split; [apply in_or_app; right; left; reflexivity|reflexivity].
Qed.

Lemma at_param_grows : forall m s pos rest st st' f, at_param m s pos rest st = Ok st' ->
  In f (fst (fst st)) -> In f (fst (fst st')).
Proof.
  intros m s pos rest [[fs e] n] [[fs' e'] n'] f H I. cbn [fst] in *.
  apply at_param_inv in H as (len & p & fs1 & A & B & C & D & E & F). subst fs'.
  apply in_or_app. left. destruct ((e <? pos)%nat).
  - apply push_literal_inv in A as (-> & _). apply in_or_app. auto.
  - inversion A; subst. auto.
Qed.

Lemma scan_grows : forall m s rest pos st st' f, scan m s rest pos st = Ok st' ->
  In f (fst (fst st)) -> In f (fst (fst st')).
Proof.
  intros m s rest pos st st' f H I.
  apply (scan_ind m s (fun st => In f (fst (fst st)))) with (rest := rest) (pos := pos) (st := st); auto.
  intros pos1 rest1 st1 st1' H1. eapply at_param_grows; eauto.
Qed.

(** Strict mode stopped at the unknown hint [h]; if forwards-compatible mode got
    through, its result records [h]. *)
Definition stopped {A} (frags : A -> list fragment) (h : bytes) (strict fc : outcome perr A) : Prop :=
  strict = Err (UnknownDisplayHint h) /\ forall x, fc = Ok x -> has_unknown h (frags x).

Lemma scan_sim : forall s n rest, (length rest <= n)%nat -> forall pos st,
  scan Strict s rest pos st = scan ForwardsCompatible s rest pos st \/
  exists h, stopped (fun st : scan_state => fst (fst st)) h
              (scan Strict s rest pos st) (scan ForwardsCompatible s rest pos st).
Proof.
  intros s. induction n as [|n IH]; intros rest Hn pos st; destruct rest as [|c r]; cbn [length] in Hn;
    try lia; cbn [scan]; auto.
  destruct (negb (c =? 123)). { apply IH. lia. }
  assert (K : (length r <= n)%nat ->
    (st' <- at_param Strict s pos r st ;; scan Strict s r (S pos) st') =
    (st' <- at_param ForwardsCompatible s pos r st ;; scan ForwardsCompatible s r (S pos) st') \/
    exists h, stopped (fun st : scan_state => fst (fst st)) h
      (st' <- at_param Strict s pos r st ;; scan Strict s r (S pos) st')
      (st' <- at_param ForwardsCompatible s pos r st ;; scan ForwardsCompatible s r (S pos) st')).
  { intro L. destruct (at_param_sim s pos r st) as [E|(h & st1 & E1 & E2 & E3)].
    - rewrite E. destruct (at_param ForwardsCompatible s pos r st); cbn [bind]; auto.
    - right. exists h. rewrite E1, E2. cbn [bind]. split; auto. intros x Hx.
      destruct E3 as (p & Hp & Eh). exists p. split; auto. eapply scan_grows; eauto. }
  destruct r as [|c2 r2]. { apply K. lia. }
  cbn [length] in Hn. destruct (c2 =? 123). { apply IH. lia. }
  apply K. cbn [length]. lia.
Qed.

Lemma parse_sim : forall s,
  parse s Strict = parse s ForwardsCompatible \/
  exists h, stopped (fun fs => fs) h (parse s Strict) (parse s ForwardsCompatible).
Proof.
  intro s. unfold parse.
  destruct (scan_sim s (length s) s (le_n _) 0%nat ([], 0%nat, 0)) as [E|(h & E1 & E2)].
  - rewrite E. auto.
  - right. exists h. rewrite E1. cbn [bind]. split; auto. intros fs H.
    apply bind_ok in H as ([[fs0 e] n] & H1 & H).
    apply bind_ok in H as (fs1 & H2 & H).
    apply bind_ok in H as ([args len] & H3 & H).
    apply bind_ok in H as ([] & H4 & H). inversion H; subst.
    specialize (E2 _ H1). cbn [fst] in E2. destruct E2 as (p & Hp & Eh). exists p. split; auto.
    destruct ((e =? length s)%nat).
    + inversion H2; subst. auto.
    + apply push_literal_inv in H2 as (-> & _). apply in_or_app. auto.
Qed.

Lemma strict_implies_fc : forall s fs, parse s Strict = Ok fs -> parse s ForwardsCompatible = Ok fs.
Proof.
  intros s fs H. destruct (parse_sim s) as [E|(h & E1 & E2)]; congruence.
Qed.

Lemma fc_strict : forall s fs, parse s ForwardsCompatible = Ok fs ->
  parse s Strict = Ok fs \/
  exists h, parse s Strict = Err (UnknownDisplayHint h) /\ has_unknown h fs.
Proof.
  intros s fs H. destruct (parse_sim s) as [E|(h & E1 & E2)].
  - left. congruence.
  - right. exists h. auto.
Qed.

(* ------------------------------------------------------------------ *)
(** * Panics *)

(** A string [r] that cannot be cut after two bytes. *)
Definition cut2_bad (r : bytes) : Prop :=
  match r with
  | [] | [_] => True
  | [_; _] => False
  | _ :: _ :: c :: _ => 128 <= c < 192
  end.

Lemma cut2_boundary : forall ds r, is_char_boundary (ds ++ r) (length ds + 2) = false <-> cut2_bad r.
Proof.
  intros ds r. unfold is_char_boundary. rewrite app_length.
  rewrite nth_error_app2 by lia. replace (length ds + 2 - length ds)%nat with 2%nat by lia.
  destruct r as [|a [|b [|c r]]]; cbn [length cut2_bad nth_error].
  - destruct (Nat.eqb_spec (length ds + 2) (length ds + 0)); [lia|]. tauto.
  - destruct (Nat.eqb_spec (length ds + 2) (length ds + 1)); [lia|]. tauto.
  - rewrite Nat.eqb_refl. split; [discriminate|contradiction].
  - destruct (Nat.eqb_spec (length ds + 2) (length ds + S (S (S (length r))))); [lia|].
    rewrite negb_false_iff, andb_true_iff, Z.leb_le, Z.ltb_lt. tauto.
Qed.

Definition all_digits (s : bytes) : Prop := Forall (fun c => is_digit c = true) s.
Definition no_digit_first (s : bytes) : Prop := match s with c :: _ => is_digit c = false | [] => True end.

Lemma digits_exact : forall a r, all_digits a -> no_digit_first r -> digits (a ++ r) = length a.
Proof. intros a r H1 H2. apply digits_app; auto. Qed.

Lemma digits_split : forall s, exists a r, s = a ++ r /\ all_digits a /\ no_digit_first r /\ digits s = length a.
Proof.
  induction s as [|c s (a & r & E & A & B & D)].
  - exists [], []. cbn. repeat split; constructor.
  - destruct (is_digit c) eqn:Ec.
    + exists (c :: a), r. cbn [app digits length]. rewrite Ec. subst s. repeat split; auto. constructor; auto.
    + exists [], (c :: s). cbn [app digits length]. rewrite Ec. repeat split; auto. constructor.
Qed.

Lemma parse_range_panic : forall s, parse_range s = Panic <->
  exists ds r, s = ds ++ r /\ all_digits ds /\ ds <> [] /\ dec_value 0 ds <= 255 /\ no_digit_first r /\ cut2_bad r.
Proof.
  intro s. split.
  - intro H. unfold parse_range in H. cbv zeta in H.
    destruct (digits_split s) as (a & r & E & A & B & D). rewrite D in H. subst s.
    rewrite firstn_app_exact in H.
    destruct (parse_digits 255 a) as [st|] eqn:P; try discriminate.
    destruct (negb (is_char_boundary (a ++ r) (length a + 2))) eqn:BD.
    + apply negb_true_iff in BD. apply cut2_boundary in BD.
      exists a, r. unfold parse_digits in P. destruct a as [|c a]; try discriminate. cbv zeta in P.
      destruct (Z.leb_spec (dec_value 0 (c :: a)) 255); try discriminate. repeat split; auto. discriminate.
    + destruct (negb (beq _ _)); try discriminate.
      match type of H with context [parse_digits 255 ?x] => destruct (parse_digits 255 x); try discriminate end.
      destruct (_ || _); discriminate.
  - intros (ds & r & E & A & NE & V & B & C). subst s. unfold parse_range. cbv zeta.
    rewrite digits_exact by auto. rewrite firstn_app_exact.
    unfold parse_digits. destruct ds as [|c ds]; [congruence|]. cbv zeta.
    destruct (Z.leb_spec (dec_value 0 (c :: ds)) 255); [|lia].
    apply (cut2_boundary (c :: ds)) in C. rewrite C. reflexivity.
Qed.

Lemma type_from_str_digit : forall c r, is_digit c = true -> type_from_str (c :: r) = None.
Proof.
  intros c r H. unfold is_digit in H. unfold type_from_str.
  assert (B : forall x y, (x < 48 \/ 57 < x) -> beq (c :: r) (x :: y) = false).
  { intros x y Hx. apply beq_false. intro X. inversion X. lia. }
  repeat match goal with |- context [beq (c :: r) ?l] =>
    let l' := eval vm_compute in l in change l with l'; rewrite B by lia end.
  reflexivity.
Qed.

Lemma parse_type_panic : forall i s, parse_type i s = Panic <-> parse_range s = Panic.
Proof.
  intros i s. split; intro H.
  - unfold parse_type in H. destruct (type_from_str s); try discriminate.
    destruct (strip_prefix (lit "[u8;") s).
    { apply bind_panic in H as [H|(n & _ & H)]; try discriminate. apply parse_array_no_fuel in H; contradiction. }
    destruct (strip_prefix (lit "[?;") s).
    { apply bind_panic in H as [H|(n & _ & H)]; try discriminate. apply parse_array_no_fuel in H; contradiction. }
    apply bind_panic in H as [H|(r & _ & H)]; auto.
    destruct r as [[[? ?] ?]|]; try discriminate. destruct (negb (n =? length s)%nat); discriminate.
  - unfold parse_type.
    assert (N : exists c r, s = c :: r /\ is_digit c = true).
    { apply parse_range_panic in H as (ds & r & E & A & NE & _). destruct ds as [|c ds]; [congruence|].
      inversion A; subst. exists c, (ds ++ r). auto. }
    destruct N as (c & r & -> & Hc). rewrite type_from_str_digit by auto.
    assert (X : forall p, strip_prefix (91 :: p) (c :: r) = None).
    { intro p. cbn [strip_prefix]. unfold is_digit in Hc. destruct (Z.eqb_spec 91 c); auto. lia. }
    change (lit "[u8;") with [91; 117; 56; 59]. change (lit "[?;") with [91; 63; 59]. rewrite !X, H. reflexivity.
Qed.

(** A parameter makes the parser panic exactly when it has the form
    [index = digits r] with a number of at most 255 and an [r] (up to the hint)
    that cannot be cut after two bytes. *)
Definition panicking_param (s : bytes) : Prop :=
  exists ix ds r tail,
    s = ix ++ lit "=" ++ (ds ++ r) ++ tail /\
    all_digits ix /\ dec_value 0 ix <= usize_max /\
    all_digits ds /\ ds <> [] /\ dec_value 0 ds <= 255 /\
    no_digit_first r /\ cut2_bad r /\ ~ In 58 r /\ (tail = [] \/ exists h, tail = 58 :: h).

Lemma strip_prefix_some : forall p s r, strip_prefix p s = Some r -> s = p ++ r.
Proof.
  induction p as [|x p IH]; intros s r H; cbn [strip_prefix] in H.
  - inversion H; auto.
  - destruct s as [|y s]; try discriminate. destruct (Z.eqb_spec x y); try discriminate.
    subst. cbn [app]. f_equal. auto.
Qed.

Lemma split_type_spec : forall s, let '(a, b) := split_type s in
  s = a ++ b /\ ~ In 58 a /\ (b = [] \/ exists h, b = 58 :: h).
Proof.
  intro s. unfold split_type. destruct (position (fun c => c =? 58) s) as [n|] eqn:E.
  - apply position_some in E as (L & B & x & r & A & C). repeat split.
    + symmetry. apply firstn_skipn.
    + rewrite Forall_forall in B. intro X. apply B in X. cbn in X. discriminate.
    + right. exists r. rewrite A. f_equal. apply Z.eqb_eq. exact C.
  - apply position_none in E. repeat split; auto.
    + symmetry. apply app_nil_r.
    + rewrite Forall_forall in E. intro X. apply E in X. cbn in X. discriminate.
Qed.

Lemma digit_not_colon : forall ds, all_digits ds -> ~ In 58 ds.
Proof. intros ds H X. unfold all_digits in H. rewrite Forall_forall in H. apply H in X. discriminate. Qed.

Lemma parse_param_panic : forall s m, parse_param s m = Panic <-> panicking_param s.
Proof.
  intros s m. split.
  - intro H. unfold parse_param in H. cbv zeta in H.
    destruct (digits_split s) as (ix & r0 & E & A & B & D). rewrite D in H. subst s.
    rewrite firstn_app_exact, skipn_app_exact in H.
    apply bind_panic in H as [H|(idx & H0 & H)].
    { destruct ((length ix =? 0)%nat); try discriminate. destruct (parse_digits usize_max ix); discriminate. }
    apply bind_panic in H as [H|([t rr] & _ & H)].
    2: { apply bind_panic in H as [H|(h & _ & H)]; try discriminate. unfold parse_hint_part in H.
         destruct (strip_prefix (lit ":") rr) as [[|]|]; try discriminate; [|destruct rr; discriminate].
         destruct (parse_hint _); try discriminate. destruct m; discriminate. }
    destruct (strip_prefix (lit "=") r0) as [x|] eqn:SP; try discriminate.
    apply strip_prefix_some in SP. pose proof (split_type_spec x) as ST. destruct (split_type x) as [tf tail].
    destruct ST as (S1 & S2 & S3).
    apply bind_panic in H as [H|(t & _ & H)]; try discriminate.
    apply parse_type_panic, parse_range_panic in H as (ds & r & E & P1 & P2 & P3 & P4 & P5). subst tf.
    exists ix, ds, r, tail. repeat split; auto.
    + rewrite SP, S1. reflexivity.
    + destruct ix as [|c ix]; [cbn; unfold usize_max; lia|]. cbn [length Nat.eqb] in H0.
      unfold parse_digits in H0. cbv zeta in H0. destruct (Z.leb_spec (dec_value 0 (c :: ix)) usize_max); auto. discriminate.
    + intro X. apply S2. apply in_or_app. auto.
  - intros (ix & ds & r & tail & E & A & V & A2 & NE & V2 & B & C & NC & T). subst s.
    unfold parse_param. cbv zeta.
    rewrite digits_exact by (auto; reflexivity). rewrite firstn_app_exact, skipn_app_exact.
    assert (IX : exists o, (if (length ix =? 0)%nat then Ok None
      else match parse_digits usize_max ix with Some i => Ok (Some i) | None => Err InvalidInteger end) =
      (Ok o : outcome perr (option Z))).
    { destruct ix as [|c ix]; [eexists; reflexivity|]. cbn [length Nat.eqb]. unfold parse_digits. cbv zeta.
      destruct (Z.leb_spec (dec_value 0 (c :: ix)) usize_max); [eexists; reflexivity|lia]. }
    destruct IX as [o ->]. cbn [bind]. rewrite strip_prefix_app. cbv iota beta.
    assert (ST : split_type ((ds ++ r) ++ tail) = (ds ++ r, tail)).
    { unfold split_type.
      assert (F : Forall (fun c => (c =? 58) = false) (ds ++ r)).
      { rewrite Forall_forall. intros c Hc. destruct (Z.eqb_spec c 58); auto. subst.
        apply in_app_iff in Hc as [Hc|Hc]; [apply digit_not_colon in Hc; auto; contradiction|contradiction]. }
      destruct T as [->|(h & ->)].
      - rewrite app_nil_r. apply position_none in F. rewrite F. reflexivity.
      - rewrite position_app by auto. rewrite firstn_app_exact, skipn_app_exact. reflexivity. }
    rewrite ST. cbn [bind].
    assert (parse_type ((ds ++ r) ++ tail) (ds ++ r) = Panic) as ->; [|reflexivity].
    apply parse_type_panic, parse_range_panic. exists ds, r. auto 10.
Qed.

(** A condition on the text under which the parser does not panic: every [=] that is
    followed by a number is followed by a range [..], and no number after an opening
    brace is [usize::MAX]. *)
Definition ranges_complete (s : bytes) : Prop :=
  forall a ds r, s = a ++ 61 :: ds ++ r -> all_digits ds -> ds <> [] -> no_digit_first r ->
    exists r', r = lit ".." ++ r' /\ match r' with c :: _ => ~ (128 <= c < 192) | [] => True end.

Definition indices_small (s : bytes) : Prop :=
  forall a ds r, s = a ++ 123 :: ds ++ r -> all_digits ds -> ds <> [] -> no_digit_first r ->
    dec_value 0 ds <> usize_max.

Lemma no_panicking_param : forall s a body b, ranges_complete s -> s = a ++ body ++ b ->
  (match b with c :: _ => c = 125 | [] => True end) -> ~ panicking_param body.
Proof.
  intros s a body b R E Hb (ix & ds & r & tail & E2 & A & V & A2 & NE & V2 & B & C & NC & T).
  assert (ND : no_digit_first (r ++ tail ++ b)).
  { destruct r; [|exact B]. destruct T as [->|(h & ->)]; [|reflexivity]. destruct b; [exact I|]. subst. reflexivity. }
  destruct (R (a ++ ix) ds (r ++ tail ++ b)) as (r' & E3 & E4); auto.
  { rewrite E, E2. change (lit "=") with [61]. rewrite <- !app_assoc. reflexivity. }
  destruct r as [|x [|y [|z r]]]; cbn [cut2_bad] in C; try contradiction.
  - cbn [app] in E3. destruct T as [->|(h & ->)]; [|discriminate]. destruct b; [discriminate|]. subst. discriminate.
  - cbn [app] in E3. inversion E3. destruct T as [->|(h & ->)]; [|discriminate]. destruct b; [discriminate|]. subst. discriminate.
  - cbn [app] in E3. inversion E3; subst. contradiction.
Qed.

Lemma at_param_panic : forall m s pos rest st, at_param m s pos rest st = Panic ->
  exists len, position (fun c => c =? 125) rest = Some len /\ panicking_param (firstn len rest).
Proof.
  intros m s pos rest [[fs e] n] H. unfold at_param in H.
  apply bind_panic in H as [H|(fs1 & _ & H)].
  { destruct ((e <? pos)%nat); try discriminate.
    destruct (push_literal_shape fs (slice s e pos)) as [[x E]|[x E]]; rewrite E in H; discriminate. }
  destruct (position (fun c => c =? 125) rest) as [len|]; try discriminate.
  apply bind_panic in H as [H|(p & _ & H)].
  - apply parse_param_panic in H. eauto.
  - destruct (pr_index p); discriminate.
Qed.

Definition small_frag (f : fragment) : Prop :=
  match f with FLit _ => True | FParam p => p_index p <> usize_max end.

Lemma at_param_small : forall m s pos rest fs e n fs' e' n',
  indices_small s -> (exists a, s = a ++ 123 :: rest) -> 0 <= n < usize_max ->
  at_param m s pos rest (fs, e, n) = Ok (fs', e', n') -> Forall small_frag fs ->
  Forall small_frag fs' /\ n <= n' <= n + 1.
Proof.
  intros m s pos rest fs e n fs' e' n' IS (a & E) Hn H F.
  apply at_param_inv in H as (len & p & fs1 & A & B & C & D & E2 & E3).
  assert (F1 : Forall small_frag fs1).
  { destruct ((e <? pos)%nat).
    - apply push_literal_inv in A as (-> & _). apply Forall_app. split; auto. repeat constructor.
    - inversion A; subst; auto. }
  split.
  - subst fs'. apply Forall_app. split; auto. constructor; auto. cbn [small_frag p_index].
    destruct (pr_index p) as [i|] eqn:Ei; [|lia].
    unfold parse_param in C. cbv zeta in C. apply bind_ok in C as (idx & C1 & C).
    apply bind_ok in C as ([t r] & C2 & C). apply bind_ok in C as (h & C3 & C). inversion C; subst p.
    cbn [pr_index] in Ei. subst idx.
    destruct (digits_split (firstn len rest)) as (ds & r1 & D1 & D2 & D3 & D4). rewrite D4, D1, firstn_app_exact in C1.
    destruct ((length ds =? 0)%nat) eqn:L0; try discriminate.
    destruct (parse_digits usize_max ds) as [v|] eqn:P; inversion C1; subst v.
    unfold parse_digits in P. destruct ds as [|c ds]; [discriminate|]. cbv zeta in P.
    destruct (Z.leb_spec (dec_value 0 (c :: ds)) usize_max); inversion P; subst i.
    destruct (position_some _ _ _ B) as (_ & _ & x & rr & P1 & P3).
    apply (IS a (c :: ds) (r1 ++ skipn len rest)).
    + rewrite E, app_assoc, <- D1, firstn_skipn. reflexivity.
    + exact D2.
    + discriminate.
    + destruct r1; [|exact D3]. cbn [app]. rewrite P1. cbn. apply Z.eqb_eq in P3. subst x. reflexivity.
  - subst n'. destruct (pr_index p); lia.
Qed.

Lemma scan_no_panic : forall m s, ranges_complete s -> indices_small s ->
  forall k rest, (length rest <= k)%nat -> forall a pos fs e n, s = a ++ rest ->
  0 <= n -> n + Z.of_nat (length rest) < usize_max -> Forall small_frag fs ->
  scan m s rest pos (fs, e, n) <> Panic /\
  forall fs' e' n', scan m s rest pos (fs, e, n) = Ok (fs', e', n') -> Forall small_frag fs'.
Proof.
  intros m s RC IS. induction k as [|k IH]; intros rest Hk a pos fs e n E Hn Hl F;
    destruct rest as [|c r]; cbn [length] in Hk, Hl; try lia; cbn [scan].
  - split; [discriminate|]. intros fs' e' n' H. inversion H; subst; auto.
  - split; [discriminate|]. intros fs' e' n' H. inversion H; subst; auto.
  - assert (Er : s = (a ++ [c]) ++ r) by (rewrite <- app_assoc; exact E).
    destruct (Z.eqb_spec c 123) as [->|Hc]; cbn [negb]; [|apply (IH r ltac:(lia) (a ++ [c])); auto; lia].
    assert (K : (st' <- at_param m s pos r (fs, e, n) ;; scan m s r (S pos) st') <> Panic /\
      forall fs' e' n', (st' <- at_param m s pos r (fs, e, n) ;; scan m s r (S pos) st') = Ok (fs', e', n') ->
        Forall small_frag fs').
    { split.
      - intro H. apply bind_panic in H as [H|([[fs1 e1] n1] & H1 & H)].
        + apply at_param_panic in H as (len & P1 & P2).
          destruct (position_some _ _ _ P1) as (_ & _ & x & rr & Q1 & Q3).
          eapply (no_panicking_param s (a ++ [123]) (firstn len r) (skipn len r)); eauto.
          * rewrite firstn_skipn. exact Er.
          * rewrite Q1. apply Z.eqb_eq in Q3. exact Q3.
        + destruct (at_param_small m s pos r fs e n fs1 e1 n1) as [G1 G2]; auto; [eauto|lia|].
          destruct (IH r ltac:(lia) (a ++ [123]) (S pos) fs1 e1 n1) as [G3 _]; auto; lia.
      - intros fs' e' n' H. apply bind_ok in H as ([[fs1 e1] n1] & H1 & H).
        destruct (at_param_small m s pos r fs e n fs1 e1 n1) as [G1 G2]; auto; [eauto|lia|].
        destruct (IH r ltac:(lia) (a ++ [123]) (S pos) fs1 e1 n1) as [_ G3]; auto; [lia|lia|]. eapply G3; eauto. }
    destruct r as [|c2 r2]; [exact K|].
    cbn [length] in Hk, Hl. destruct (Z.eqb_spec c2 123) as [->|]; [|exact K].
    apply (IH r2 ltac:(lia) (a ++ [123; 123])); auto; [|lia]. rewrite <- app_assoc. exact E.
Qed.

Lemma check_types_no_panic : forall fs args len, Forall small_frag fs -> check_types fs args len <> Panic.
Proof.
  induction fs as [|[s|p] fs IH]; intros args len F; cbn [check_types]; try discriminate; inversion F; subst; auto.
  cbn [small_frag] in H1. destruct ((len <=? p_index p) && (p_index p =? usize_max)) eqn:E; [lia|]. cbv zeta.
  destruct (lookup_arg (p_index p) args); auto.
  destruct (is_bitfield t && is_bitfield (p_ty p)); auto.
  destruct (negb (ty_eqb t (p_ty p))); auto; discriminate.
Qed.

Lemma parse_no_panic : forall s m, ranges_complete s -> indices_small s ->
  Z.of_nat (length s) < usize_max ->
  (exists fs, parse s m = Ok fs) \/ (exists e, parse s m = Err e).
Proof.
  intros s m RC IS L.
  assert (NP : parse s m <> Panic).
  { intro H. unfold parse in H.
    destruct (scan_no_panic m s RC IS (length s) s (le_n _) [] 0%nat [] 0%nat 0 eq_refl) as [G1 G2]; auto; [lia|].
    apply bind_panic in H as [H|([[fs0 e] n] & H1 & H)]; [contradiction|].
    apply G2 in H1. apply bind_panic in H as [H|(fs1 & H2 & H)].
    { destruct ((e =? length s)%nat); try discriminate.
      destruct (push_literal_shape fs0 (skipn e s)) as [[x E]|[x E]]; rewrite E in H; discriminate. }
    apply bind_panic in H as [H|([args len] & _ & H)].
    { apply check_types_no_panic in H; auto. destruct ((e =? length s)%nat).
      - inversion H2; subst; auto.
      - apply push_literal_inv in H2 as (-> & _). apply Forall_app. split; auto. repeat constructor. }
    apply bind_panic in H as [H|([] & _ & H)]; try discriminate.
    unfold check_dense in H. cbv zeta in H. destruct (_ <? len); discriminate. }
  pose proof (parse_no_fuel s m). destruct (parse s m); eauto; contradiction.
Qed.
