From Verif Require Import Base ParserModel.

(* ------------------------------------------------------------------ *)
(** * Basic facts *)

Lemma bind_ok : forall E A B (r : outcome E A) (f : A -> outcome E B) b,
  bind r f = Ok b <-> exists a, r = Ok a /\ f a = Ok b.
Proof.
  intros E A B r f b. destruct r; cbn [bind]; split; intro H; eauto;
    try discriminate; destruct H as (a' & H1 & H2); inversion H1; subst; auto.
Qed.

Lemma bind_panic : forall E A B (r : outcome E A) (f : A -> outcome E B),
  bind r f = Panic <-> r = Panic \/ exists a, r = Ok a /\ f a = Panic.
Proof.
  intros E A B r f. destruct r; cbn [bind]; split; intro H; eauto;
    try (destruct H as [H|(a' & H1 & H2)]; try discriminate; inversion H1; subst; auto; fail);
    try discriminate.
Qed.

Lemma bind_err : forall E A B (r : outcome E A) (f : A -> outcome E B) e,
  bind r f = Err e <-> r = Err e \/ exists a, r = Ok a /\ f a = Err e.
Proof.
  intros E A B r f e0. destruct r; cbn [bind]; split; intro H; eauto;
    try (destruct H as [H|(a' & H1 & H2)]; try discriminate; inversion H1; subst; auto; fail);
    try discriminate; try congruence.
  left. congruence.
  destruct H as [H|(a' & H1 & H2)]; [congruence|discriminate].
Qed.

Lemma bind_nofuel : forall E A B (r : outcome E A) (f : A -> outcome E B),
  bind r f = NoFuel <-> r = NoFuel \/ exists a, r = Ok a /\ f a = NoFuel.
Proof.
  intros E A B r f. destruct r; cbn [bind]; split; intro H; eauto;
    try (destruct H as [H|(a' & H1 & H2)]; try discriminate; inversion H1; subst; auto; fail);
    try discriminate.
Qed.

Lemma width_eqb_eq : forall a b, width_eqb a b = true <-> a = b.
Proof. destruct a, b; cbn; split; congruence. Qed.

Lemma ty_eqb_eq : forall a b, ty_eqb a b = true <-> a = b.
Proof.
  intros a b. split.
  - intro H. destruct a, b; cbn [ty_eqb] in H; try discriminate; try reflexivity;
      try (apply width_eqb_eq in H; subst; reflexivity);
      try (apply Z.eqb_eq in H; subst; reflexivity).
    apply andb_prop in H as [H1 H2]. apply Z.eqb_eq in H1, H2. subst. reflexivity.
  - intro H. subst. destruct b; cbn [ty_eqb]; try reflexivity;
      rewrite ?Z.eqb_refl; try reflexivity; destruct w; reflexivity.
Qed.

Lemma is_digit_iff : forall c, is_digit c = true <-> 48 <= c <= 57.
Proof. intro c. unfold is_digit. lia. Qed.

Lemma digits_le : forall s, (digits s <= length s)%nat.
Proof.
  induction s as [|c s IH]; cbn [digits length]; [lia|]. destruct (is_digit c); lia.
Qed.

Lemma digits_firstn : forall s, Forall (fun c => is_digit c = true) (firstn (digits s) s).
Proof.
  induction s as [|c s IH]; cbn [digits firstn]; auto.
  destruct (is_digit c) eqn:E; cbn [firstn]; auto.
Qed.

Lemma digits_app : forall a r, Forall (fun c => is_digit c = true) a ->
  (match r with [] => True | c :: _ => is_digit c = false end) ->
  digits (a ++ r) = length a.
Proof.
  induction a as [|c a IH]; intros r Ha Hr; cbn [app digits length].
  - destruct r as [|c r]; cbn [digits]; auto. rewrite Hr. reflexivity.
  - inversion Ha; subst. rewrite H1. f_equal. auto.
Qed.

Lemma dec_value_app : forall a b acc, dec_value acc (a ++ b) = dec_value (dec_value acc a) b.
Proof. induction a as [|c a IH]; intros; cbn [app dec_value]; auto. Qed.

Lemma dec_value_nonneg : forall s acc, Forall (fun c => is_digit c = true) s -> 0 <= acc ->
  0 <= dec_value acc s.
Proof.
  induction s as [|c s IH]; intros acc H Ha; cbn [dec_value]; auto.
  inversion H; subst. apply is_digit_iff in H2. apply IH; auto. lia.
Qed.

Lemma parse_digits_some : forall max s v, parse_digits max s = Some v ->
  v = dec_value 0 s /\ v <= max /\ s <> [].
Proof.
  intros max s v H. unfold parse_digits in H. destruct s; try discriminate.
  cbv zeta in H. destruct (Z.leb_spec (dec_value 0 (z :: s)) max); inversion H; subst.
  repeat split; auto. discriminate.
Qed.

Lemma parse_digits_prefix_bound : forall max s v,
  parse_digits max (firstn (digits s) s) = Some v -> 0 <= v <= max.
Proof.
  intros max s v H. apply parse_digits_some in H as (H1 & H2 & H3).
  subst v. split; auto. apply dec_value_nonneg; [apply digits_firstn|lia].
Qed.

(* ------------------------------------------------------------------ *)
(** * Validity of parsed types and hints *)

(** Types that can come out of the parser. *)
Definition ty_valid (t : ty) : Prop :=
  match t with
  | TBitField lo hi => 0 <= lo /\ lo < hi /\ hi <= 128
  | TFormatArray n | TU8Array n => 0 <= n <= usize_max
  | _ => True
  end.

Lemma parse_range_valid : forall s lo hi used,
  parse_range s = Ok (Some ((lo, hi), used)) -> 0 <= lo /\ lo < hi /\ hi <= 128.
Proof.
  intros s lo hi used H. unfold parse_range in H. cbv zeta in H.
  destruct (parse_digits 255 (firstn (digits s) s)) as [st|] eqn:E1; try discriminate.
  destruct (negb (is_char_boundary s (digits s + 2))); try discriminate.
  destruct (negb (beq (firstn 2 (skipn (digits s) s)) (lit ".."))); try discriminate.
  match type of H with context [parse_digits 255 ?x] => destruct (parse_digits 255 x) as [en|] eqn:E2; try discriminate end.
  destruct ((en <=? st) || (128 <=? st) || (128 <? en)) eqn:E3; try discriminate.
  inversion H; subst. apply parse_digits_prefix_bound in E1, E2. lia.
Qed.

Lemma parse_array_valid : forall s n, parse_array s = Ok n -> 0 <= n <= usize_max.
Proof.
  intros s n H. unfold parse_array in H. cbv zeta in H.
  destruct (drop_while (fun c => c =? 32) s) as [|c s1] eqn:E; try discriminate.
  rewrite <- E in H. set (x := drop_while (fun c => c =? 32) s) in *. clearbody x. subst x.
  destruct (skipn (digits (c :: s1)) (c :: s1)) eqn:E1; try discriminate.
  destruct (parse_digits usize_max (firstn (digits (c :: s1)) (c :: s1))) eqn:E2; try discriminate.
  destruct (beq (z :: l) (lit "]")); inversion H; subst.
  apply parse_digits_prefix_bound in E2. auto.
Qed.

Lemma type_from_str_valid : forall s t, type_from_str s = Some t -> ty_valid t.
Proof.
  intros s t H. unfold type_from_str in H.
  repeat match type of H with
    | (if ?b then _ else _) = _ => destruct b; [inversion H; subst; exact I|]
    end. discriminate.
Qed.

Lemma parse_type_valid : forall i s t, parse_type i s = Ok t -> ty_valid t.
Proof.
  intros i s t H. unfold parse_type in H.
  destruct (type_from_str s) eqn:E; [inversion H; subst; eapply type_from_str_valid; eauto|].
  destruct (strip_prefix (lit "[u8;") s).
  { apply bind_ok in H as (n & H1 & H2). inversion H2; subst. apply parse_array_valid in H1. exact H1. }
  destruct (strip_prefix (lit "[?;") s).
  { apply bind_ok in H as (n & H1 & H2). inversion H2; subst. apply parse_array_valid in H1. exact H1. }
  apply bind_ok in H as (r & H1 & H2). destruct r as [[[lo hi] used]|]; try discriminate.
  destruct (negb (used =? length s)%nat); try discriminate.
  inversion H2; subst. apply parse_range_valid in H1. exact H1.
Qed.

Lemma parse_param_inv : forall s m p, parse_param s m = Ok p ->
  (forall i, pr_index p = Some i -> 0 <= i <= usize_max) /\ ty_valid (pr_ty p).
Proof.
  intros s m p H. unfold parse_param in H. cbv zeta in H.
  apply bind_ok in H as (idx & H1 & H).
  apply bind_ok in H as ([t rest] & H2 & H).
  apply bind_ok in H as (h & H3 & H). inversion H; subst. cbn [pr_index pr_ty].
  split.
  - intros i Hi. subst idx. destruct ((digits s =? 0)%nat); try discriminate.
    destruct (parse_digits usize_max (firstn (digits s) s)) eqn:E; inversion H1; subst.
    eapply parse_digits_prefix_bound; eauto.
  - destruct (strip_prefix (lit "=") (skipn (digits s) s)) as [x|].
    + destruct (split_type x) as [tf r]. apply bind_ok in H2 as (t' & H2 & H4).
      inversion H4; subst. eapply parse_type_valid; eauto.
    + inversion H2; subst. exact I.
Qed.

Definition frag_valid (f : fragment) : Prop :=
  match f with FLit _ => True | FParam p => 0 <= p_index p /\ ty_valid (p_ty p) end.

Lemma push_literal_inv : forall fs s fs', push_literal fs s = Ok fs' ->
  fs' = fs ++ [FLit (undouble 125 (undouble 123 s))] /\ scan_braces false false s = Ok tt.
Proof.
  intros fs s fs' H. unfold push_literal in H. apply bind_ok in H as ([] & H1 & H2).
  inversion H2; subst. auto.
Qed.

Lemma at_param_inv : forall m s pos rest fs e n fs' e' n',
  at_param m s pos rest (fs, e, n) = Ok (fs', e', n') ->
  exists len p fs1,
    (if (e <? pos)%nat then push_literal fs (slice s e pos) else Ok fs) = Ok fs1 /\
    position (fun c => c =? 125) rest = Some len /\
    parse_param (firstn len rest) m = Ok p /\
    fs' = fs1 ++ [FParam (MkParameter (match pr_index p with Some i => i | None => n end) (pr_ty p) (pr_hint p))] /\
    e' = (pos + 1 + len + 1)%nat /\
    n' = match pr_index p with Some _ => n | None => n + 1 end.
Proof.
  intros m s pos rest fs e n fs' e' n' H. unfold at_param in H.
  apply bind_ok in H as (fs1 & H1 & H).
  destruct (position (fun c => c =? 125) rest) as [len|]; try discriminate.
  apply bind_ok in H as (p & H2 & H).
  exists len, p, fs1. destruct (pr_index p) eqn:E; inversion H; subst; auto 10.
Qed.

(** Induction principle for successful scans: an invariant of the state that is
    preserved by every parameter. *)
Lemma scan_ind : forall m s (P : scan_state -> Prop),
  (forall pos rest st st', at_param m s pos rest st = Ok st' -> P st -> P st') ->
  forall rest pos st st', scan m s rest pos st = Ok st' -> P st -> P st'.
Proof.
  intros m s P Hstep rest.
  assert (G : forall n rest, (length rest <= n)%nat -> forall pos st st',
     scan m s rest pos st = Ok st' -> P st -> P st').
  { clear rest. induction n as [|n IH]; intros rest Hn pos st st' H HP.
    - destruct rest; cbn [length] in Hn; try lia. cbn [scan] in H. inversion H; subst. auto.
    - destruct rest as [|c rest1]; cbn [scan length] in *; [inversion H; subst; auto|].
      destruct (negb (c =? 123)). { eapply IH; eauto. lia. }
      destruct rest1 as [|c2 rest2].
      { apply bind_ok in H as (st1 & H1 & H2). eapply IH; try exact H2; eauto. cbn [length]. lia. }
      cbn [length] in Hn. destruct (c2 =? 123).
      { eapply IH; eauto. lia. }
      apply bind_ok in H as (st1 & H1 & H2). eapply IH; try exact H2; eauto. cbn [length]. lia. }
  intros. eapply G; eauto.
Qed.

Lemma scan_frags_valid : forall m s rest pos fs e n fs' e' n',
  scan m s rest pos (fs, e, n) = Ok (fs', e', n') ->
  Forall frag_valid fs -> 0 <= n -> Forall frag_valid fs' /\ 0 <= n'.
Proof.
  intros m s rest pos fs e n fs' e' n' H Hf Hn.
  pose (P := fun st : scan_state => Forall frag_valid (fst (fst st)) /\ 0 <= snd st).
  assert (HP : P (fs', e', n')).
  { eapply scan_ind with (P := P); [|exact H|split; auto].
    intros pos1 rest1 [[f1 e1] n1] [[f2 e2] n2] H1 [H2 H3]. cbn [fst snd P] in *.
    apply at_param_inv in H1 as (len & p & fs1 & A & B & C & D & E & F).
    apply parse_param_inv in C as (C1 & C2).
    assert (V : Forall frag_valid fs1).
    { destruct ((e1 <? pos1)%nat).
      - apply push_literal_inv in A as (A & _). subst fs1. apply Forall_app. split; auto.
        constructor; auto. exact I.
      - inversion A; subst. auto. }
    split; cbn [fst snd].
    - subst f2. apply Forall_app. split; auto. constructor; auto. cbn [frag_valid p_index p_ty].
      split; auto. destruct (pr_index p) eqn:Ei; auto. specialize (C1 z eq_refl). lia.
    - subst n2. destruct (pr_index p); lia. }
  destruct HP as [A B]. cbn [fst snd] in *. auto.
Qed.

(* ------------------------------------------------------------------ *)
(** * Density and consistency of indices *)

Lemma lookup_arg_app : forall i a b,
  lookup_arg i (a ++ b) = match lookup_arg i a with Some t => Some t | None => lookup_arg i b end.
Proof.
  induction a as [|[j t] a IH]; intro b; cbn [lookup_arg app]; auto.
  destruct (i =? j); auto.
Qed.

Definition compatible (a b : ty) : Prop :=
  a = b \/ (is_bitfield a = true /\ is_bitfield b = true).

Record types_inv (seen : list parameter) (args : list (Z * ty)) (len : Z) : Prop := {
  ti_found : forall p, In p seen -> exists t, lookup_arg (p_index p) args = Some t /\ compatible t (p_ty p);
  ti_from : forall i t, lookup_arg i args = Some t -> exists p, In p seen /\ p_index p = i /\ p_ty p = t;
  ti_len : forall p, In p seen -> p_index p < len;
  ti_len_max : 0 <= len /\ (len = 0 \/ exists p, In p seen /\ p_index p = len - 1)
}.

Fixpoint frag_params (fs : list fragment) : list parameter :=
  match fs with
  | [] => []
  | FParam p :: fs' => p :: frag_params fs'
  | FLit _ :: fs' => frag_params fs'
  end.

Lemma frag_params_app : forall a b, frag_params (a ++ b) = frag_params a ++ frag_params b.
Proof.
  induction a as [|[s|p] a IH]; intro b; cbn [frag_params app]; auto. f_equal. auto.
Qed.

Lemma check_types_inv : forall fs seen args len args' len',
  check_types fs args len = Ok (args', len') ->
  Forall (fun p => 0 <= p_index p) (frag_params fs) ->
  types_inv seen args len -> types_inv (seen ++ frag_params fs) args' len'.
Proof.
  induction fs as [|[s|p] fs IH]; intros seen args len args' len' H Hp HI;
    cbn [check_types frag_params] in *.
  - inversion H; subst. rewrite app_nil_r. auto.
  - eauto.
  - inversion Hp as [|? ? Hp0 Hp']; subst.
    destruct ((len <=? p_index p) && (p_index p =? usize_max)); try discriminate.
    cbv zeta in H.
    replace (seen ++ p :: frag_params fs) with ((seen ++ [p]) ++ frag_params fs)
      by (rewrite <- app_assoc; reflexivity).
    destruct HI as [I1 I2 I3 I4].
    set (len1 := if len <=? p_index p then p_index p + 1 else len) in *.
    assert (L3 : forall q, In q (seen ++ [p]) -> p_index q < len1).
    { intros q Hq. subst len1. apply in_app_iff in Hq as [Hq|[Hq|[]]].
      - specialize (I3 q Hq). destruct (Z.leb_spec len (p_index p)); lia.
      - subst q. destruct (Z.leb_spec len (p_index p)); lia. }
    assert (L4 : 0 <= len1 /\ (len1 = 0 \/ exists q, In q (seen ++ [p]) /\ p_index q = len1 - 1)).
    { subst len1. destruct (Z.leb_spec len (p_index p)).
      - split; [lia|]. right. exists p. split; [apply in_app_iff; right; left; auto|lia].
      - destruct I4 as [I4 I5]. split; auto. destruct I5 as [I5|(q & I5 & I6)]; auto.
        right. exists q. split; auto. apply in_app_iff. auto. }
    destruct (lookup_arg (p_index p) args) as [other|] eqn:EL.
    + assert (HC : compatible other (p_ty p) /\ check_types fs args len1 = Ok (args', len')).
      { destruct (is_bitfield other && is_bitfield (p_ty p)) eqn:EB.
        - apply andb_prop in EB. split; auto. right. auto.
        - destruct (negb (ty_eqb other (p_ty p))) eqn:EN; try discriminate.
          apply negb_false_iff, ty_eqb_eq in EN. split; auto. left. auto. }
      destruct HC as [HC HR]. eapply IH; eauto. constructor; auto.
      * intros q Hq. apply in_app_iff in Hq as [Hq|[Hq|[]]]; auto. subst q. eauto.
      * intros i t Hi. destruct (I2 i t Hi) as (q & A & B & C).
        exists q. rewrite in_app_iff. auto.
    + eapply IH; eauto. constructor; auto.
      * intros q Hq. rewrite lookup_arg_app.
        apply in_app_iff in Hq as [Hq|[Hq|[]]].
        -- destruct (I1 q Hq) as (t & A & B). rewrite A. eauto.
        -- subst q. rewrite EL. cbn [lookup_arg]. rewrite Z.eqb_refl.
           exists (p_ty p). split; auto. left. auto.
      * intros i t Hi. rewrite lookup_arg_app in Hi.
        destruct (lookup_arg i args) eqn:E2.
        -- inversion Hi; subst. destruct (I2 i t E2) as (q & A & B & C).
           exists q. rewrite in_app_iff. auto.
        -- cbn [lookup_arg] in Hi. destruct (Z.eqb_spec i (p_index p)); try discriminate.
           inversion Hi; subst. exists p. rewrite in_app_iff. cbn. auto.
Qed.

Lemma first_gap_spec : forall n i args,
  let g := first_gap n i args in
  i <= g <= i + Z.of_nat n /\ (forall j, i <= j < g -> lookup_arg j args <> None) /\
  (g < i + Z.of_nat n -> lookup_arg g args = None).
Proof.
  induction n as [|n IH]; intros i args; cbn [first_gap].
  - repeat split; try lia.
  - destruct (lookup_arg i args) as [t|] eqn:E.
    + specialize (IH (i + 1) args). cbv zeta in *. destruct IH as (A & B & C).
      repeat split; try lia.
      * intros j Hj. destruct (Z.eq_dec j i); [subst; congruence|apply B; lia].
      * intro H. apply C. lia.
    + repeat split; try lia. intro. auto.
Qed.

Lemma check_dense_spec : forall args len, 0 <= len ->
  check_dense args len = Ok tt -> forall i, 0 <= i < len -> lookup_arg i args <> None.
Proof.
  intros args len Hlen H i Hi. unfold check_dense in H. cbv zeta in H.
  pose proof (first_gap_spec (length args) 0 args) as G. cbv zeta in G.
  set (g := first_gap (length args) 0 args) in *. destruct G as (A & B & C).
  destruct (Z.ltb_spec g len); try discriminate.
  apply B. lia.
Qed.

(** What a successful parse guarantees (C18). *)
Record parsed_ok (ps : list parameter) (n : Z) : Prop := {
  po_nonneg : 0 <= n;
  po_range : forall p, In p ps -> 0 <= p_index p < n;
  po_dense : forall i, 0 <= i < n -> exists p, In p ps /\ p_index p = i;
  po_types : forall p q, In p ps -> In q ps -> p_index p = p_index q -> compatible (p_ty p) (p_ty q);
  po_valid : forall p, In p ps -> ty_valid (p_ty p)
}.

Lemma compatible_sym : forall a b, compatible a b -> compatible b a.
Proof. unfold compatible. intros a b [H|[H1 H2]]; auto. Qed.

Lemma compatible_trans : forall a b c, compatible a b -> compatible b c -> compatible a c.
Proof.
  unfold compatible. intros a b c [H|[H1 H2]] [H'|[H1' H2']]; subst; auto.
Qed.

Lemma parse_inv : forall s m fs, parse s m = Ok fs ->
  exists fs0 e n args len,
    scan m s s 0%nat ([], 0%nat, 0) = Ok (fs0, e, n) /\
    (if (e =? length s)%nat then Ok fs0 else push_literal fs0 (skipn e s)) = Ok fs /\
    check_types fs [] 0 = Ok (args, len) /\ check_dense args len = Ok tt.
Proof.
  intros s m fs H. unfold parse in H.
  apply bind_ok in H as ([[fs0 e] n] & H1 & H).
  apply bind_ok in H as (fs1 & H2 & H).
  apply bind_ok in H as ([args len] & H3 & H).
  apply bind_ok in H as ([] & H4 & H). inversion H; subst. eauto 10.
Qed.

Lemma parse_frags_valid : forall s m fs, parse s m = Ok fs -> Forall frag_valid fs.
Proof.
  intros s m fs H. apply parse_inv in H as (fs0 & e & n & args & len & H1 & H2 & H3 & H4).
  apply scan_frags_valid in H1 as [V1 _]; auto; try lia.
  destruct ((e =? length s)%nat).
  - inversion H2; subst. auto.
  - apply push_literal_inv in H2 as (H2 & _). subst fs. apply Forall_app. split; auto.
    constructor; auto. exact I.
Qed.

Lemma frag_valid_params : forall fs, Forall frag_valid fs ->
  Forall (fun p => 0 <= p_index p /\ ty_valid (p_ty p)) (frag_params fs).
Proof.
  induction fs as [|[s|p] fs IH]; intro H; cbn [frag_params]; auto; inversion H; subst; auto.
Qed.

Lemma parse_parsed_ok : forall s m fs, parse s m = Ok fs ->
  exists n, parsed_ok (frag_params fs) n.
Proof.
  intros s m fs H. pose proof (parse_frags_valid _ _ _ H) as V.
  apply frag_valid_params in V.
  apply parse_inv in H as (fs0 & e & n & args & len & H1 & H2 & H3 & H4).
  assert (T : types_inv ([] ++ frag_params fs) args len).
  { eapply check_types_inv; eauto.
    - eapply Forall_impl; [|exact V]. cbn. intros a [? ?]; auto.
    - constructor; cbn; try (intros; contradiction); try (intros; discriminate).
      split; [lia|]. left; auto. }
  cbn [app] in T. destruct T as [I1 I2 I3 [I4 I5]]. rewrite Forall_forall in V.
  exists len. constructor; auto.
  - intros p Hp. split; [apply V; auto|apply I3; auto].
  - intros i Hi. pose proof (check_dense_spec args len I4 H4 i Hi) as L.
    destruct (lookup_arg i args) as [t|] eqn:E; try congruence.
    destruct (I2 i t E) as (p & A & B & C). eauto.
  - intros p q Hp Hq E. destruct (I1 p Hp) as (t & A & B). destruct (I1 q Hq) as (t' & A' & B').
    rewrite E, A' in A. inversion A; subst. eapply compatible_trans; [apply compatible_sym|]; eauto.
  - intros p Hp. apply V; auto.
Qed.

(* ------------------------------------------------------------------ *)
(** * The parser never runs out of (nonexistent) fuel *)

Lemma parse_range_no_fuel : forall s, parse_range s <> NoFuel.
Proof.
  intros s H. unfold parse_range in H. cbv zeta in H.
  repeat match type of H with
    | context [match ?x with _ => _ end] => destruct x; try discriminate
    end.
Qed.

Lemma parse_array_no_fuel : forall s, parse_array s <> NoFuel /\ parse_array s <> Panic.
Proof.
  intros s. unfold parse_array. cbv zeta.
  split; intro H;
  repeat match type of H with
    | context [match ?x with _ => _ end] => destruct x; try discriminate
    end.
Qed.

Lemma parse_param_no_fuel : forall s m, parse_param s m <> NoFuel.
Proof.
  intros s m H. unfold parse_param in H. cbv zeta in H.
  apply bind_nofuel in H as [H|(a & _ & H)].
  { repeat match type of H with context [match ?x with _ => _ end] => destruct x; try discriminate end. }
  apply bind_nofuel in H as [H|([t r] & _ & H)].
  { destruct (strip_prefix (lit "=") (skipn (digits s) s)); try discriminate.
    destruct (split_type b) as [tf r]. apply bind_nofuel in H as [H|(t & _ & H)]; try discriminate.
    unfold parse_type in H. destruct (type_from_str tf); try discriminate.
    destruct (strip_prefix (lit "[u8;") tf).
    { apply bind_nofuel in H as [H|(n & _ & H)]; try discriminate. apply parse_array_no_fuel in H; auto. }
    destruct (strip_prefix (lit "[?;") tf).
    { apply bind_nofuel in H as [H|(n & _ & H)]; try discriminate. apply parse_array_no_fuel in H; auto. }
    apply bind_nofuel in H as [H|(n & _ & H)]. { apply parse_range_no_fuel in H; auto. }
    destruct n as [[[? ?] ?]|]; try discriminate.
    destruct (negb (n =? length tf)%nat); discriminate. }
  apply bind_nofuel in H as [H|(h & _ & H)]; try discriminate.
  unfold parse_hint_part in H.
  repeat match type of H with context [match ?x with _ => _ end] => destruct x; try discriminate end.
Qed.

Lemma scan_braces_shape : forall s a b,
  scan_braces a b s = Ok tt \/ scan_braces a b s = Err UnmatchedOpenBracket \/
  scan_braces a b s = Err UnmatchedCloseBracket.
Proof.
  induction s as [|c s IH]; intros a b; cbn [scan_braces].
  - destruct a, b; auto.
  - destruct (c =? 123), (c =? 125); auto; destruct a, b; auto.
Qed.

Lemma push_literal_shape : forall fs s,
  (exists fs', push_literal fs s = Ok fs') \/ (exists e, push_literal fs s = Err e).
Proof.
  intros fs s. unfold push_literal.
  destruct (scan_braces_shape s false false) as [H|[H|H]]; rewrite H; cbn [bind]; eauto.
Qed.

Lemma check_types_no_fuel : forall fs args len, check_types fs args len <> NoFuel.
Proof.
  induction fs as [|[s|p] fs IH]; intros args len; cbn [check_types]; try discriminate; auto.
  destruct ((len <=? p_index p) && (p_index p =? usize_max)); try discriminate.
  destruct (lookup_arg (p_index p) args); auto.
  destruct (is_bitfield t && is_bitfield (p_ty p)); auto.
  destruct (negb (ty_eqb t (p_ty p))); auto; discriminate.
Qed.

Lemma at_param_no_fuel : forall m s pos rest st, at_param m s pos rest st <> NoFuel.
Proof.
  intros m s pos rest [[fs e] n] H. unfold at_param in H.
  apply bind_nofuel in H as [H|(fs1 & _ & H)].
  { destruct ((e <? pos)%nat); try discriminate.
    destruct (push_literal_shape fs (slice s e pos)) as [[x E]|[x E]]; rewrite E in H; discriminate. }
  destruct (position (fun c => c =? 125) rest); try discriminate.
  apply bind_nofuel in H as [H|(p & _ & H)]. { apply parse_param_no_fuel in H; auto. }
  destruct (pr_index p); discriminate.
Qed.

Lemma scan_no_fuel : forall m s n rest, (length rest <= n)%nat -> forall pos st,
  scan m s rest pos st <> NoFuel.
Proof.
  induction n as [|n IH]; intros rest Hn pos st; destruct rest as [|c r]; cbn [length] in Hn;
    try lia; cbn [scan]; try discriminate.
  destruct (negb (c =? 123)). { apply IH; lia. }
  destruct r as [|c2 r2].
  { intro H. apply bind_nofuel in H as [H|(st1 & _ & H)].
    - apply at_param_no_fuel in H; auto.
    - apply (IH []) in H; auto. cbn; lia. }
  cbn [length] in Hn. destruct (c2 =? 123). { apply IH; lia. }
  intro H. apply bind_nofuel in H as [H|(st1 & _ & H)].
  - apply at_param_no_fuel in H; auto.
  - apply IH in H; auto. cbn [length]; lia.
Qed.

Lemma parse_no_fuel : forall s m, parse s m <> NoFuel.
Proof.
  intros s m H. unfold parse in H.
  apply bind_nofuel in H as [H|([[fs0 e] n] & _ & H)].
  { eapply scan_no_fuel in H; eauto. }
  apply bind_nofuel in H as [H|(fs1 & _ & H)].
  { destruct ((e =? length s)%nat); try discriminate.
    destruct (push_literal_shape fs0 (skipn e s)) as [[x E]|[x E]]; rewrite E in H; discriminate. }
  apply bind_nofuel in H as [H|([args len] & _ & H)].
  { apply check_types_no_fuel in H; auto. }
  apply bind_nofuel in H as [H|([] & _ & H)]; try discriminate.
  unfold check_dense in H. cbv zeta in H. destruct (_ <? len); discriminate.
Qed.
