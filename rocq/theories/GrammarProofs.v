(** The parameters the parser accepts are exactly those of the grammar. *)
From Verif Require Import Base ParserModel ParserProofs FormatSpec GrammarSpec Numerals ParserMore RenderProofs.

(* ------------------------------------------------------------------ *)
(** * Numbers *)

Lemma number_iff : forall s n, number s n <-> s <> [] /\ all_digits s /\ n = dec_value 0 s.
Proof.
  intros s n. split.
  - intro H. induction H as [c D|ds n c H (A & B & C) D].
    + split; [discriminate|]. split; [|cbn [dec_value]; lia]. constructor; [|constructor].
      apply is_digit_iff. exact D.
    + split; [|split].
      * destruct ds; discriminate.
      * apply Forall_app. split; auto. constructor; [|constructor]. apply is_digit_iff. exact D.
      * rewrite dec_value_app, <- C. reflexivity.
  - revert n. induction s as [|c s IH] using rev_ind; intros n (A & B & C); [congruence|].
    apply Forall_app in B as (B1 & B2). inversion B2 as [|? ? D _]; subst.
    rewrite dec_value_app. cbn [dec_value]. apply is_digit_iff in D.
    destruct s as [|x s].
    + cbn [app dec_value]. replace (10 * 0 + (c - 48)) with (c - 48) by lia. constructor. exact D.
    + constructor; [|exact D]. apply IH. repeat split; auto. discriminate.
Qed.

Lemma parse_digits_number : forall max s n, all_digits s ->
  (parse_digits max s = Some n <-> number s n /\ n <= max).
Proof.
  intros max s n A. rewrite number_iff. split.
  - intro H. apply parse_digits_some in H as (-> & L & N). auto.
  - intros ((N & _ & ->) & L). unfold parse_digits. destruct s as [|c s]; [congruence|]. cbv zeta.
    destruct (Z.leb_spec (dec_value 0 (c :: s)) max); [reflexivity|lia].
Qed.

Lemma number_digits : forall s n, number s n -> all_digits s.
Proof. intros s n H. apply number_iff in H. tauto. Qed.

Lemma number_nonneg : forall s n, number s n -> 0 <= n.
Proof. intros s n H. apply number_iff in H as (_ & A & ->). apply dec_value_nonneg; auto. lia. Qed.

Lemma number_not_nil : forall s n, number s n -> s <> [].
Proof. intros s n H. apply number_iff in H. tauto. Qed.

(* ------------------------------------------------------------------ *)
(** * Types *)

Lemma drop_while_spec : forall s, exists sp, s = sp ++ drop_while (fun c => c =? 32) s /\
  Forall (fun c => c = 32) sp.
Proof.
  induction s as [|c s (sp & E & F)]; cbn [drop_while].
  - exists []. auto.
  - destruct (Z.eqb_spec c 32) as [->|N].
    + exists (32 :: sp). cbn [app]. split; [congruence|auto].
    + exists []. auto.
Qed.

Lemma drop_while_app : forall sp r, Forall (fun c => c = 32) sp ->
  match r with c :: _ => c <> 32 | [] => True end ->
  drop_while (fun c => c =? 32) (sp ++ r) = r.
Proof.
  induction sp as [|c sp IH]; intros r F N; cbn [app drop_while].
  - destruct r as [|c r]; cbn [drop_while]; auto. destruct (Z.eqb_spec c 32); [contradiction|reflexivity].
  - inversion F; subst. change (32 =? 32) with true. cbv iota. auto.
Qed.

Lemma parse_array_iff : forall s n, parse_array s = Ok n <->
  exists sp ds, s = sp ++ ds ++ lit "]" /\ Forall (fun c => c = 32) sp /\ number ds n /\ n <= usize_max.
Proof.
  intros s n. split.
  - intro H. unfold parse_array in H. cbv zeta in H.
    destruct (drop_while_spec s) as (sp & E & F). set (s1 := drop_while _ s) in *.
    destruct s1 as [|c s1'] eqn:E1; try discriminate. rewrite <- E1 in *. clear E1 s1'.
    destruct (digits_split s1) as (ds & r & E2 & A & B & D). rewrite D in H. rewrite E2 in H.
    rewrite firstn_app_exact, skipn_app_exact in H.
    destruct r as [|x r]; try discriminate.
    destruct (parse_digits usize_max ds) as [k|] eqn:P; try discriminate.
    destruct (beq (x :: r) (lit "]")) eqn:Q; try discriminate. apply beq_true in Q.
    inversion H; subst k. apply parse_digits_number in P as (P1 & P2); auto.
    exists sp, ds. repeat split; auto. rewrite <- Q, <- E2. exact E.
  - intros (sp & ds & -> & F & N & L). unfold parse_array. cbv zeta.
    assert (A := number_digits _ _ N). assert (NN := number_not_nil _ _ N).
    rewrite drop_while_app; auto.
    2: { destruct ds as [|c ds]; [congruence|]. cbn [app]. inversion A; subst. intro; subst. discriminate. }
    destruct (ds ++ lit "]") as [|c t] eqn:E. { destruct ds; discriminate. }
    rewrite <- E. rewrite (digits_exact ds (lit "]")) by (auto; reflexivity).
    rewrite firstn_app_exact, skipn_app_exact.
    assert (parse_digits usize_max ds = Some n) as -> by (apply parse_digits_number; auto).
    reflexivity.
Qed.

Lemma parse_range_iff : forall s lo hi used, parse_range s = Ok (Some ((lo, hi), used)) <->
  exists a b r, s = a ++ lit ".." ++ b ++ r /\ number a lo /\ number b hi /\ lo < hi /\ hi <= 128 /\
    no_digit_first r /\ used = (length a + length b + 2)%nat.
Proof.
  intros s lo hi used. split.
  - intro H. unfold parse_range in H. cbv zeta in H.
    destruct (digits_split s) as (a & r & E & A & B & D). rewrite D in H.
    rewrite E in H. rewrite firstn_app_exact in H.
    destruct (parse_digits 255 a) as [x|] eqn:P; try discriminate.
    destruct (negb (is_char_boundary _ _)); try discriminate.
    rewrite skipn_app_exact in H.
    destruct (negb (beq (firstn 2 r) (lit ".."))) eqn:Q; try discriminate.
    apply negb_false_iff, beq_true in Q.
    replace (skipn (length a + 2) (a ++ r)) with (skipn 2 r) in H.
    2: { rewrite skipn_app. rewrite (skipn_all2 a) by lia. replace (length a + 2 - length a)%nat with 2%nat by lia. reflexivity. }
    assert (R : r = lit ".." ++ skipn 2 r) by (rewrite <- Q; symmetry; apply firstn_skipn).
    destruct (digits_split (skipn 2 r)) as (b & r2 & E2 & A2 & B2 & D2). rewrite D2 in H.
    rewrite E2 in H. rewrite firstn_app_exact in H.
    destruct (parse_digits 255 b) as [y|] eqn:P2; try discriminate.
    destruct ((y <=? x) || (128 <=? x) || (128 <? y)) eqn:O; try discriminate.
    inversion H; subst x y used.
    apply parse_digits_number in P as (P & _); auto. apply parse_digits_number in P2 as (P2 & _); auto.
    exists a, b, r2. repeat split; auto; try lia. rewrite E. f_equal. rewrite <- E2. exact R.
  - intros (a & b & r & -> & Na & Nb & L & M & F & ->). unfold parse_range. cbv zeta.
    assert (A := number_digits _ _ Na). assert (B := number_digits _ _ Nb).
    assert (Pa := number_nonneg _ _ Na).
    rewrite digits_exact by (auto; reflexivity). rewrite firstn_app_exact.
    assert (parse_digits 255 a = Some lo) as -> by (apply parse_digits_number; auto; split; auto; lia).
    assert (is_char_boundary (a ++ lit ".." ++ b ++ r) (length a + 2) = true) as ->.
    { destruct (is_char_boundary (a ++ lit ".." ++ b ++ r) (length a + 2)) eqn:Q; auto.
      apply cut2_boundary in Q. change (lit "..") with [46; 46] in Q. cbn [app cut2_bad] in Q.
      destruct b as [|c b]; [apply number_not_nil in Nb; congruence|]. cbn [app] in Q.
      inversion B; subst. unfold is_digit in *. lia. }
    cbn [negb]. rewrite skipn_app_exact.
    assert (beq (firstn 2 (lit ".." ++ b ++ r)) (lit "..") = true) as -> by reflexivity.
    cbn [negb].
    replace (skipn (length a + 2) (a ++ lit ".." ++ b ++ r)) with (b ++ r).
    2: { rewrite skipn_app. rewrite (skipn_all2 a) by lia. replace (length a + 2 - length a)%nat with 2%nat by lia. reflexivity. }
    rewrite digits_exact by auto. rewrite firstn_app_exact.
    assert (parse_digits 255 b = Some hi) as -> by (apply parse_digits_number; auto; split; auto; lia).
    destruct ((hi <=? lo) || (128 <=? lo) || (128 <? hi)) eqn:O; [lia|]. reflexivity.
Qed.

Lemma type_from_str_sound : forall s t, type_from_str s = Some t -> type_text s t.
Proof.
  intros s t H. unfold type_from_str in H.
  repeat match type of H with (if beq s ?l then _ else _) = _ =>
    destruct (beq s l) eqn:?Q; [apply beq_true in Q; inversion H; subst; clear H|clear Q] end;
  try discriminate;
  first [exact (T_unsigned W8)|exact (T_unsigned W16)|exact (T_unsigned W32)|exact (T_unsigned W64)
        |exact (T_unsigned W128)|exact (T_signed W8)|exact (T_signed W16)|exact (T_signed W32)
        |exact (T_signed W64)|exact (T_signed W128)|constructor].
Qed.

Lemma type_from_str_open : forall p r, p = 91 -> (forall x, r <> x :: 93 :: nil /\ r <> 117 :: 56 :: 93 :: nil) ->
  r <> lit "?]" -> type_from_str (p :: r) = None.
Proof.
  intros p r -> H Q. unfold type_from_str.
  repeat match goal with |- context [beq (91 :: r) ?l] =>
    let l' := eval vm_compute in l in change l with l';
    assert (beq (91 :: r) l' = false) as -> by
      (apply beq_false; intro X; inversion X; subst; first [destruct (H 63) as (H1 & H2); congruence|discriminate]) end.
  reflexivity.
Qed.

Lemma parse_type_iff : forall i s t, parse_type i s = Ok t <-> type_text s t.
Proof.
  intros i s t. split.
  - intro H. unfold parse_type in H. destruct (type_from_str s) as [u|] eqn:E.
    { inversion H; subst. apply type_from_str_sound, E. }
    destruct (strip_prefix (lit "[u8;") s) as [r|] eqn:S1.
    { apply ParserMore.strip_prefix_some in S1. subst s. apply bind_ok in H as (n & H & X). inversion X; subst.
      apply parse_array_iff in H as (sp & ds & -> & F & N & L). constructor; auto. }
    destruct (strip_prefix (lit "[?;") s) as [r|] eqn:S2.
    { apply ParserMore.strip_prefix_some in S2. subst s. apply bind_ok in H as (n & H & X). inversion X; subst.
      apply parse_array_iff in H as (sp & ds & -> & F & N & L). constructor; auto. }
    apply bind_ok in H as (r & H & X). destruct r as [[[lo hi] used]|]; try discriminate.
    destruct (negb (used =? length s)%nat) eqn:U; try discriminate. inversion X; subst.
    apply negb_false_iff, Nat.eqb_eq in U.
    apply parse_range_iff in H as (a & b & r & -> & Na & Nb & L & M & F & V).
    assert (r = []).
    { rewrite V in U. rewrite !app_length in U. change (length (lit "..")) with 2%nat in U.
      destruct r; auto. cbn [length] in U. lia. }
    subst r. rewrite app_nil_r. constructor; auto.
  - intro H. destruct H as [w|w| | | | | | | | | | | | | | |sp ds n F N L|sp ds n F N L|a b lo hi Na Nb L M];
      try (destruct w); try reflexivity.
    + unfold parse_type.
      assert (type_from_str (lit "[u8;" ++ sp ++ ds ++ lit "]") = None) as ->.
      { change (lit "[u8;") with [91; 117; 56; 59]. cbn [app]. apply type_from_str_open; auto.
        - intro x. split; intro X; discriminate.
        - discriminate. }
      rewrite strip_prefix_app.
      assert (parse_array (sp ++ ds ++ lit "]") = Ok n) as -> by (apply parse_array_iff; eauto 10).
      reflexivity.
    + unfold parse_type.
      assert (type_from_str (lit "[?;" ++ sp ++ ds ++ lit "]") = None) as ->.
      { change (lit "[?;") with [91; 63; 59]. cbn [app]. apply type_from_str_open; auto.
        - intro x. split; intro X; discriminate.
        - discriminate. }
      assert (strip_prefix (lit "[u8;") (lit "[?;" ++ sp ++ ds ++ lit "]") = None) as -> by reflexivity.
      rewrite strip_prefix_app.
      assert (parse_array (sp ++ ds ++ lit "]") = Ok n) as -> by (apply parse_array_iff; eauto 10).
      reflexivity.
    + unfold parse_type.
      assert (A := number_digits _ _ Na). destruct a as [|c a]; [apply number_not_nil in Na; congruence|].
      inversion A as [|? ? Dc _]; subst.
      cbn [app]. rewrite RenderProofs.type_from_str_digit by auto.
      assert (X : forall p y, strip_prefix (91 :: p) (c :: y) = None).
      { intros p y. cbn [strip_prefix]. unfold is_digit in Dc. destruct (Z.eqb_spec 91 c); auto. lia. }
      change (lit "[u8;") with [91; 117; 56; 59]. change (lit "[?;") with [91; 63; 59]. rewrite !X.
      change (c :: a ++ lit ".." ++ b) with ((c :: a) ++ lit ".." ++ b).
      assert (parse_range ((c :: a) ++ lit ".." ++ b) = Ok (Some ((lo, hi), (length (c :: a) + length b + 2)%nat))) as ->.
      { apply parse_range_iff. exists (c :: a), b, []. rewrite app_nil_r. repeat split; auto. }
      cbn [bind]. rewrite !app_length. change (length (lit "..")) with 2%nat.
      replace (length (c :: a) + length b + 2 =? length (c :: a) + (2 + length b))%nat with true.
      2: { symmetry. apply Nat.eqb_eq. lia. }
      reflexivity.
Qed.

(* ------------------------------------------------------------------ *)
(** * Hints *)

Lemma parse_integer_iff : forall s r n, parse_integer s = Some (r, n) <->
  exists ds, s = ds ++ r /\ number ds n /\ n <= usize_max /\ no_digit_first r.
Proof.
  intros s r n. unfold parse_integer. split.
  - intro H. destruct (digits_split s) as (ds & x & E & A & B & D). rewrite D in H. subst s.
    rewrite firstn_app_exact, skipn_app_exact in H.
    destruct (parse_digits usize_max ds) as [k|] eqn:P; try discriminate. inversion H; subst.
    apply parse_digits_number in P as (P & L); auto. exists ds. auto.
  - intros (ds & -> & N & L & B). assert (A := number_digits _ _ N).
    rewrite digits_exact by auto. rewrite firstn_app_exact, skipn_app_exact.
    assert (parse_digits usize_max ds = Some n) as -> by (apply parse_digits_number; auto). reflexivity.
Qed.

Lemma split_on_inv : forall c s x l, split_on c s = x :: l ->
  ~ In c x /\ ((l = [] /\ s = x) \/ exists s', s = x ++ c :: s' /\ split_on c s' = l).
Proof.
  induction s as [|y s IH]; intros x l H; cbn [split_on] in H.
  - inversion H; subst. split; auto.
  - destruct (Z.eqb_spec y c) as [->|N].
    + inversion H; subst. split; [intros []|]. right. exists s. auto.
    + destruct (split_on c s) as [|z l'] eqn:E.
      { inversion H; subst. exfalso. clear - E. destruct s; cbn [split_on] in E; try discriminate.
        destruct (z =? c); try discriminate. destruct (split_on c s); discriminate. }
      inversion H; subst. destruct (IH _ _ eq_refl) as (A & B). split.
      * intros [X|X]; [congruence|contradiction].
      * destruct B as [(-> & ->)|(s' & -> & B)]; [left; auto|]. right. exists s'. auto.
Qed.

Lemma split_on_count : forall c s, length (split_on c s) = S (count_occ Z.eq_dec s c).
Proof.
  induction s as [|y s IH]; cbn [split_on count_occ]; auto.
  destruct (Z.eq_dec y c) as [->|N].
  - rewrite Z.eqb_refl. cbn [length]. rewrite IH. reflexivity.
  - destruct (Z.eqb_spec y c); [contradiction|]. destruct (split_on c s) as [|z l] eqn:E.
    + discriminate IH.
    + cbn [length] in *. exact IH.
Qed.

(** The tail of [parse_hint]. *)
Definition named_hint (alternate : bool) (zero_pad : Z) (s : bytes) : option hint :=
  match strip_prefix (lit "__internal_bitflags_") s with
  | Some stripped => Some (parse_bitflags s stripped)
  | None =>
      if beq s (lit "") then Some (HNoHint zero_pad)
      else if beq s (lit "us") then Some (HSeconds Micros)
      else if beq s (lit "ms") then Some (HSeconds Millis)
      else if beq s (lit "tus") then Some (HTime Micros)
      else if beq s (lit "tms") then Some (HTime Millis)
      else if beq s (lit "ts") then Some (HTime Seconds)
      else if beq s (lit "a") then Some HAscii
      else if beq s (lit "b") then Some (HBinary alternate zero_pad)
      else if beq s (lit "o") then Some (HOctal alternate zero_pad)
      else if beq s (lit "x") then Some (HHex alternate false zero_pad)
      else if beq s (lit "X") then Some (HHex alternate true zero_pad)
      else if beq s (lit "iso8601ms") then Some (HIso8601 Millis)
      else if beq s (lit "iso8601s") then Some (HIso8601 Seconds)
      else if beq s (lit "cbor") then Some HCbor
      else if beq s (lit "?") then Some HDebug
      else None
  end.

Lemma parse_hint_eq : forall s, parse_hint s =
  (let '(alternate, s) :=
    match strip_prefix (lit "#") s with Some r => (true, r) | None => (false, s) end in
  match (match strip_prefix (lit "0") s with Some r => parse_integer r | None => Some (s, 0) end) with
  | None => None
  | Some (s, zero_pad) => named_hint alternate zero_pad s
  end).
Proof. reflexivity. Qed.

Lemma named_hint_iff : forall alt z s h, named_hint alt z s = Some h <-> hint_name alt z s h.
Proof.
  intros alt z s h. split.
  - intro H. unfold named_hint in H.
    destruct (strip_prefix (lit "__internal_bitflags_") s) as [x|] eqn:SP.
    + apply ParserMore.strip_prefix_some in SP. subst s. inversion H as [H0]. clear H. unfold parse_bitflags.
      pose proof (split_on_count 64 x) as LC.
      destruct (split_on 64 x) as [|n [|p [|d [|c [|e l]]]]] eqn:E; cbn [length] in LC;
        try (apply H_flags_bad; lia).
      * apply split_on_inv in E as (A1 & [(X & _)|(s1 & -> & E)]); try discriminate.
        apply split_on_inv in E as (A2 & [(X & _)|(s2 & -> & E)]); try discriminate.
        apply split_on_inv in E as (A3 & [(_ & ->)|(s3 & _ & E)]); [constructor; auto|].
        exfalso. clear - E. destruct s3; cbn [split_on] in E; try discriminate.
        destruct (z =? 64); try discriminate. destruct (split_on 64 s3); discriminate.
      * apply split_on_inv in E as (A1 & [(X & _)|(s1 & -> & E)]); try discriminate.
        apply split_on_inv in E as (A2 & [(X & _)|(s2 & -> & E)]); try discriminate.
        apply split_on_inv in E as (A3 & [(X & _)|(s3 & -> & E)]); try discriminate.
        apply split_on_inv in E as (A4 & [(_ & ->)|(s4 & _ & E)]); [constructor; auto|].
        exfalso. clear - E. destruct s4; cbn [split_on] in E; try discriminate.
        destruct (z =? 64); try discriminate. destruct (split_on 64 s4); discriminate.
    + clear SP. repeat match type of H with (if beq s ?l then _ else _) = _ =>
        destruct (beq s l) eqn:?Q; [apply beq_true in Q; inversion H; subst; clear H|clear Q] end;
      try discriminate; constructor.
  - intro H. destruct H; try reflexivity; unfold named_hint; rewrite strip_prefix_app; f_equal; unfold parse_bitflags.
    + rewrite !split_on_sep by auto. rewrite split_on_none by auto. reflexivity.
    + rewrite !split_on_sep by auto. rewrite split_on_none by auto. reflexivity.
    + pose proof (split_on_count 64 x) as LC.
      destruct (split_on 64 x) as [|n [|p [|d [|c [|e l]]]]] eqn:E; cbn [length] in LC; try reflexivity; lia.
Qed.

Lemma hint_name_first : forall alt z s h, hint_name alt z s h ->
  match s with c :: _ => is_digit c = false /\ c <> 35 | [] => True end.
Proof. intros alt z s h H. destruct H; cbn; auto; split; try reflexivity; discriminate. Qed.

Lemma parse_hint_iff : forall s h, parse_hint s = Some h <-> hint_text s h.
Proof.
  intros s h. rewrite parse_hint_eq. split.
  - intro H.
    assert (P : exists alt x, s = (if alt : bool then lit "#" else []) ++ x /\
      match (match strip_prefix (lit "0") x with Some r => parse_integer r | None => Some (x, 0) end) with
      | None => None | Some (s, zero_pad) => named_hint alt zero_pad s end = Some h).
    { destruct (strip_prefix (lit "#") s) as [r|] eqn:E.
      - apply ParserMore.strip_prefix_some in E. exists true, r. auto.
      - exists false, s. auto. }
    clear H. destruct P as (alt & x & -> & H).
    destruct (strip_prefix (lit "0") x) as [r|] eqn:E.
    + apply ParserMore.strip_prefix_some in E. subst x.
      destruct (parse_integer r) as [[name n]|] eqn:PI; try discriminate.
      apply parse_integer_iff in PI as (ds & -> & N & L & _). apply named_hint_iff in H.
      apply (HT alt (48 :: ds) n name h); [constructor; auto|auto].
    + apply named_hint_iff in H. apply (HT alt [] 0 x h); [constructor|auto].
  - intro H. destruct H as [alt cs z name h C N].
    assert (F := hint_name_first _ _ _ _ N).
    assert (Q : match (match strip_prefix (lit "0") (cs ++ name) with
                       | Some r => parse_integer r | None => Some (cs ++ name, 0) end) with
                | None => None | Some (s, zero_pad) => named_hint alt zero_pad s end = Some h).
    { destruct C as [|ds n D L].
      - cbn [app]. assert (strip_prefix (lit "0") name = None) as ->.
        { change (lit "0") with [48]. destruct name as [|c name]; auto. cbn [strip_prefix].
          destruct (Z.eqb_spec 48 c); auto. subst. destruct F; discriminate. }
        apply named_hint_iff. exact N.
      - cbn [app]. change (lit "0") with [48]. cbn [strip_prefix]. change (48 =? 48) with true. cbv iota.
        assert (parse_integer (ds ++ name) = Some (name, n)) as ->.
        { apply parse_integer_iff. exists ds. repeat split; auto. unfold no_digit_first. destruct name; tauto. }
        apply named_hint_iff. exact N. }
    destruct alt.
    + rewrite strip_prefix_app. exact Q.
    + cbn [app]. assert (strip_prefix (lit "#") (cs ++ name) = None) as ->; [|exact Q].
      change (lit "#") with [35]. destruct C as [|ds n D L].
      * cbn [app]. destruct name as [|c name]; auto. cbn [strip_prefix]. destruct (Z.eqb_spec 35 c); auto.
        subst. destruct F; congruence.
      * reflexivity.
Qed.

(* ------------------------------------------------------------------ *)
(** * Parameters *)

Lemma parse_hint_part_iff : forall s m o, parse_hint_part s m = Ok o <-> hint_part m s o.
Proof.
  intros s m o. unfold parse_hint_part. split.
  - intro H. destruct (strip_prefix (lit ":") s) as [x|] eqn:E.
    + apply ParserMore.strip_prefix_some in E. subst s. destruct x as [|c x]; try discriminate.
      destruct (parse_hint (c :: x)) as [h|] eqn:P.
      * inversion H; subst. apply HP_some; [discriminate|]. apply parse_hint_iff, P.
      * destruct m; try discriminate. inversion H; subst. apply HP_unknown; auto; [discriminate|].
        intros h X. apply parse_hint_iff in X. congruence.
    + destruct s; try discriminate. inversion H; subst. constructor.
  - intro H. destruct H as [|x h N X|x -> N X]; auto.
    + change (58 :: x) with (lit ":" ++ x). rewrite strip_prefix_app. destruct x as [|c x]; [congruence|].
      apply parse_hint_iff in X. rewrite X. reflexivity.
    + change (58 :: x) with (lit ":" ++ x). rewrite strip_prefix_app. destruct x as [|c x]; [congruence|].
      destruct (parse_hint (c :: x)) as [h|] eqn:P; auto. apply parse_hint_iff in P. apply X in P. contradiction.
Qed.

Lemma type_text_no_colon : forall s t, type_text s t -> ~ In 58 s.
Proof.
  assert (C : forall s, forallb (fun c => negb (c =? 58)) s = true -> ~ In 58 s).
  { intros s H X. rewrite forallb_forall in H. apply H in X. discriminate. }
  intros s t H. destruct H as [w|w| | | | | | | | | | | | | | |sp ds n F N L|sp ds n F N L|a b lo hi Na Nb L M];
    try (destruct w); try (apply C; reflexivity).
  - rewrite !in_app_iff. intros [X|[X|[X|X]]].
    + revert X. apply C. reflexivity.
    + rewrite Forall_forall in F. apply F in X. discriminate.
    + revert X. apply digit_not_colon. eapply number_digits; eauto.
    + revert X. apply C. reflexivity.
  - rewrite !in_app_iff. intros [X|[X|[X|X]]].
    + revert X. apply C. reflexivity.
    + rewrite Forall_forall in F. apply F in X. discriminate.
    + revert X. apply digit_not_colon. eapply number_digits; eauto.
    + revert X. apply C. reflexivity.
  - rewrite !in_app_iff. intros [X|[X|X]].
    + revert X. apply digit_not_colon. eapply number_digits; eauto.
    + revert X. apply C. reflexivity.
    + revert X. apply digit_not_colon. eapply number_digits; eauto.
Qed.

Lemma hint_part_first : forall m s o, hint_part m s o -> s = [] \/ exists x, s = 58 :: x.
Proof. intros m s o H. destruct H; eauto. Qed.

Lemma split_type_app : forall a b, ~ In 58 a -> (b = [] \/ exists x, b = 58 :: x) -> split_type (a ++ b) = (a, b).
Proof.
  intros a b N B. unfold split_type.
  assert (F : Forall (fun c => (c =? 58) = false) a).
  { rewrite Forall_forall. intros c Hc. destruct (Z.eqb_spec c 58); auto. subst. contradiction. }
  destruct B as [->|(x & ->)].
  - rewrite app_nil_r. apply position_none in F. rewrite F. reflexivity.
  - rewrite position_app by auto. rewrite firstn_app_exact, skipn_app_exact. reflexivity.
Qed.

Lemma parse_param_iff : forall s m p, parse_param s m = Ok p <-> param_text m s p.
Proof.
  intros s m p. split.
  - intro H. unfold parse_param in H. cbv zeta in H.
    destruct (digits_split s) as (ix & r0 & E & A & B & D). rewrite D in H. subst s.
    rewrite firstn_app_exact, skipn_app_exact in H.
    apply bind_ok in H as (idx & H0 & H).
    assert (IP : index_part ix idx).
    { destruct ix as [|c ix].
      - cbn [length Nat.eqb] in H0. inversion H0; subst. constructor.
      - cbn [length Nat.eqb] in H0. destruct (parse_digits usize_max (c :: ix)) as [i|] eqn:P; try discriminate.
        inversion H0; subst. apply parse_digits_number in P as (P & L); auto. constructor; auto. }
    clear H0. apply bind_ok in H as ([t rr] & H1 & H). apply bind_ok in H as (h & H2 & H). inversion H; subst.
    apply parse_hint_part_iff in H2.
    destruct (strip_prefix (lit "=") r0) as [x|] eqn:SP.
    + apply ParserMore.strip_prefix_some in SP. pose proof (split_type_spec x) as ST. destruct (split_type x) as [tf tail].
      destruct ST as (S1 & S2 & S3). apply bind_ok in H1 as (u & H1 & X). inversion X; subst.
      apply parse_type_iff in H1. change (lit "=" ++ tf ++ rr) with ((61 :: tf) ++ rr).
      constructor; auto. constructor. auto.
    + inversion H1; subst. apply (PT m ix [] rr); auto. constructor.
  - intro H. destruct H as [a b c i t h HI HTy HH].
    assert (A : all_digits a) by (destruct HI; [constructor|eapply number_digits; eauto]).
    assert (F := hint_part_first _ _ _ HH).
    assert (ND : no_digit_first (b ++ c)).
    { destruct HTy; [|reflexivity]. destruct F as [->|(x & ->)]; reflexivity || exact I. }
    unfold parse_param. cbv zeta. rewrite digits_exact by auto. rewrite firstn_app_exact, skipn_app_exact.
    assert ((if (length a =? 0)%nat then Ok None
      else match parse_digits usize_max a with Some i => Ok (Some i) | None => Err InvalidInteger end) =
      (Ok i : outcome perr (option Z))) as ->.
    { destruct HI as [|ds n N L]; auto. assert (P : parse_digits usize_max ds = Some n) by (apply parse_digits_number; auto).
      rewrite P. destruct ds; [discriminate P|]. reflexivity. }
    cbn [bind].
    apply parse_hint_part_iff in HH.
    destruct HTy as [|x t T].
    + cbn [app]. assert (strip_prefix (lit "=") c = None) as ->.
      { destruct F as [->|(x & ->)]; reflexivity. }
      cbn [bind]. rewrite HH. reflexivity.
    + change ((61 :: x) ++ c) with (lit "=" ++ (x ++ c)). rewrite strip_prefix_app.
      rewrite split_type_app; auto. 2: { eapply type_text_no_colon; eauto. }
      apply parse_type_iff with (i := x ++ c) in T. rewrite T. cbn [bind]. rewrite HH. reflexivity.
Qed.
