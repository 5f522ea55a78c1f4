(** Symbol names: round trip, characters, termination (C34). *)
From Verif Require Import Base Utf8 ParserModel ParserProofs DecoderModel Numerals DisplayModel SymbolModel.

(** The text of chars [cs] is recovered behind its escaped form. *)
Lemma escape_high : forall c r, is_scalar c = true -> 128 <= c ->
  parse_str (utf8_encode c ++ r) = prepend (utf8_encode c) (parse_str r).
Proof.
  intros c r S H.
  assert (P : forall b t, 128 <= b -> parse_str (b :: t) = prepend [b] (parse_str t)).
  { intros b t Hb. cbn [parse_str]. destruct (b =? 34) eqn:?; [lia|]. destruct (b =? 92) eqn:?; [lia|].
    destruct (b <? 32) eqn:?; [lia|]. reflexivity. }
  assert (Q : forall x y t, prepend x (prepend y t) = prepend (x ++ y) t).
  { intros x y t. unfold prepend. destruct t as [[a b]| | |]; cbn; auto. now rewrite app_assoc. }
  unfold is_scalar in S. rewrite Bool.orb_true_iff, !in_range_iff in S.
  unfold utf8_encode. destruct (c <? 128) eqn:?; [lia|].
  destruct (c <? 2048) eqn:?; [|destruct (c <? 65536) eqn:?]; cbn [app]; rewrite !P by lia; rewrite !Q; reflexivity.
Qed.

Lemma parse_plain : forall c r, 32 <= c -> c <> 34 -> c <> 92 -> parse_str (c :: r) = prepend [c] (parse_str r).
Proof.
  intros c r H1 H2 H3. cbn [parse_str]. destruct (c =? 34) eqn:?; [lia|]. destruct (c =? 92) eqn:?; [lia|].
  destruct (c <? 32) eqn:?; [lia|]. reflexivity.
Qed.

Definition small_chars : list Z := map Z.of_nat (seq 0 160).

Lemma small_in : forall c, 0 <= c <= 159 -> In c small_chars.
Proof. intros c H. apply in_map_iff. exists (Z.to_nat c). split; [lia|]. apply in_seq. lia. Qed.

(** The [\u] escapes. *)
Lemma unicode_escape : forall c, 0 <= c <= 159 ->
  exists a b d e, pad_integral false [] (num_str 16 false c) 4 = [a; b; d; e] /\ hex4 a b d e = Some c.
Proof.
  intros c H. apply small_in in H. revert c H.
  assert (K : forallb (fun c => match pad_integral false [] (num_str 16 false c) 4 with
     | [a; b; d; e] => match hex4 a b d e with Some v => v =? c | None => false end
     | _ => false end) small_chars = true) by (vm_compute; reflexivity).
  rewrite forallb_forall in K. intros c H. specialize (K c H).
  destruct (pad_integral _ _ _ _) as [|a [|b [|d [|e [|]]]]]; try discriminate.
  exists a, b, d, e. split; auto. destruct (hex4 a b d e) as [v|]; [|discriminate]. f_equal. lia.
Qed.

Lemma escape_one : forall c r, is_scalar c = true -> parse_str (escape_char c ++ r) = prepend (utf8_encode c) (parse_str r).
Proof.
  intros c r S. unfold escape_char.
  assert (Nn : 0 <= c). { unfold is_scalar in S. rewrite Bool.orb_true_iff, !in_range_iff in S. lia. }
  destruct (c =? 92) eqn:E1. { assert (c = 92) by lia. subst. reflexivity. }
  destruct (c =? 34) eqn:E2. { assert (c = 34) by lia. subst. reflexivity. }
  destruct (c =? 10) eqn:E3. { assert (c = 10) by lia. subst. reflexivity. }
  destruct (is_control c || (c =? 64)) eqn:E4.
  - assert (R : 0 <= c <= 159). { unfold is_control in E4. rewrite !Bool.orb_true_iff, !in_range_iff in E4. lia. }
    destruct (unicode_escape c R) as (a & b & d & e & -> & Hx). cbn [app parse_str].
    change (92 =? 34) with false. change (92 =? 92) with true. cbn match. change (simple_escape 117) with (@None Z).
    change (117 =? 117) with true. cbn match. rewrite Hx.
    destruct (in_range 56320 57343 c) eqn:Q1; [apply in_range_iff in Q1; lia|].
    destruct (in_range 55296 56319 c) eqn:Q2; [apply in_range_iff in Q2; lia|]. reflexivity.
  - unfold is_control in E4. rewrite !Bool.orb_false_iff, !in_range_false in E4.
    destruct (Z.lt_ge_cases c 128) as [L|L]; [|apply escape_high; auto].
    unfold utf8_encode. destruct (c <? 128) eqn:?; [|lia]. cbn [app]. apply parse_plain; lia.
Qed.

Lemma escape_chars : forall cs r, Forall (fun c => is_scalar c = true) cs ->
  parse_str (concat (map escape_char cs) ++ 34 :: r) = Ok (utf8_text cs, r).
Proof.
  induction cs as [|c cs IH]; intros r F; [reflexivity|]. inversion F; subst. cbn [map concat]. rewrite <- app_assoc.
  rewrite escape_one by auto. rewrite IH by auto. reflexivity.
Qed.

(** Decoding gives scalars that encode back. *)
Lemma decode_scalars : forall s cs, utf8_decode s = Some cs -> Forall (fun c => is_scalar c = true) cs /\ utf8_text cs = s.
Proof.
  induction s as [s IH] using bytes_length_ind. intros cs D.
  destruct s as [|a s1]; cbn [utf8_decode] in D.
  { inversion D; subst. split; constructor. }
  assert (K : forall c w t, (length t < length (a :: s1))%nat -> is_scalar c = true -> utf8_encode c = w -> a :: s1 = w ++ t ->
    option_map (cons c) (utf8_decode t) = Some cs -> Forall (fun c => is_scalar c = true) cs /\ utf8_text cs = a :: s1).
  { intros c w t L Sc En Eq H. destruct (utf8_decode t) as [cs'|] eqn:Q; [|discriminate]. cbn in H. inversion H; subst.
    destruct (IH t L _ Q) as [F T]. split; [constructor; auto|]. unfold utf8_text. cbn [map concat]. fold (utf8_text cs').
    now rewrite T. }
  destruct (in_range 0 127 a) eqn:R1.
  { apply in_range_iff in R1. eapply (K a [a] s1); eauto.
    - unfold is_scalar. rewrite Bool.orb_true_iff, !in_range_iff. lia.
    - unfold utf8_encode. destruct (a <? 128) eqn:?; [auto|lia]. }
  destruct s1 as [|b s2]; [discriminate|].
  destruct (in_range 194 223 a) eqn:R2.
  { destruct (in_range 128 191 b) eqn:R3; [|discriminate]. apply in_range_iff in R2, R3.
    set (c := (a - 192) * 64 + (b - 128)) in *. assert (C : 128 <= c < 2048) by lia.
    eapply (K c [a; b] s2); eauto; cbn [length]; try lia.
    - unfold is_scalar. rewrite Bool.orb_true_iff, !in_range_iff. lia.
    - unfold utf8_encode. destruct (c <? 128) eqn:?; [lia|]. destruct (c <? 2048) eqn:?; [|lia]. subst c. repeat f_equal; lia. }
  destruct s2 as [|c s3]; [discriminate|].
  destruct ((a =? 224) && in_range 160 191 b || in_range 225 236 a && in_range 128 191 b
            || (a =? 237) && in_range 128 159 b || in_range 238 239 a && in_range 128 191 b) eqn:R4.
  { destruct (in_range 128 191 c) eqn:R5; [|discriminate]. apply in_range_iff in R5.
    rewrite !Bool.orb_true_iff, !Bool.andb_true_iff, !in_range_iff in R4.
    set (x := (a - 224) * 4096 + (b - 128) * 64 + (c - 128)) in *.
    assert (X : 2048 <= x < 55296 \/ 57344 <= x < 65536) by lia.
    eapply (K x [a; b; c] s3); eauto; cbn [length]; try lia.
    - unfold is_scalar. rewrite Bool.orb_true_iff, !in_range_iff. lia.
    - unfold utf8_encode. destruct (x <? 128) eqn:?; [lia|]. destruct (x <? 2048) eqn:?; [lia|].
      destruct (x <? 65536) eqn:?; [|lia]. subst x. repeat f_equal; lia. }
  destruct s3 as [|d s4]; [discriminate|].
  match goal with | D : (if ?q then _ else _) = _ |- _ => destruct q eqn:R6; [|discriminate] end.
  rewrite !Bool.andb_true_iff, !Bool.orb_true_iff, !Bool.andb_true_iff, !in_range_iff in R6.
  set (x := (a - 240) * 262144 + (b - 128) * 4096 + (c - 128) * 64 + (d - 128)) in *.
  assert (X : 65536 <= x <= 1114111) by lia.
  eapply (K x [a; b; c; d] s4); eauto; cbn [length]; try lia.
  - unfold is_scalar. rewrite Bool.orb_true_iff, !in_range_iff. lia.
  - unfold utf8_encode. destruct (x <? 128) eqn:?; [lia|]. destruct (x <? 2048) eqn:?; [lia|].
    destruct (x <? 65536) eqn:?; [lia|]. subst x. repeat f_equal; lia.
Qed.

Lemma chars_valid : forall s, utf8_valid s = true ->
  Forall (fun c => is_scalar c = true) (chars s) /\ utf8_text (chars s) = s.
Proof.
  intros s V. apply utf8_decode_valid in V as (cs & D). unfold chars. rewrite D. now apply decode_scalars.
Qed.

Lemma parse_escaped : forall s r, utf8_valid s = true -> parse_str (json_escape s ++ 34 :: r) = Ok (s, r).
Proof.
  intros s r V. destruct (chars_valid s V) as [F T]. unfold json_escape. rewrite escape_chars by auto. now rewrite T.
Qed.

Lemma parse_digits_str : forall ds r, Forall (fun c => is_digit c = true) ds -> parse_str (ds ++ 34 :: r) = Ok (ds, r).
Proof.
  induction ds as [|c ds IH]; intros r F; [reflexivity|]. inversion F as [|? ? D F']; subst. cbn [app].
  unfold is_digit in D. rewrite parse_plain by lia. rewrite IH by auto. reflexivity.
Qed.

(** * The round trip *)

Definition symbol_ok (y : symbol) : Prop :=
  utf8_valid (s_package y) = true /\ utf8_valid (s_tag y) = true /\ utf8_valid (s_data y) = true /\
  utf8_valid (s_crate y) = true /\ 0 <= s_disambiguator y.

Lemma read_quoted : forall s r, utf8_valid s = true -> read_string (34 :: json_escape s ++ 34 :: r) = Ok (s, r).
Proof. intros s r V. unfold read_string. change (skip_ws (34 :: ?x)) with (34 :: x). cbn [expect]. 
  replace (expect [34] (skip_ws (34 :: json_escape s ++ 34 :: r))) with (@Ok unit bytes (json_escape s ++ 34 :: r)).
  - cbn [bind]. now apply parse_escaped.
  - reflexivity.
Qed.

Lemma read_map_step : forall fuel first f key v r f1,
  parse_str (key ++ 34 :: 58 :: v) = Ok (key, 58 :: v) ->
  read_field (S fuel) key f v = Ok (f1, r) ->
  read_map (S fuel) first f ((if first then [34] else [44; 34]) ++ key ++ 34 :: 58 :: v) = read_map fuel false f1 r.
Proof.
  intros fuel first f key v r f1 P R. cbn [read_map].
  destruct first; cbn [app skip_ws].
  - change (is_ws 34) with false. cbn iota. change (34 =? 125) with false. cbn iota. cbn [bind].
    change (expect [34] (34 :: ?x)) with (@Ok unit bytes x). cbn [bind]. rewrite P. cbn [bind fst snd].
    change (expect_colon (58 :: v)) with (@Ok unit bytes v). cbn [bind]. rewrite R. reflexivity.
  - change (is_ws 44) with false. cbn iota. change (44 =? 125) with false. change (44 =? 44) with true. cbn iota. cbn [bind skip_ws].
    change (is_ws 34) with false. cbn iota.
    change (expect [34] (34 :: ?x)) with (@Ok unit bytes x). cbn [bind]. rewrite P. cbn [bind fst snd].
    change (expect_colon (58 :: v)) with (@Ok unit bytes v). cbn [bind]. rewrite R. reflexivity.
Qed.

Theorem demangle_mangle : forall y, symbol_ok y ->
  demangle (mangle y) =
    Ok (MkDSymbol (s_package y) (dec_str (s_disambiguator y)) (s_tag y) (s_data y) (Some (s_crate y))).
Proof.
  intros [p n t x c] (Vp & Vt & Vx & Vc & Hn). cbn [s_package s_disambiguator s_tag s_data s_crate] in *.
  unfold demangle. unfold mangle. cbn [s_package s_disambiguator s_tag s_data s_crate].
  set (m := lit "{""package"":""" ++ _).
  assert (L : (6 <= length m)%nat) by (subst m; rewrite app_length; cbn [lit length]; cbn; lia).
  destruct (length m) as [|[|[|[|[|[|k]]]]]] eqn:Lm; try lia. clear L.
  assert (M : m = 123 :: ([34] ++ lit "package" ++ 34 :: 58 :: 34 :: json_escape p ++ 34 ::
    ([44; 34] ++ lit "tag" ++ 34 :: 58 :: 34 :: json_escape t ++ 34 ::
    ([44; 34] ++ lit "data" ++ 34 :: 58 :: 34 :: json_escape x ++ 34 ::
    ([44; 34] ++ lit "disambiguator" ++ 34 :: 58 :: 34 :: dec_str n ++ 34 ::
    ([44; 34] ++ lit "crate_name" ++ 34 :: 58 :: 34 :: json_escape c ++ 34 :: [125])))))).
  { subst m. cbn [lit app]. reflexivity. }
  rewrite M. change (skip_ws (123 :: ?z)) with (123 :: z). change (123 =? 123) with true. cbn match.
  rewrite (read_map_step _ true) with (r := [44; 34] ++ lit "tag" ++ 34 :: 58 :: 34 :: json_escape t ++ 34 ::
    ([44; 34] ++ lit "data" ++ 34 :: 58 :: 34 :: json_escape x ++ 34 ::
    ([44; 34] ++ lit "disambiguator" ++ 34 :: 58 :: 34 :: dec_str n ++ 34 ::
    ([44; 34] ++ lit "crate_name" ++ 34 :: 58 :: 34 :: json_escape c ++ 34 :: [125]))))
    (f1 := MkFields (Some p) None None None None); [|reflexivity|].
  2: { cbn [read_field beq]. unfold read_field. change (beq (lit "package") (lit "package")) with true. cbn iota.
       cbn [f_package]. rewrite read_quoted by auto. reflexivity. }
  rewrite (read_map_step _ false) with (r :=
    ([44; 34] ++ lit "data" ++ 34 :: 58 :: 34 :: json_escape x ++ 34 ::
    ([44; 34] ++ lit "disambiguator" ++ 34 :: 58 :: 34 :: dec_str n ++ 34 ::
    ([44; 34] ++ lit "crate_name" ++ 34 :: 58 :: 34 :: json_escape c ++ 34 :: [125]))))
    (f1 := MkFields (Some p) None (Some t) None None); [|reflexivity|].
  2: { unfold read_field. change (beq (lit "tag") (lit "package")) with false. change (beq (lit "tag") (lit "disambiguator")) with false.
       change (beq (lit "tag") (lit "tag")) with true. cbn iota.
       cbn [f_tag f_package f_disambiguator f_data f_crate]. rewrite read_quoted by auto. reflexivity. }
  rewrite (read_map_step _ false) with (r :=
    ([44; 34] ++ lit "disambiguator" ++ 34 :: 58 :: 34 :: dec_str n ++ 34 ::
    ([44; 34] ++ lit "crate_name" ++ 34 :: 58 :: 34 :: json_escape c ++ 34 :: [125])))
    (f1 := MkFields (Some p) None (Some t) (Some x) None); [|reflexivity|].
  2: { unfold read_field. change (beq (lit "data") (lit "package")) with false. change (beq (lit "data") (lit "disambiguator")) with false.
       change (beq (lit "data") (lit "tag")) with false. change (beq (lit "data") (lit "data")) with true. cbn iota.
       cbn [f_tag f_package f_disambiguator f_data f_crate]. rewrite read_quoted by auto. reflexivity. }
  rewrite (read_map_step _ false) with (r :=
    ([44; 34] ++ lit "crate_name" ++ 34 :: 58 :: 34 :: json_escape c ++ 34 :: [125]))
    (f1 := MkFields (Some p) (Some (dec_str n)) (Some t) (Some x) None); [|reflexivity|].
  2: { unfold read_field. change (beq (lit "disambiguator") (lit "package")) with false.
       change (beq (lit "disambiguator") (lit "disambiguator")) with true. cbn iota.
       cbn [f_tag f_package f_disambiguator f_data f_crate]. unfold read_string.
       change (expect [34] (skip_ws (34 :: ?z))) with (@Ok unit bytes z). cbn [bind].
       rewrite parse_digits_str by (now apply dec_str_digits). reflexivity. }
  rewrite (read_map_step _ false) with (r := [125])
    (f1 := MkFields (Some p) (Some (dec_str n)) (Some t) (Some x) (Some (Some c))); [|reflexivity|].
  2: { unfold read_field. change (beq (lit "crate_name") (lit "package")) with false.
       change (beq (lit "crate_name") (lit "disambiguator")) with false. change (beq (lit "crate_name") (lit "tag")) with false.
       change (beq (lit "crate_name") (lit "data")) with false. change (beq (lit "crate_name") (lit "crate_name")) with true. cbn iota.
       cbn [f_tag f_package f_disambiguator f_data f_crate]. unfold read_option. change (skip_ws (34 :: ?z)) with (34 :: z). cbn iota.
       change (34 =? 110) with false. cbn iota. rewrite read_quoted by auto. reflexivity. }
  reflexivity.
Qed.

(** * Characters *)

Lemma escape_char_clean : forall c d, is_scalar c = true ->
  exists cs, utf8_decode (escape_char c) = Some cs /\ escape_char c = utf8_text cs /\
    Forall (fun c => is_scalar c = true) cs /\ (In d cs -> is_control d = false /\ d <> 64).
Proof.
  intros c d S.
  assert (A : forall l, forallb (fun c => is_scalar c && (c <? 128) && negb (is_control c) && negb (c =? 64)) l = true ->
    exists cs, utf8_decode l = Some cs /\ l = utf8_text cs /\ Forall (fun c => is_scalar c = true) cs /\
      (In d cs -> is_control d = false /\ d <> 64)).
  { intros l H. rewrite forallb_forall in H. exists l.
    assert (F : Forall (fun c => is_scalar c = true) l).
    { apply Forall_forall. intros z I. specialize (H z I). rewrite !Bool.andb_true_iff in H. tauto. }
    assert (T : l = utf8_text l).
    { clear F. induction l as [|z l IH]; [reflexivity|]. unfold utf8_text. cbn [map concat]. fold (utf8_text l).
      rewrite <- IH by (intros; apply H; now right). specialize (H z ltac:(now left)). rewrite !Bool.andb_true_iff in H.
      unfold utf8_encode. destruct H as [[[_ H] _] _]. now rewrite H. }
    split; [rewrite T at 1; now apply utf8_decode_text|]. split; auto. split; auto.
    intros I. specialize (H d I). rewrite !Bool.andb_true_iff, !Bool.negb_true_iff in H. split; [tauto|lia]. }
  unfold escape_char. destruct (c =? 92); [apply A; reflexivity|]. destruct (c =? 34); [apply A; reflexivity|].
  destruct (c =? 10); [apply A; reflexivity|]. destruct (is_control c || (c =? 64)) eqn:E4.
  - assert (R : 0 <= c <= 159). { unfold is_control in E4. rewrite !Bool.orb_true_iff, !in_range_iff in E4. lia. }
    apply A. clear - R. apply small_in in R. revert c R. rewrite <- Forall_forall.
    apply Forall_forall. apply forallb_forall. vm_compute. reflexivity.
  - exists [c]. unfold utf8_text. cbn [map concat]. rewrite app_nil_r.
    assert (D : utf8_decode (utf8_encode c) = Some [c]).
    { rewrite <- (app_nil_r (utf8_encode c)). rewrite utf8_decode_encode by auto. reflexivity. }
    split; auto. split; auto. split; auto. intros [->|[]]. rewrite Bool.orb_false_iff in E4. split; [tauto|lia].
Qed.

(** Characters of a text. *)
Definition no_control (s : bytes) : Prop :=
  exists cs, Forall (fun c => is_scalar c = true) cs /\ s = utf8_text cs /\ forall c, In c cs -> is_control c = false /\ c <> 64.

Lemma no_control_app : forall a b, no_control a -> no_control b -> no_control (a ++ b).
Proof.
  intros a b (x & F1 & -> & H1) (y & F2 & -> & H2). exists (x ++ y). split; [apply Forall_app_iff; auto|].
  split; [unfold utf8_text; now rewrite map_app, concat_app|]. intros c I. apply in_app_or in I as [I|I]; auto.
Qed.

Lemma no_control_ascii : forall l, forallb (fun c => in_range 32 126 c && negb (c =? 64)) l = true -> no_control l.
Proof.
  intros l H. rewrite forallb_forall in H.
  assert (K : forall c, In c l -> 32 <= c <= 126 /\ c <> 64).
  { intros c I. specialize (H c I). rewrite Bool.andb_true_iff, Bool.negb_true_iff, in_range_iff in H. lia. }
  clear H. exists l. split; [|split].
  - apply Forall_forall. intros c I. apply K in I. unfold is_scalar. rewrite Bool.orb_true_iff, !in_range_iff. lia.
  - induction l as [|c l IH]; [reflexivity|]. unfold utf8_text. cbn [map concat]. fold (utf8_text l).
    rewrite <- IH by (intros; apply K; now right). specialize (K c ltac:(now left)). unfold utf8_encode.
    destruct (c <? 128) eqn:?; [reflexivity|lia].
  - intros c I. apply K in I. split; [|lia]. unfold is_control. rewrite Bool.orb_false_iff, !in_range_false. lia.
Qed.

Lemma escape_no_control : forall s, utf8_valid s = true -> no_control (json_escape s).
Proof.
  intros s V. destruct (chars_valid s V) as [F _]. unfold json_escape. revert F. generalize (chars s). clear.
  induction 1 as [|c cs S F IH]; cbn [map concat].
  - apply no_control_ascii. reflexivity.
  - apply no_control_app; auto. destruct (escape_char_clean c 0 S) as (ds & D & E & Fd & _). exists ds.
    split; auto. split; auto. intros d I. destruct (escape_char_clean c d S) as (ds' & D' & _ & _ & H). apply H. congruence.
Qed.

(** Symbol names are text without control characters and without [@]. *)
Theorem mangle_no_control : forall y, symbol_ok y -> no_control (mangle y).
Proof.
  intros y (Vp & Vt & Vx & Vc & Hn). unfold mangle.
  repeat (apply no_control_app; [first [apply escape_no_control; assumption
    | apply no_control_ascii; reflexivity
    | apply no_control_ascii, forallb_forall; intros c I; pose proof (dec_str_digits _ Hn) as D; rewrite Forall_forall in D;
      apply D in I; unfold is_digit in I; rewrite Bool.andb_true_iff, Bool.negb_true_iff, in_range_iff; lia ]|]).
  apply no_control_ascii. reflexivity.
Qed.

Theorem mangle_valid : forall y, symbol_ok y -> utf8_valid (mangle y) = true.
Proof. intros y H. destruct (mangle_no_control y H) as (cs & F & -> & _). now apply utf8_text_valid. Qed.

(** Different strings have different symbols. *)
Theorem mangle_injective : forall y z, symbol_ok y -> symbol_ok z -> mangle y = mangle z -> y = z.
Proof.
  intros y z Hy Hz E. pose proof (demangle_mangle y Hy) as A. pose proof (demangle_mangle z Hz) as B. rewrite E in A.
  rewrite A in B. destruct y as [yp yn yt yd yc], z as [zp zn zt zd zc]. cbn [s_package s_disambiguator s_tag s_data s_crate] in *.
  assert (B2 : dec_str yn = dec_str zn) by congruence.
  destruct Hy as (_ & _ & _ & _ & Dy). destruct Hz as (_ & _ & _ & _ & Dz). cbn [s_disambiguator] in *.
  assert (N : yn = zn) by (rewrite <- (dec_str_value yn), <- (dec_str_value zn), B2; auto). congruence.
Qed.

(** * Reading any name stops with a symbol or an error *)

Lemma skip_ws_length : forall s, (length (skip_ws s) <= length s)%nat.
Proof. induction s as [|c s IH]; cbn; auto. destruct (is_ws c); cbn; lia. Qed.


(** [fits n len r]: [r] is an error or leaves at most [n] bytes. *)
Definition fits {A} (n : nat) (rest : A -> bytes) (r : outcome unit A) : Prop :=
  match r with
  | Ok a => (length (rest a) <= n)%nat
  | Err _ => True
  | Panic | NoFuel => False
  end.

Definition same (s : bytes) : bytes := s.

Lemma fits_bind : forall {A B} n m (f : A -> bytes) (g : B -> bytes) (r : outcome unit A) (k : A -> outcome unit B),
  fits n f r -> (forall a, (length (f a) <= n)%nat -> fits m g (k a)) -> fits m g (bind r k).
Proof. intros A B n m f g r k H K. destruct r; cbn in *; auto. Qed.

Lemma fits_le : forall {A} n m (f : A -> bytes) r, (n <= m)%nat -> fits n f r -> fits m f r.
Proof. intros A n m f [a| | |] L H; cbn in *; auto. lia. Qed.

Lemma expect_fits : forall p s n, (length s <= n)%nat -> fits n same (expect p s).
Proof.
  intros p s n L. unfold expect. destruct (strip_prefix p s) eqn:E; cbn; auto. apply strip_prefix_some in E. subst.
  rewrite app_length in L. unfold same. lia.
Qed.

Lemma expect_fits1 : forall c s n, (length s <= S n)%nat -> fits n same (expect [c] s).
Proof.
  intros c s n L. unfold expect. destruct (strip_prefix [c] s) eqn:E; cbn; auto. apply strip_prefix_some in E. subst.
  rewrite app_length in L. cbn in L. unfold same. lia.
Qed.

Lemma prepend_fits : forall n x r, fits n snd r -> fits n snd (prepend x r).
Proof. intros n x [[a b]| | |] H; cbn in *; auto. Qed.

Lemma parse_str_fits : forall (s : bytes) n, (length s <= S n)%nat -> fits n snd (parse_str s).
Proof.
  induction s as [s IH] using bytes_length_ind. intros n L. destruct s as [|c r]; [exact Logic.I|]. cbn [length] in L.
  assert (K : forall t, (length t < length (c :: r))%nat -> fits n snd (parse_str t)).
  { intros t Lt. cbn [length] in Lt. destruct t as [|z t]; [exact Logic.I|]. cbn [length] in *. 
    eapply fits_le; [|apply (IH (z :: t)); cbn [length]; [lia|]; apply Nat.le_refl]. lia. }
  cbn [length] in K. cbn [parse_str]. destruct (c =? 34); [cbn; lia|]. destruct (c =? 92).
  - destruct r as [|e r1]; [exact Logic.I|]. cbn [length] in *. destruct (simple_escape e); [apply prepend_fits, K; lia|].
    destruct (e =? 117); [|exact Logic.I]. destruct r1 as [|h1 [|h2 [|h3 [|h4 r2]]]]; try exact Logic.I. cbn [length] in *.
    destruct (hex4 h1 h2 h3 h4); [|exact Logic.I]. destruct (in_range 56320 57343 _); [exact Logic.I|].
    destruct (in_range 55296 56319 _); [|apply prepend_fits, K; lia].
    destruct r2 as [|x [|y [|k1 [|k2 [|k3 [|k4 r3]]]]]]; try exact Logic.I. cbn [length] in *.
    destruct ((x =? 92) && (y =? 117)); [|exact Logic.I]. destruct (hex4 k1 k2 k3 k4); [|exact Logic.I].
    destruct (in_range 56320 57343 _); [|exact Logic.I]. apply prepend_fits, K; lia.
  - destruct (c <? 32); [exact Logic.I|]. apply prepend_fits, K; lia.
Qed.

Lemma ignore_str_fits : forall (s : bytes) n, (length s <= S n)%nat -> fits n same (ignore_str s).
Proof.
  induction s as [s IH] using bytes_length_ind. intros n L. destruct s as [|c r]; [exact Logic.I|]. cbn [length] in L.
  assert (K : forall t, (length t < length (c :: r))%nat -> fits n same (ignore_str t)).
  { intros t Lt. cbn [length] in Lt. destruct t as [|z t]; [exact Logic.I|]. cbn [length] in *.
    eapply fits_le; [|apply (IH (z :: t)); cbn [length]; [lia|]; apply Nat.le_refl]. lia. }
  cbn [length] in K. cbn [ignore_str]. destruct (c =? 34); [cbn; unfold same; lia|]. destruct (c =? 92).
  - destruct r as [|e r1]; [exact Logic.I|]. cbn [length] in *. destruct (simple_escape e); [apply K; lia|].
    destruct (e =? 117); [|exact Logic.I]. destruct r1 as [|h1 [|h2 [|h3 [|h4 r2]]]]; try exact Logic.I. cbn [length] in *.
    destruct (hex4 h1 h2 h3 h4); [|exact Logic.I]. apply K; lia.
  - destruct (c <? 32); [exact Logic.I|]. apply K; lia.
Qed.

Lemma skip_digits_length : forall s, (length (skip_digits s) <= length s)%nat.
Proof. induction s as [|c s IH]; cbn; auto. destruct (is_digit c); cbn; lia. Qed.

Lemma some_digits_fits : forall s n, (length s <= n)%nat -> fits n same (some_digits s).
Proof.
  intros [|c r] n L; [exact Logic.I|]. cbn. destruct (is_digit c); cbn; auto. pose proof (skip_digits_length r). cbn in L. unfold same. lia.
Qed.

Lemma ignore_fraction_fits : forall s n, (length s <= n)%nat -> fits n same (ignore_fraction s).
Proof.
  intros s n L. unfold ignore_fraction. eapply (fits_bind n).
  - instantiate (1 := same). destruct s as [|c r]; [cbn; auto|]. destruct (c =? 46); [|cbn in *; unfold same; cbn; lia].
    apply some_digits_fits. cbn in L. lia.
  - intros t Lt. unfold same in Lt. destruct t as [|c r]; [cbn; lia|]. destruct ((c =? 101) || (c =? 69)); [|exact Lt].
    unfold ignore_exponent. destruct r as [|d r]; [exact Logic.I|]. cbn in Lt.
    destruct ((d =? 43) || (d =? 45)); apply some_digits_fits; cbn; lia.
Qed.

Lemma ignore_number_fits : forall s n, (length s <= S n)%nat -> fits n same (ignore_number s).
Proof.
  intros [|c r] n L; [exact Logic.I|]. cbn in L. cbn [ignore_number]. destruct (c =? 48).
  - destruct r as [|d r]; [apply ignore_fraction_fits; cbn; lia|]. destruct (is_digit d); [exact Logic.I|].
    apply ignore_fraction_fits. lia.
  - destruct (is_digit c); [|exact Logic.I]. apply ignore_fraction_fits. pose proof (skip_digits_length r). lia.
Qed.

Lemma ignore_scalar_fits : forall s n, (length s <= S n)%nat -> fits n same (ignore_scalar s).
Proof.
  intros [|c r] n L; [exact Logic.I|]. pose proof L as L'. cbn in L. cbn [ignore_scalar].
  destruct (c =? 110); [apply expect_fits; lia|]. destruct (c =? 116); [apply expect_fits; lia|].
  destruct (c =? 102); [apply expect_fits; lia|]. destruct (c =? 45); [apply ignore_number_fits; lia|].
  destruct (is_digit c); [now apply ignore_number_fits|]. destruct (c =? 34); [apply ignore_str_fits; lia|exact Logic.I].
Qed.

Definition closed_rest (c : closed) : bytes := match c with CDone r => r | CNext _ _ r => r end.

Lemma close_fits : forall s comma frame stack n, (length s <= n)%nat -> fits n closed_rest (close_brackets comma frame stack s).
Proof.
  induction s as [|c r IH]; intros comma frame stack n L; [exact Logic.I|]. cbn [length] in L. cbn [close_brackets].
  destruct (is_ws c); [apply IH; lia|]. destruct ((c =? 44) && comma); [cbn; lia|]. destruct (c =? closing frame).
  - destruct stack; [cbn; lia|apply IH; lia].
  - destruct comma; [exact Logic.I|cbn; lia].
Qed.

Lemma ignore_value_fits : forall fuel stack s n, (length s < fuel)%nat -> (length s <= n)%nat -> fits n same (ignore_value fuel stack s).
Proof.
  induction fuel as [|fuel IH]; intros stack s n L Ln; [lia|]. cbn [ignore_value]. pose proof (skip_ws_length s) as W.
  destruct (skip_ws s) as [|c r] eqn:E; [exact Logic.I|]. cbn [length] in W.
  eapply (fits_bind (length r) _ closed_rest).
  - destruct ((c =? 91) || (c =? 123)); [apply close_fits; lia|].
    eapply (fits_bind (length r) _ same); [apply ignore_scalar_fits; cbn; lia|]. intros t Lt. unfold same in Lt.
    destruct stack; [cbn; lia|]. apply close_fits. lia.
  - intros [t|f st t] Lt; cbn in Lt; [cbn; unfold same; lia|].
    eapply (fits_bind (length r) _ same).
    + unfold ignore_key. destruct (f =? 123); [|exact Lt]. pose proof (skip_ws_length t).
      eapply (fits_bind (length r) _ same); [apply expect_fits; lia|]. intros u Lu. unfold same in Lu.
      eapply (fits_bind (length r) _ same); [apply ignore_str_fits; lia|]. intros v Lv. unfold same in Lv.
      unfold expect_colon. apply expect_fits. pose proof (skip_ws_length v). lia.
    + intros u Lu. unfold same in Lu. apply IH; lia.
Qed.

Lemma read_string_fits : forall s n, (length s <= n)%nat -> fits n snd (read_string s).
Proof.
  intros s n L. unfold read_string. pose proof (skip_ws_length s). eapply (fits_bind n _ same); [apply expect_fits; lia|].
  intros t Lt. unfold same in Lt. apply parse_str_fits. lia.
Qed.

Lemma read_option_fits : forall s n, (length s <= n)%nat -> fits n snd (read_option s).
Proof.
  intros s n L. unfold read_option. pose proof (skip_ws_length s) as W. destruct (skip_ws s) as [|c r] eqn:E; [exact Logic.I|].
  cbn in W. destruct (c =? 110).
  - eapply (fits_bind n _ same); [apply expect_fits; lia|]. intros t Lt. exact Lt.
  - eapply (fits_bind n _ snd); [now apply read_string_fits|]. intros t Lt. exact Lt.
Qed.

Lemma read_field_fits : forall fuel key f s n, (length s < fuel)%nat -> (length s <= n)%nat -> fits n snd (read_field fuel key f s).
Proof.
  intros fuel key f s n Lf L. unfold read_field.
  destruct (beq key (lit "package")).
  { destruct (f_package f); [exact Logic.I|]. eapply (fits_bind n _ snd); [now apply read_string_fits|]. intros t Lt. exact Lt. }
  destruct (beq key (lit "disambiguator")).
  { destruct (f_disambiguator f); [exact Logic.I|]. eapply (fits_bind n _ snd); [now apply read_string_fits|]. intros t Lt. exact Lt. }
  destruct (beq key (lit "tag")).
  { destruct (f_tag f); [exact Logic.I|]. eapply (fits_bind n _ snd); [now apply read_string_fits|]. intros t Lt. exact Lt. }
  destruct (beq key (lit "data")).
  { destruct (f_data f); [exact Logic.I|]. eapply (fits_bind n _ snd); [now apply read_string_fits|]. intros t Lt. exact Lt. }
  destruct (beq key (lit "crate_name")).
  { destruct (f_crate f); [exact Logic.I|]. eapply (fits_bind n _ snd); [now apply read_option_fits|]. intros t Lt. exact Lt. }
  eapply (fits_bind n _ same); [now apply ignore_value_fits|]. intros t Lt. exact Lt.
Qed.

Lemma read_map_fits : forall fuel first f s n, (length s < fuel)%nat -> (length s <= n)%nat -> fits n snd (read_map fuel first f s).
Proof.
  induction fuel as [|fuel IH]; intros first f s n Lf L; [lia|]. cbn [read_map]. pose proof (skip_ws_length s) as W.
  destruct (skip_ws s) as [|c r]; [exact Logic.I|]. cbn [length] in W. destruct (c =? 125).
  { destruct (finish f) as [y| | |] eqn:E; cbn; try lia; auto; destruct f as [[] [] [] [] ?]; discriminate. }
  assert (R : exists k, (S k = length (c :: r))%nat) by (eexists; reflexivity). destruct R as (k & R). cbn [length] in R.
  eapply (fits_bind (S k) _ same).
  { destruct first; [cbn; unfold same; cbn; lia|]. destruct (c =? 44); [|exact Logic.I]. cbn. unfold same. pose proof (skip_ws_length r). lia. }
  intros t Lt. unfold same in Lt. eapply (fits_bind k _ same); [apply expect_fits1; lia|]. intros u Lu. unfold same in Lu.
  eapply (fits_bind k _ snd); [apply parse_str_fits; lia|]. intros q Lq.
  eapply (fits_bind k _ same). { unfold expect_colon. apply expect_fits. pose proof (skip_ws_length (snd q)). lia. }
  intros v Lv. unfold same in Lv. eapply (fits_bind k _ snd); [apply read_field_fits; lia|]. intros z Lz. apply IH; lia.
Qed.

Lemma next_element_fits : forall first s n, (length s <= n)%nat -> fits n same (next_element first s).
Proof.
  intros first s n L. unfold next_element. pose proof (skip_ws_length s) as W. destruct (skip_ws s) as [|c r]; [exact Logic.I|].
  cbn [length] in W. destruct (c =? 93); [exact Logic.I|]. destruct first; [cbn; unfold same; cbn; lia|].
  destruct (c =? 44); [|exact Logic.I]. pose proof (skip_ws_length r) as W2. destruct (skip_ws r) as [|d r']; [exact Logic.I|].
  cbn [length] in W2. destruct (d =? 93); [exact Logic.I|]. cbn. unfold same. cbn. lia.
Qed.

Lemma read_seq_fits : forall s n, (length s <= n)%nat -> fits n snd (read_seq s).
Proof.
  intros s n L. unfold read_seq.
  repeat (eapply (fits_bind n _ same); [apply next_element_fits; eassumption || (unfold same in *; lia)|];
    intros ? ?; eapply (fits_bind n _ snd); [first [apply read_string_fits | apply read_option_fits]; assumption|]; intros ? ?).
  eapply (fits_bind n _ same); [apply expect_fits; match goal with | H : (length (snd ?c) <= n)%nat |- (length (skip_ws (snd ?c)) <= n)%nat => pose proof (skip_ws_length (snd c)); lia end|].
  intros t Lt. exact Lt.
Qed.

(** Demangling ends with a symbol or an error, for every name. *)
Theorem demangle_total : forall raw, (exists y, demangle raw = Ok y) \/ demangle raw = Err tt.
Proof.
  intros raw. unfold demangle. pose proof (skip_ws_length raw) as W. destruct (skip_ws raw) as [|c r]; [auto|]. cbn [length] in W.
  assert (F : fits (length r) snd (if c =? 123 then read_map (S (length raw)) true (MkFields None None None None None) r
            else if c =? 91 then read_seq r else Err tt)).
  { destruct (c =? 123); [apply read_map_fits; lia|]. destruct (c =? 91); [apply read_seq_fits; lia|exact Logic.I]. }
  match goal with | F : fits _ _ ?q |- _ => destruct q as [p|[]| |]; cbn in F; try contradiction; cbn [bind] end; auto.
  destruct (skip_ws (snd p)); [left; eauto|auto].
Qed.

(** The tags of the book and those of the host. *)
Lemma book_tags :
  let book := map lit ["defmt_prim"; "defmt_fmt"; "defmt_str"; "defmt_trace"; "defmt_debug"; "defmt_info"; "defmt_warn"; "defmt_error"]%string in
  (forall s, In s book -> (tag_from_str s = None <-> s = lit "defmt_fmt")) /\
  forall s, tag_from_str s <> None /\ ~ In s book <->
    In s (map lit ["defmt_derived"; "defmt_bitflags"; "defmt_write"; "defmt_timestamp"; "defmt_bitflags_value"; "defmt_println"]%string).
Proof.
  intros book. subst book. split.
  - intros s H. cbn [map In] in H. repeat (destruct H as [<-|H]; [split; [intros E; vm_compute in E; (discriminate || reflexivity)|intros E; (discriminate || reflexivity)]|]). destruct H.
  - intros s. split.
    + intros [K N]. unfold tag_from_str in K.
      repeat match type of K with (if beq s ?t then _ else _) <> _ => destruct (beq s t) eqn:E; [apply beq_true in E; subst s; solve [exfalso; apply N; cbn [map In]; auto 12 | cbn [map In]; auto 12]|clear E] end. congruence.
    + intros H. cbn [map In] in H.
      repeat (destruct H as [<-|H]; [split; [vm_compute; discriminate|intros F; cbn [map In] in F; repeat (destruct F as [F|F]; [discriminate F|]); exact F]|]). destruct H.
Qed.
