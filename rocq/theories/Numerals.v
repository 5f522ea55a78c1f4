(** Positional numerals: what Rust's integer formatting ([{}], [{:x}], [{:o}],
    [{:b}]) prints, with the reading back of such numerals. *)
From Verif Require Import Base ParserModel ParserProofs.

Definition digit_char (upper : bool) (d : Z) : Z :=
  if d <? 10 then 48 + d else if upper then 55 + d else 87 + d.

Definition digit_val (c : Z) : Z :=
  if c <=? 57 then c - 48 else if c <=? 70 then c - 55 else c - 87.

(** Digits of [n >= 0], most significant first, prepended to [acc]. *)
Fixpoint num_loop (fuel : nat) (base : Z) (upper : bool) (n : Z) (acc : bytes) : bytes :=
  match fuel with
  | O => acc
  | S fuel' =>
      let acc := digit_char upper (n mod base) :: acc in
      if n / base =? 0 then acc else num_loop fuel' base upper (n / base) acc
  end.

(** [core::fmt] of an unsigned integer in a base: no leading zeros, ["0"] for 0. *)
Definition num_str (base : Z) (upper : bool) (n : Z) : bytes :=
  num_loop (S (Z.to_nat (Z.log2 n))) base upper n [].

Definition dec_str (n : Z) : bytes := num_str 10 false n.

Fixpoint num_value (base acc : Z) (s : bytes) : Z :=
  match s with
  | [] => acc
  | c :: s' => num_value base (base * acc + digit_val c) s'
  end.

Definition is_base_digit (base : Z) (upper : bool) (c : Z) : Prop :=
  exists d, 0 <= d < base /\ c = digit_char upper d.

Lemma digit_val_char : forall up d, 0 <= d < 16 -> digit_val (digit_char up d) = d.
Proof.
  intros up d H. unfold digit_val, digit_char. destruct (Z.ltb_spec d 10).
  - destruct (Z.leb_spec (48 + d) 57); lia.
  - destruct up.
    + destruct (Z.leb_spec (55 + d) 57); [lia|]. destruct (Z.leb_spec (55 + d) 70); lia.
    + destruct (Z.leb_spec (87 + d) 57); [lia|]. destruct (Z.leb_spec (87 + d) 70); lia.
Qed.

Lemma num_value_app : forall base a b acc, num_value base acc (a ++ b) = num_value base (num_value base acc a) b.
Proof. induction a as [|c a IH]; intros b acc; cbn [app num_value]; auto. Qed.

Lemma num_loop_app : forall fuel base up n acc, num_loop fuel base up n acc = num_loop fuel base up n [] ++ acc.
Proof.
  induction fuel as [|fuel IH]; intros base up n acc; cbn [num_loop]; auto.
  destruct (n / base =? 0); auto. rewrite IH, (IH _ _ _ [_]), <- app_assoc. reflexivity.
Qed.

Lemma num_loop_spec : forall fuel base up n, 2 <= base <= 16 -> 0 <= n -> n < base ^ Z.of_nat fuel -> (0 < fuel)%nat ->
  num_value base 0 (num_loop fuel base up n []) = n /\
  Forall (is_base_digit base up) (num_loop fuel base up n []) /\
  num_loop fuel base up n [] <> [] /\
  (n <> 0 -> exists c r, num_loop fuel base up n [] = c :: r /\ c <> 48) /\
  (n = 0 -> num_loop fuel base up n [] = [48]).
Proof.
  induction fuel as [|fuel IH]; intros base up n Hb Hn Hf Hp; [lia|]. cbn [num_loop]. clear Hp.
  pose proof (Z.div_mod n base ltac:(lia)) as DM. pose proof (Z.mod_pos_bound n base ltac:(lia)) as MB.
  assert (Dg : is_base_digit base up (digit_char up (n mod base))) by (exists (n mod base); auto).
  destruct (Z.eqb_spec (n / base) 0) as [E|E].
  - split; [|split; [|split; [|split]]].
    + cbn [num_value]. rewrite digit_val_char by lia. lia.
    + repeat constructor; auto.
    + discriminate.
    + intro H. exists (digit_char up (n mod base)), []. split; auto.
      unfold digit_char. destruct (Z.ltb_spec (n mod base) 10); [|destruct up]; lia.
    + intro H. subst n. reflexivity.
  - assert (0 <= n / base) by (apply Z.div_pos; lia).
    assert (n / base < base ^ Z.of_nat fuel).
    { apply Z.div_lt_upper_bound; [lia|]. rewrite Nat2Z.inj_succ, Z.pow_succ_r in Hf by lia. lia. }
    destruct fuel as [|fuel']. { cbn in H0. lia. }
    destruct (IH base up (n / base) Hb H H0 ltac:(lia)) as (A & B & C & D & _).
    rewrite num_loop_app. split; [|split; [|split; [|split]]].
    + rewrite num_value_app, A. cbn [num_value]. rewrite digit_val_char by lia. lia.
    + apply Forall_app; auto.
    + intro X. apply app_eq_nil in X as [_ X]. discriminate.
    + intros _. destruct (D E) as (c & r & Ec & Hc). rewrite Ec. exists c, (r ++ [digit_char up (n mod base)]). auto.
    + intro X. subst n. exfalso. apply E. apply Z.div_0_l. lia.
Qed.

Lemma num_fuel : forall base n, 2 <= base -> 0 <= n -> n < base ^ Z.of_nat (S (Z.to_nat (Z.log2 n))).
Proof.
  intros base n Hb Hn. rewrite Nat2Z.inj_succ, Z2Nat.id by apply Z.log2_nonneg.
  destruct (Z.eq_dec n 0) as [->|Hz].
  - apply Z.pow_pos_nonneg; [lia|]. cbn. lia.
  - pose proof (Z.log2_spec n ltac:(lia)) as [_ H].
    eapply Z.lt_le_trans; [exact H|]. apply Z.pow_le_mono_l. lia.
Qed.

Lemma num_str_spec : forall base up n, 2 <= base <= 16 -> 0 <= n ->
  num_value base 0 (num_str base up n) = n /\
  Forall (is_base_digit base up) (num_str base up n) /\
  num_str base up n <> [] /\
  (n <> 0 -> exists c r, num_str base up n = c :: r /\ c <> 48) /\
  (n = 0 -> num_str base up n = [48]).
Proof.
  intros base up n Hb Hn. unfold num_str. apply num_loop_spec; auto; [apply num_fuel; lia|lia].
Qed.

(* ------------------------------------------------------------------ *)
(** * Decimal, as read by the parser *)

Lemma dec_digit : forall c, is_base_digit 10 false c -> is_digit c = true /\ digit_val c = c - 48.
Proof.
  intros c (d & Hd & ->). unfold digit_char, is_digit, digit_val.
  destruct (Z.ltb_spec d 10); [|lia]. destruct (Z.leb_spec (48 + d) 57); lia.
Qed.

Lemma dec_str_digits : forall n, 0 <= n -> Forall (fun c => is_digit c = true) (dec_str n).
Proof.
  intros n Hn. destruct (num_str_spec 10 false n ltac:(lia) Hn) as (_ & D & _).
  eapply Forall_impl; [|exact D]. intros c Hc. apply dec_digit; auto.
Qed.

Lemma num_dec_value : forall s acc, Forall (is_base_digit 10 false) s -> num_value 10 acc s = dec_value acc s.
Proof.
  induction s as [|c s IH]; intros acc H; auto. inversion H; subst. cbn [num_value dec_value].
  apply dec_digit in H2 as [_ H2]. rewrite H2. auto.
Qed.

Lemma dec_str_value : forall n, 0 <= n -> dec_value 0 (dec_str n) = n.
Proof.
  intros n Hn. destruct (num_str_spec 10 false n ltac:(lia) Hn) as (V & D & _).
  rewrite <- num_dec_value by auto. exact V.
Qed.

Lemma dec_str_ne : forall n, 0 <= n -> dec_str n <> [].
Proof. intros n Hn. apply (num_str_spec 10 false n ltac:(lia) Hn). Qed.

Lemma parse_digits_dec_str : forall max n, 0 <= n <= max -> parse_digits max (dec_str n) = Some n.
Proof.
  intros max n H. unfold parse_digits. pose proof (dec_str_ne n ltac:(lia)) as NE.
  pose proof (dec_str_value n ltac:(lia)) as V. destruct (dec_str n); [congruence|]. cbv zeta. rewrite V.
  destruct (Z.leb_spec n max); [reflexivity|lia].
Qed.

Lemma digits_all : forall a r, Forall (fun c => is_digit c = true) a ->
  match r with c :: _ => is_digit c = false | [] => True end -> digits (a ++ r) = length a.
Proof.
  induction a as [|c a IH]; intros r H Hr; cbn [app digits length].
  - destruct r; cbn [digits]; auto. rewrite Hr. auto.
  - inversion H; subst. rewrite H2. f_equal. auto.
Qed.
