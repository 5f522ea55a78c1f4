(** Integers, times, flags, byte strings and bitfields as shown (C16, C23, C24, C26, C27). *)
From Verif Require Import Base Utf8 ParserModel ParserProofs DecoderModel Numerals EncodeModel EncodeSpec EncodeTop DisplayModel.

(* ------------------------------------------------------------------ *)
(** * Integers *)

(** [s] is [sign], [prefix] and a numeral for [n] in base [base]. *)
Definition numeral (base : Z) (upper : bool) (sign prefix : bytes) (n : Z) (s : bytes) : Prop :=
  exists ds, s = sign ++ prefix ++ ds /\ ds <> [] /\ Forall (is_base_digit base upper) ds /\ num_value base 0 ds = n.

Lemma num_value_zeros : forall base k s acc, num_value base 0 (repeat 48 k ++ s) = num_value base 0 s /\
  (acc = 0 -> num_value base acc (repeat 48 k) = 0).
Proof.
  intros base k s acc. split.
  - rewrite num_value_app. f_equal. induction k; cbn [repeat num_value]; auto.
    change (digit_val 48) with 0. rewrite Z.mul_0_r, Z.add_0_r. auto.
  - intros ->. induction k; cbn [repeat num_value]; auto.
    change (digit_val 48) with 0. rewrite Z.mul_0_r, Z.add_0_r. auto.
Qed.

Lemma zero_digit : forall base up, 2 <= base -> is_base_digit base up 48.
Proof. intros base up H. exists 0. split; [lia|reflexivity]. Qed.

Lemma pad_numeral : forall base up neg prefix n w, 2 <= base <= 16 -> 0 <= n ->
  let s := pad_integral neg prefix (num_str base up n) w in
  numeral base up (if neg then lit "-" else []) prefix n s /\ w <= Z.of_nat (length s).
Proof.
  intros base up neg prefix n w Hb Hn s. unfold s, pad_integral. cbv zeta.
  destruct (num_str_spec base up n Hb Hn) as (V & D & NE & _).
  set (k := Z.to_nat _). split.
  - exists (repeat 48 k ++ num_str base up n). rewrite <- app_assoc. split; [reflexivity|].
    split; [intro E; apply app_eq_nil in E as [_ E]; auto|]. split.
    + apply Forall_app. split; auto. apply Forall_forall. intros c Hc. apply repeat_spec in Hc as ->.
      apply zero_digit. lia.
    + destruct (num_value_zeros base k (num_str base up n) 0) as [-> _]. exact V.
  - rewrite !app_length, repeat_length. subst k. rewrite app_length. lia.
Qed.

(** Base, case, prefix and width of a numeric hint. *)
Definition numeric_hint (h : hint) : option (Z * bool * bytes * Z) :=
  match h with
  | HNoHint w => Some (10, false, [], w)
  | HBinary alt w => Some (2, false, if alt then lit "0b" else [], w)
  | HOctal alt w => Some (8, false, if alt then lit "0o" else [], w)
  | HHex alt up w => Some (16, up, if alt then lit "0x" else [], w)
  | _ => None
  end.

Lemma unsigned_shown : forall tbl x h base up prefix w, 0 <= x ->
  numeric_hint h = Some (base, up, prefix, w) ->
  let s := format_u128 tbl x (Some h) in
  numeral base up [] prefix x s /\ w <= Z.of_nat (length s).
Proof.
  intros tbl x h base up prefix w Hx E s. unfold s.
  destruct h; cbn [numeric_hint] in E; try discriminate; injection E as <- <- <- <-; cbn [format_u128].
  - unfold show_dec. replace (x <? 0) with false by lia. rewrite Z.abs_eq by lia.
    apply (pad_numeral 10 false false []); lia.
  - apply (pad_numeral 16 uppercase false); lia.
  - apply (pad_numeral 8 false false); lia.
  - apply (pad_numeral 2 false false); lia.
Qed.

Lemma unsigned_plain : forall tbl x, 0 <= x -> numeral 10 false [] [] x (format_u128 tbl x None).
Proof.
  intros tbl x H. cbn [format_u128]. destruct (num_str_spec 10 false x ltac:(lia) H) as (V & D & NE & _).
  exists (dec_str x). auto.
Qed.

Definition sign_of (x : Z) : bytes := if x <? 0 then lit "-" else [].

Lemma show_dec_shown : forall x w, numeral 10 false (sign_of x) [] (Z.abs x) (show_dec x w) /\
  w <= Z.of_nat (length (show_dec x w)).
Proof.
  intros x w. unfold show_dec, sign_of. apply (pad_numeral 10 false (x <? 0) []); lia.
Qed.

Lemma signed_decimal : forall x t w,
  (exists s, format_i128 x t (Some (HNoHint w)) = Some s /\
     numeral 10 false (sign_of x) [] (Z.abs x) s /\ w <= Z.of_nat (length s)) /\
  (exists s, format_i128 x t None = Some s /\ numeral 10 false (sign_of x) [] (Z.abs x) s).
Proof.
  intros x t w. split; eexists; (split; [reflexivity|]); apply show_dec_shown.
Qed.

Lemma to_signed_pow : forall n x, (0 < n)%nat ->
  - 2 ^ (8 * Z.of_nat n - 1) <= x < 2 ^ (8 * Z.of_nat n - 1) ->
  to_signed n (x mod 2 ^ (8 * Z.of_nat n)) = x.
Proof.
  intros n x Hn H. rewrite <- (to_signed_spec n x Hn H) at 2. do 2 f_equal.
  rewrite Z.pow_mul_r by lia. reflexivity.
Qed.

Lemma signed_hex : forall x n alt up w,
  - 2 ^ (8 * Z.of_nat (width_bytes n) - 1) <= x < 2 ^ (8 * Z.of_nat (width_bytes n) - 1) ->
  exists s m, format_i128 x (TI n) (Some (HHex alt up w)) = Some s /\
    numeral 16 up [] (if alt then lit "0x" else []) m s /\ w <= Z.of_nat (length s) /\
    0 <= m < 2 ^ (8 * Z.of_nat (width_bytes n)) /\ to_signed (width_bytes n) m = x.
Proof.
  intros x n alt up w H. cbn [format_i128]. eexists. exists (x mod 2 ^ (8 * Z.of_nat (width_bytes n))).
  assert (P : 0 < 2 ^ (8 * Z.of_nat (width_bytes n))) by (apply Z.pow_pos_nonneg; lia).
  pose proof (Z.mod_pos_bound x _ P) as B.
  split; [reflexivity|]. unfold show_radix.
  destruct (pad_numeral 16 up false (if alt then lit "0x" else []) _ w ltac:(lia) (proj1 B)) as [N W].
  split; [exact N|]. split; [exact W|]. split; [exact B|]. apply to_signed_pow; auto. destruct n; cbn; lia.
Qed.

Lemma signed_binary : forall x t alt w, - 2 ^ 127 <= x < 2 ^ 127 ->
  (exists s m, format_i128 x t (Some (HBinary alt w)) = Some s /\
    numeral 2 false [] (if alt then lit "0b" else []) m s /\ w <= Z.of_nat (length s) /\
    0 <= m < 2 ^ 128 /\ to_signed 16 m = x) /\
  (exists s m, format_i128 x t (Some (HOctal alt w)) = Some s /\
    numeral 8 false [] (if alt then lit "0o" else []) m s /\ w <= Z.of_nat (length s) /\
    0 <= m < 2 ^ 128 /\ to_signed 16 m = x).
Proof.
  intros x t alt w H. pose proof (Z.mod_pos_bound x (2 ^ 128) ltac:(lia)) as B.
  pose proof (to_signed_pow 16 x ltac:(lia) H) as T. change (8 * Z.of_nat 16) with 128 in T.
  split; eexists; exists (x mod 2 ^ 128); (split; [reflexivity|]); unfold show_radix.
  - destruct (pad_numeral 2 false false (if alt then lit "0b" else []) _ w ltac:(lia) (proj1 B)) as [N W]. repeat split; auto; lia.
  - destruct (pad_numeral 8 false false (if alt then lit "0o" else []) _ w ltac:(lia) (proj1 B)) as [N W]. repeat split; auto; lia.
Qed.

Lemma isize_hex_panics : forall x alt up w, format_i128 x TIsize (Some (HHex alt up w)) = None.
Proof. reflexivity. Qed.

(* ------------------------------------------------------------------ *)
(** * Times *)

(** [s] is a numeral of exactly [k] decimal digits for [n]. *)
Definition fixed_digits (k : nat) (n : Z) (s : bytes) : Prop :=
  length s = k /\ Forall (is_base_digit 10 false) s /\ num_value 10 0 s = n.

Lemma num_loop_length : forall fuel base up n k, 2 <= base -> 0 <= n < base ^ Z.of_nat (S k) ->
  (length (num_loop fuel base up n []) <= S k)%nat.
Proof.
  induction fuel as [|fuel IH]; intros base up n k Hb Hn; cbn [num_loop]; [cbn; lia|].
  destruct (Z.eqb_spec (n / base) 0); [cbn; lia|].
  rewrite num_loop_app, app_length. cbn [length].
  destruct k as [|k].
  - change (Z.of_nat 1) with 1 in Hn. rewrite Z.pow_1_r in Hn. rewrite Z.div_small in n0 by lia. lia.
  - specialize (IH base up (n / base) k Hb).
    assert (0 <= n / base < base ^ Z.of_nat (S k)); [|lia].
    split; [apply Z.div_pos; lia|]. apply Z.div_lt_upper_bound; [lia|].
    rewrite <- Z.pow_succ_r by lia. rewrite <- Nat2Z.inj_succ. lia.
Qed.

Lemma show_dec_fixed : forall k n, 0 <= n < 10 ^ Z.of_nat (S k) ->
  fixed_digits (S k) n (show_dec n (Z.of_nat (S k))).
Proof.
  intros k n H. unfold fixed_digits, show_dec. replace (n <? 0) with false by lia. rewrite Z.abs_eq by lia.
  assert (L : (length (dec_str n) <= S k)%nat) by (apply num_loop_length; lia).
  destruct (pad_numeral 10 false false [] n (Z.of_nat (S k)) ltac:(lia) ltac:(lia)) as [(ds & E & _ & D & V) _].
  cbn [app] in E. fold (dec_str n) in E. split; [|rewrite E; auto].
  unfold pad_integral. cbn [app length]. rewrite app_length, repeat_length. lia.
Qed.

Lemma seconds_shown : forall tbl x, 0 <= x ->
  (exists s ds, format_u128 tbl x (Some (HSeconds Micros)) = dec_str s ++ lit "." ++ ds /\
     exists m, fixed_digits 6 m ds /\ 0 <= s /\ 0 <= m < 1000000 /\ x = s * 1000000 + m) /\
  (exists s ds, format_u128 tbl x (Some (HSeconds Millis)) = dec_str s ++ lit "." ++ ds /\
     exists m, fixed_digits 3 m ds /\ 0 <= s /\ 0 <= m < 1000 /\ x = s * 1000 + m).
Proof.
  intros tbl x H. split.
  - exists (x / 1000000). eexists. split; [reflexivity|]. exists (x mod 1000000).
    pose proof (Z.mod_pos_bound x 1000000 ltac:(lia)). pose proof (Z.div_mod x 1000000 ltac:(lia)).
    pose proof (Z.div_pos x 1000000 H ltac:(lia)).
    split; [apply (show_dec_fixed 5); cbn; lia|]. lia.
  - exists (x / 1000). eexists. split; [reflexivity|]. exists (x mod 1000).
    pose proof (Z.mod_pos_bound x 1000 ltac:(lia)). pose proof (Z.div_mod x 1000 ltac:(lia)).
    pose proof (Z.div_pos x 1000 H ltac:(lia)).
    split; [apply (show_dec_fixed 2); cbn; lia|]. lia.
Qed.

(** Number of units per second, and the digits of the fraction. *)
Definition per_second (p : precision) : Z := match p with Micros => 1000000 | Millis => 1000 | Seconds => 1 end.

Definition fraction_text (p : precision) (n : Z) (s : bytes) : Prop :=
  match p with
  | Micros => exists ds, s = lit "." ++ ds /\ fixed_digits 6 n ds
  | Millis => exists ds, s = lit "." ++ ds /\ fixed_digits 3 n ds
  | Seconds => s = [] /\ n = 0
  end.

Lemma fraction_shown : forall p n, 0 <= n < per_second p ->
  fraction_text p n match p with Micros => lit "." ++ show_dec n 6 | Millis => lit "." ++ show_dec n 3 | Seconds => [] end.
Proof.
  intros [] n H; cbn [per_second fraction_text] in *.
  - eexists. split; [reflexivity|]. apply (show_dec_fixed 5); cbn; lia.
  - eexists. split; [reflexivity|]. apply (show_dec_fixed 2); cbn; lia.
  - split; [reflexivity|lia].
Qed.

Lemma time_shown : forall x p, 0 <= x ->
  exists days hours minutes seconds fraction th tm ts tf,
    format_time x p = (if days =? 0 then [] else dec_str days ++ lit ":") ++
      th ++ lit ":" ++ tm ++ lit ":" ++ ts ++ tf /\
    fixed_digits 2 hours th /\ fixed_digits 2 minutes tm /\ fixed_digits 2 seconds ts /\ fraction_text p fraction tf /\
    0 <= days /\ 0 <= hours < 24 /\ 0 <= minutes < 60 /\ 0 <= seconds < 60 /\ 0 <= fraction < per_second p /\
    x = (((days * 24 + hours) * 60 + minutes) * 60 + seconds) * per_second p + fraction.
Proof.
  intros x p H.
  assert (E : exists t d, format_time x p =
     (if t / 60 / 60 / 24 =? 0 then [] else dec_str (t / 60 / 60 / 24) ++ lit ":") ++
     show_dec (t / 60 / 60 mod 24) 2 ++ lit ":" ++ show_dec (t / 60 mod 60) 2 ++ lit ":" ++ show_dec (t mod 60) 2 ++
     match p with Micros => lit "." ++ show_dec d 6 | Millis => lit "." ++ show_dec d 3 | Seconds => [] end /\
     0 <= t /\ 0 <= d < per_second p /\ x = t * per_second p + d).
  { destruct p; unfold format_time; cbn [per_second].
    - exists (x / 1000000), (x mod 1000000). split; [reflexivity|].
      pose proof (Z.mod_pos_bound x 1000000 ltac:(lia)). pose proof (Z.div_mod x 1000000 ltac:(lia)).
      pose proof (Z.div_pos x 1000000 H ltac:(lia)). lia.
    - exists (x / 1000), (x mod 1000). split; [reflexivity|].
      pose proof (Z.mod_pos_bound x 1000 ltac:(lia)). pose proof (Z.div_mod x 1000 ltac:(lia)).
      pose proof (Z.div_pos x 1000 H ltac:(lia)). lia.
    - exists x, 0. split; [reflexivity|lia]. }
  destruct E as (t & d & E & Ht & Hd & Hx).
  exists (t / 60 / 60 / 24), (t / 60 / 60 mod 24), (t / 60 mod 60), (t mod 60), d.
  do 4 eexists. split; [exact E|].
  assert (0 <= t / 60) by (apply Z.div_pos; lia). assert (0 <= t / 60 / 60) by (apply Z.div_pos; lia).
  assert (0 <= t / 60 / 60 / 24) by (apply Z.div_pos; lia).
  pose proof (Z.mod_pos_bound (t / 60 / 60) 24 ltac:(lia)). pose proof (Z.div_mod (t / 60 / 60) 24 ltac:(lia)).
  pose proof (Z.mod_pos_bound (t / 60) 60 ltac:(lia)). pose proof (Z.div_mod (t / 60) 60 ltac:(lia)).
  pose proof (Z.mod_pos_bound t 60 ltac:(lia)). pose proof (Z.div_mod t 60 ltac:(lia)).
  split; [apply (show_dec_fixed 1); cbn; lia|]. split; [apply (show_dec_fixed 1); cbn; lia|].
  split; [apply (show_dec_fixed 1); cbn; lia|]. split; [apply fraction_shown; auto|].
  do 5 (split; [lia|]). rewrite Hx. do 2 f_equal. lia.
Qed.

(* ------------------------------------------------------------------ *)
(** * Bitflags *)

(** A flag is contained in [x] if all its bits are set; the empty flag only in 0. *)
Definition contained (x v : Z) : Prop :=
  (v = 0 -> x = 0) /\ forall i, 0 <= i -> Z.testbit v i = true -> Z.testbit x i = true.

Lemma land_contained : forall x v,
  (Z.land x v =? v) = true <-> (forall i, 0 <= i -> Z.testbit v i = true -> Z.testbit x i = true).
Proof.
  intros x v. rewrite Z.eqb_eq. split.
  - intros E i Hi T. rewrite <- E, Z.land_spec in T. apply andb_true_iff in T as [T _]. auto.
  - intros H. apply Z.bits_inj'. intros i Hi. rewrite Z.land_spec. destruct (Z.testbit v i) eqn:T.
    + rewrite H by auto. reflexivity.
    + apply andb_false_r.
Qed.

Lemma flags_shown : forall flags x keep,
  (forall f, In f flags -> (keep f = true <-> contained x (snd f))) ->
  format_flags flags x =
    match map fst (filter keep flags) with
    | [] => lit "(empty)"
    | names => join_text (lit " | ") names
    end.
Proof.
  intros flags x keep K. unfold format_flags.
  erewrite filter_ext_in with (g := keep); [reflexivity|]. intros f Hf.
  apply Bool.eq_true_iff_eq. rewrite (K f Hf). unfold contained.
  destruct (Z.eqb_spec (snd f) 0) as [E|E], (Z.eqb_spec x 0) as [Ex|Ex]; cbn [andb negb].
  - rewrite land_contained. tauto.
  - split; [discriminate|]. intros [A _]. lia.
  - rewrite land_contained. intuition.
  - rewrite land_contained. intuition.
Qed.

(* ------------------------------------------------------------------ *)
(** * Byte strings *)

(** Reading a Rust byte string literal ([b"..."]): its contents and what follows.
    Escapes: tab, newline, carriage return, quote, backslash and two-digit
    hexadecimal. *)
Fixpoint read_body (s : bytes) : option (bytes * bytes) :=
  match s with
  | 34 :: r => Some ([], r)
  | 92 :: 116 :: r => option_map (fun p => (9 :: fst p, snd p)) (read_body r)
  | 92 :: 110 :: r => option_map (fun p => (10 :: fst p, snd p)) (read_body r)
  | 92 :: 114 :: r => option_map (fun p => (13 :: fst p, snd p)) (read_body r)
  | 92 :: 34 :: r => option_map (fun p => (34 :: fst p, snd p)) (read_body r)
  | 92 :: 92 :: r => option_map (fun p => (92 :: fst p, snd p)) (read_body r)
  | 92 :: 120 :: a :: b :: r =>
      option_map (fun p => (16 * digit_val a + digit_val b :: fst p, snd p)) (read_body r)
  | 92 :: _ => None
  | c :: r => option_map (fun p => (c :: fst p, snd p)) (read_body r)
  | [] => None
  end.

Definition read_byte_string (s : bytes) : option (bytes * bytes) :=
  match s with
  | 98 :: 34 :: r => read_body r
  | _ => None
  end.

Definition all_bytes : list Z := map Z.of_nat (seq 0 256).

Lemma all_bytes_in : forall b, byte_ok b -> In b all_bytes.
Proof.
  intros b H. unfold all_bytes. apply in_map_iff. exists (Z.to_nat b). unfold byte_ok in H.
  split; [lia|]. apply in_seq. lia.
Qed.

Lemma read_plain : forall c r, c <> 34 -> c <> 92 ->
  read_body (c :: r) = option_map (fun p => (c :: fst p, snd p)) (read_body r).
Proof.
  intros c r H1 H2. cbn [read_body].
  destruct c as [|c|c]; try reflexivity.
  do 7 (try (destruct c as [c|c|]; try reflexivity; try congruence)).
Qed.

Lemma escape_forms : forall b, byte_ok b ->
  (escape_byte b = [b] /\ b <> 34 /\ b <> 92) \/
  (escape_byte b = [92; 116] /\ b = 9) \/ (escape_byte b = [92; 110] /\ b = 10) \/
  (escape_byte b = [92; 114] /\ b = 13) \/ (escape_byte b = [92; 34] /\ b = 34) \/
  (escape_byte b = [92; 92] /\ b = 92) \/
  (exists x y, escape_byte b = [92; 120; x; y] /\ 16 * digit_val x + digit_val y = b).
Proof.
  intros b H.
  assert (A : Forall (fun b =>
    (escape_byte b = [b] /\ b <> 34 /\ b <> 92) \/
    (escape_byte b = [92; 116] /\ b = 9) \/ (escape_byte b = [92; 110] /\ b = 10) \/
    (escape_byte b = [92; 114] /\ b = 13) \/ (escape_byte b = [92; 34] /\ b = 34) \/
    (escape_byte b = [92; 92] /\ b = 92) \/
    (exists x y, escape_byte b = [92; 120; x; y] /\ 16 * digit_val x + digit_val y = b)) all_bytes).
  { assert (C : forallb (fun b => 
      (beq (escape_byte b) [b] && negb (b =? 34) && negb (b =? 92)) ||
      (beq (escape_byte b) [92; 116] && (b =? 9)) || (beq (escape_byte b) [92; 110] && (b =? 10)) ||
      (beq (escape_byte b) [92; 114] && (b =? 13)) || (beq (escape_byte b) [92; 34] && (b =? 34)) ||
      (beq (escape_byte b) [92; 92] && (b =? 92)) ||
      match escape_byte b with [92; 120; x; y] => 16 * digit_val x + digit_val y =? b | _ => false end) all_bytes = true)
      by (vm_compute; reflexivity).
    rewrite forallb_forall in C. apply Forall_forall. intros c Hc. specialize (C c Hc).
    rewrite !orb_true_iff, !andb_true_iff, !beq_true in C.
    destruct C as [[[[[[C|C]|C]|C]|C]|C]|C].
    - left. destruct C as [[C1 C2] C3]. split; [exact C1|lia].
    - right; left. destruct C; split; auto; lia.
    - do 2 right; left. destruct C; split; auto; lia.
    - do 3 right; left. destruct C; split; auto; lia.
    - do 4 right; left. destruct C; split; auto; lia.
    - do 5 right; left. destruct C; split; auto; lia.
    - do 6 right. destruct (escape_byte c) as [|a [|a' [|x [|y [|]]]]]; try discriminate;
        destruct a as [|a|a]; try discriminate; do 7 (destruct a as [a|a|]; try discriminate);
        destruct a' as [|a'|a']; try discriminate; do 7 (destruct a' as [a'|a'|]; try discriminate).
      exists x, y. split; [reflexivity|lia]. }
  rewrite Forall_forall in A. apply A. apply all_bytes_in. exact H.
Qed.

Lemma read_escaped : forall s rest, bytes_ok s ->
  read_body (flat_map escape_byte s ++ 34 :: rest) = Some (s, rest).
Proof.
  induction s as [|b s IH]; intros rest H; [reflexivity|].
  inversion H as [|? ? Hb Hs]; subst. cbn [flat_map]. rewrite <- app_assoc. specialize (IH rest Hs).
  destruct (escape_forms b Hb) as [(E & H1 & H2)|[(E & ->)|[(E & ->)|[(E & ->)|[(E & ->)|[(E & ->)|(x & y & E & V)]]]]]];
    rewrite E; cbn [app].
  - rewrite read_plain by auto. rewrite IH. reflexivity.
  - cbn [read_body]. rewrite IH. reflexivity.
  - cbn [read_body]. rewrite IH. reflexivity.
  - cbn [read_body]. rewrite IH. reflexivity.
  - cbn [read_body]. rewrite IH. reflexivity.
  - cbn [read_body]. rewrite IH. reflexivity.
  - cbn [read_body]. rewrite IH. cbn [option_map fst snd]. rewrite V. reflexivity.
Qed.

Lemma byte_string_shown : forall s rest, bytes_ok s ->
  read_byte_string (byte_string s ++ rest) = Some (s, rest).
Proof.
  intros s rest H. unfold byte_string, read_byte_string. cbn [app]. rewrite <- app_assoc. cbn [app].
  apply read_escaped. exact H.
Qed.

Lemma byte_string_printable : forall s, bytes_ok s -> Forall (fun c => 32 <= c <= 126) (byte_string s).
Proof.
  intros s H. unfold byte_string.
  assert (E : Forall (fun c => 32 <= c <= 126) (flat_map escape_byte s)).
  { apply Forall_forall. intros c Hc. apply in_flat_map in Hc as (b & Hb & Hc).
    unfold bytes_ok in H. rewrite Forall_forall in H. specialize (H b Hb). apply all_bytes_in in H.
    assert (C : forallb (fun b => forallb (fun c => (32 <=? c) && (c <=? 126)) (escape_byte b)) all_bytes = true)
      by (vm_compute; reflexivity).
    rewrite forallb_forall in C. specialize (C b H). rewrite forallb_forall in C. specialize (C c Hc). lia. }
  repeat (constructor; [lia|]). apply Forall_app. split; [exact E|]. repeat constructor; lia.
Qed.

(* ------------------------------------------------------------------ *)
(** * Bitfields *)

Lemma select_bits_shown : forall x lo hi, 0 <= x -> 0 <= lo -> lo < hi -> hi <= 128 ->
  select_bits x lo hi = Some (bit_slice lo hi x).
Proof.
  intros x lo hi Hx Hl Hlh Hh. unfold select_bits. cbv zeta.
  replace ((0 <=? 128 - hi) && (128 - hi <? 128) && (0 <=? 128 - hi + lo) && (128 - hi + lo <? 128)) with true by lia.
  f_equal. unfold bit_slice. apply Z.bits_inj'. intros n Hn.
  rewrite Z.shiftr_spec by lia.
  destruct (Z.ltb_spec n (hi - lo)).
  - rewrite Z.mod_pow2_bits_low by lia. rewrite Z.mod_pow2_bits_low by lia.
    rewrite Z.shiftl_spec by lia. rewrite <- Z.shiftr_div_pow2, Z.shiftr_spec by lia. f_equal. lia.
  - rewrite (Z.mod_pow2_bits_high _ (hi - lo)) by lia.
    apply Z.mod_pow2_bits_high. lia.
Qed.

Lemma byte_window_nonneg : forall lo hi x, 0 <= lo -> 0 <= byte_window lo hi x.
Proof.
  intros lo hi x H. unfold byte_window. cbv zeta.
  assert (0 <= lo / 8 * 8) by (pose proof (Z.div_pos lo 8 H ltac:(lia)); lia).
  apply Z.mul_nonneg_nonneg; [|apply Z.pow_nonneg; lia].
  apply Z.mod_pos_bound. apply Z.pow_pos_nonneg; lia.
Qed.

Lemma le_bytes_firstn : forall m n x, (m <= n)%nat -> firstn m (le_bytes n x) = le_bytes m x.
Proof.
  induction m as [|m IH]; intros n x H; [reflexivity|]. destruct n as [|n]; [lia|].
  cbn [le_bytes firstn]. f_equal. apply IH. lia.
Qed.

Lemma be_skip : forall k x, (k <= 16)%nat -> skipn k (rev (le_bytes 16 x)) = rev (le_bytes (16 - k) x).
Proof.
  intros k x H. rewrite skipn_rev, le_bytes_length. f_equal. apply le_bytes_firstn. lia.
Qed.

(** An argument of which the ranges within [lo..hi] are displayed: the parameter for
    range [a..b] shows these bits of the original [x], as a number or, for the
    ASCII hint, as big-endian bytes. *)
Lemma bits_shown : forall X tbl lo hi a b x i own parent, 0 <= x -> 0 <= lo -> hi <= 128 ->
  lo <= a -> a < b -> b <= hi ->
  let h := or_hint own parent in
  show_arg X tbl (AUxx (byte_window lo hi x)) (MkParameter i (TBitField a b) own) parent =
  Some (if is_ascii_hint h
        then byte_string (rev (le_bytes (Z.to_nat ((b - a + 7) / 8)) (bit_slice a b x)))
        else format_u128 tbl (bit_slice a b x) h).
Proof.
  intros X tbl lo hi a b x i own parent Hx Hl Hh Ha Hab Hb h. cbn [show_arg]. unfold show_uxx. cbn [p_ty p_hint].
  fold h. rewrite select_bits_shown by (try apply byte_window_nonneg; lia).
  rewrite (window_slice lo hi a b x) by lia.
  replace (Z.to_nat ((b - a + 7) / 8)) with (16 - Z.to_nat ((128 - b + a) / 8))%nat.
  2: { Z.to_euclidean_division_equations. lia. }
  rewrite <- be_skip by (Z.to_euclidean_division_equations; lia).
  destruct h as [[]|]; reflexivity.
Qed.
