(** The calendar behind the ISO 8601 display (C25). *)
From Verif Require Import Base ParserModel DecoderModel Numerals DisplayModel DisplayProofs.

(** The proleptic Gregorian calendar, by counting. *)
Definition leap_year (y : Z) : bool :=
  if y mod 400 =? 0 then true else if y mod 100 =? 0 then false else y mod 4 =? 0.

(** Thirty days have September, April, June and November. *)
Definition days_in_month (y m : Z) : Z :=
  if m =? 2 then (if leap_year y then 29 else 28)
  else if (m =? 4) || (m =? 6) || (m =? 9) || (m =? 11) then 30 else 31.
Definition months (y : Z) : list Z := map (days_in_month y) [1; 2; 3; 4; 5; 6; 7; 8; 9; 10; 11; 12].

(** The tables of the model are right. *)
Lemma leap_is : forall y, is_leap y = leap_year y.
Proof.
  intros y. unfold is_leap, leap_year.
  destruct (Z.eqb_spec (y mod 4) 0), (Z.eqb_spec (y mod 100) 0), (Z.eqb_spec (y mod 400) 0); try reflexivity; exfalso;
    Z.to_euclidean_division_equations; lia.
Qed.
Lemma months_are : forall y, month_lengths (is_leap y) = months y.
Proof. intros y. rewrite leap_is. unfold months. cbn. reflexivity. Qed.

Definition year_length (y : Z) : Z := if leap_year y then 366 else 365.

(** Days from 0001-01-01 to the first day of year [n + 1]. *)
Fixpoint days_of_years (n : nat) : Z :=
  match n with
  | O => 0
  | S n' => days_of_years n' + year_length (Z.of_nat n)
  end.

Fixpoint zsum (l : list Z) : Z := match l with [] => 0 | x :: l' => x + zsum l' end.

(** Days from 0001-01-01 to the given date. *)
Definition date_number (y m d : Z) : Z :=
  days_of_years (Z.to_nat (y - 1)) +
  zsum (firstn (Z.to_nat (m - 1)) (months y)) + (d - 1).

Definition valid_date (y m d : Z) : Prop :=
  1 <= y /\ 1 <= m <= 12 /\
  1 <= d <= nth (Z.to_nat (m - 1)) (months y) 0.

(** 1970-01-01. *)
Definition epoch : Z := date_number 1970 1 1.

Lemma epoch_value : epoch = 719162.
Proof. vm_compute. reflexivity. Qed.

Definition leap_days (n : Z) : Z := n / 4 - n / 100 + n / 400.

Lemma leap_step : forall n, 0 <= n -> leap_days (n + 1) = leap_days n + (if leap_year (n + 1) then 1 else 0).
Proof.
  intros n Hn. rewrite <- leap_is. unfold leap_days, is_leap.
  destruct (Z.eqb_spec ((n + 1) mod 4) 0), (Z.eqb_spec ((n + 1) mod 100) 0), (Z.eqb_spec ((n + 1) mod 400) 0);
    cbn [andb orb negb]; Z.to_euclidean_division_equations; lia.
Qed.

Lemma days_of_years_closed : forall n, days_of_years n = 365 * Z.of_nat n + leap_days (Z.of_nat n).
Proof.
  induction n as [|n IH]; [reflexivity|].
  cbn [days_of_years]. rewrite IH. rewrite Nat2Z.inj_succ. unfold Z.succ.
  rewrite leap_step by lia. unfold year_length. destruct (leap_year (Z.of_nat n + 1)); lia.
Qed.

Lemma month_day_spec : forall lens m d, 0 <= d < zsum lens -> Forall (fun l => 0 < l) lens ->
  let '(m', d') := month_day m lens d in
  exists k, (k < length lens)%nat /\ m' = m + Z.of_nat k /\ 1 <= d' <= nth k lens 0 /\
    d = zsum (firstn k lens) + (d' - 1).
Proof.
  induction lens as [|l lens IH]; intros m d H P; cbn [zsum] in H; [lia|].
  inversion P as [|? ? Pl Ps]; subst. cbn [month_day]. destruct (Z.ltb_spec d l).
  - exists O. cbn [length nth firstn zsum]. lia.
  - specialize (IH (m + 1) (d - l) ltac:(lia) Ps). destruct (month_day (m + 1) lens (d - l)) as [m' d'].
    destruct IH as (k & K1 & K2 & K3 & K4). exists (S k). cbn [length nth firstn zsum]. lia.
Qed.

Lemma civil_valid : forall days, 0 <= days ->
  let '(y, m, d) := civil days in valid_date y m d /\ date_number y m d = epoch + days.
Proof.
  intros days H. unfold civil. cbv zeta. rewrite epoch_value.
  set (n := days + 719162). assert (Hn : 0 <= n) by (unfold n; lia).
  set (q400 := n / 146097). set (r0 := n mod 146097).
  set (q100 := Z.min 3 (r0 / 36524)). set (r1 := r0 - q100 * 36524).
  set (q4 := r1 / 1461). set (r2 := r1 - q4 * 1461).
  set (q1 := Z.min 3 (r2 / 365)). set (r3 := r2 - q1 * 365).
  assert (E0 : n = 146097 * q400 + r0 /\ 0 <= r0 < 146097 /\ 0 <= q400).
  { unfold q400, r0. pose proof (Z.div_mod n 146097 ltac:(lia)). pose proof (Z.mod_pos_bound n 146097 ltac:(lia)).
    pose proof (Z.div_pos n 146097 Hn ltac:(lia)). lia. }
  assert (E1 : 0 <= q100 <= 3 /\ 0 <= r1 /\ (q100 < 3 -> r1 < 36524) /\ r1 <= 36524).
  { unfold r1, q100. pose proof (Z.div_mod r0 36524 ltac:(lia)). pose proof (Z.mod_pos_bound r0 36524 ltac:(lia)).
    pose proof (Z.div_pos r0 36524 ltac:(lia) ltac:(lia)). lia. }
  assert (E2 : 0 <= q4 <= 24 /\ 0 <= r2 < 1461 /\ (q4 = 24 -> q100 < 3 -> r2 < 1460)).
  { unfold r2, q4. pose proof (Z.div_mod r1 1461 ltac:(lia)). pose proof (Z.mod_pos_bound r1 1461 ltac:(lia)).
    pose proof (Z.div_pos r1 1461 ltac:(lia) ltac:(lia)). lia. }
  assert (E3 : 0 <= q1 <= 3 /\ 0 <= r3 /\ (q1 < 3 -> r3 < 365) /\ r3 <= 365 /\ (q1 = 3 -> r2 < 1460 -> r3 < 365)).
  { unfold r3, q1. pose proof (Z.div_mod r2 365 ltac:(lia)). pose proof (Z.mod_pos_bound r2 365 ltac:(lia)).
    pose proof (Z.div_pos r2 365 ltac:(lia) ltac:(lia)). lia. }
  set (y := 400 * q400 + 100 * q100 + 4 * q4 + q1 + 1).
  assert (L : leap_days (y - 1) = 97 * q400 + 24 * q100 + q4).
  { unfold leap_days, y. clearbody n q400 r0 q100 q4 q1. clear - E0 E1 E2 E3.
    assert (A : (400 * q400 + 100 * q100 + 4 * q4 + q1 + 1 - 1) / 4 = 100 * q400 + 25 * q100 + q4)
      by (Z.to_euclidean_division_equations; lia).
    assert (B : (400 * q400 + 100 * q100 + 4 * q4 + q1 + 1 - 1) / 100 = 4 * q400 + q100)
      by (Z.to_euclidean_division_equations; lia).
    assert (C : (400 * q400 + 100 * q100 + 4 * q4 + q1 + 1 - 1) / 400 = q400)
      by (Z.to_euclidean_division_equations; lia).
    lia. }
  assert (Y : days_of_years (Z.to_nat (y - 1)) + r3 = n).
  { rewrite days_of_years_closed. rewrite Z2Nat.id by (unfold y; lia). rewrite L. unfold y, r3, r2, r1. lia. }
  assert (R : r3 < year_length y).
  { unfold year_length. destruct (leap_year y) eqn:Ly; [lia|].
    (* not a leap year: q1 < 3, or the last year of a short century *)
    destruct (Z.eq_dec q1 3) as [Q|Q]; [|lia].
    rewrite <- leap_is in Ly. unfold is_leap in Ly.
    assert (M4 : y mod 4 = 0) by (unfold y; clearbody q400 q100 q4 q1; clear - Q; subst q1; Z.to_euclidean_division_equations; lia).
    rewrite M4 in Ly. cbn [Z.eqb andb] in Ly. apply orb_false_iff in Ly as [L1 L2].
    apply negb_false_iff, Z.eqb_eq in L1. apply Z.eqb_neq in L2.
    assert (Q4 : q4 = 24).
    { unfold y in L1. clearbody q400 q100 q4 q1. clear - Q L1 E2. subst q1. Z.to_euclidean_division_equations; lia. }
    assert (Q100 : q100 < 3).
    { destruct (Z.eq_dec q100 3) as [Q3|]; [|lia]. exfalso. apply L2. unfold y. rewrite Q, Q4, Q3.
      clearbody q400. Z.to_euclidean_division_equations; lia. }
    destruct E2 as (_ & _ & E2). specialize (E2 Q4 Q100). destruct E3 as (_ & _ & _ & _ & E3). auto. }
  assert (S : zsum (months y) = year_length y) by (unfold year_length, months; cbn; destruct (leap_year y); reflexivity).
  rewrite months_are.
  pose proof (month_day_spec (months y) 1 r3 ltac:(lia)) as MD.
  assert (P : Forall (fun l => 0 < l) (months y)) by (unfold months; cbn; destruct (leap_year y); repeat constructor).
  specialize (MD P). destruct (month_day 1 (months y) r3) as [m d].
  destruct MD as (k & K1 & K2 & K3 & K4).
  assert (LK : (k < 12)%nat) by exact K1.
  split.
  - unfold valid_date. replace (Z.to_nat (m - 1)) with k by lia. unfold y in *. lia.
  - unfold date_number. replace (Z.to_nat (m - 1)) with k by lia. unfold n in *. lia.
Qed.

Lemma days_of_years_le : forall a b, (a <= b)%nat -> days_of_years a <= days_of_years b.
Proof.
  intros a b H. induction H; [lia|]. cbn [days_of_years]. unfold year_length. destruct (leap_year _); lia.
Qed.

Lemma zsum_firstn_step : forall lens k, (k < length lens)%nat ->
  zsum (firstn (S k) lens) = zsum (firstn k lens) + nth k lens 0.
Proof.
  induction lens as [|l lens IH]; intros k H; cbn [length] in H; [lia|].
  destruct k as [|k]; [cbn [firstn zsum nth]; lia|].
  change (firstn (S (S k)) (l :: lens)) with (l :: firstn (S k) lens).
  change (firstn (S k) (l :: lens)) with (l :: firstn k lens). cbn [zsum nth].
  rewrite IH by lia. lia.
Qed.

Lemma zsum_firstn_le : forall lens j k, Forall (fun l => 0 < l) lens -> (j <= k)%nat -> (k <= length lens)%nat ->
  zsum (firstn j lens) <= zsum (firstn k lens).
Proof.
  intros lens j k P H. induction H as [|k H IH]; intros L; [lia|].
  rewrite zsum_firstn_step by lia. specialize (IH ltac:(lia)).
  assert (0 < nth k lens 0); [|lia]. rewrite Forall_forall in P. apply P. apply nth_In. lia.
Qed.

Lemma month_lengths_pos : forall y, Forall (fun l => 0 < l) (months y).
Proof. intros y. unfold months. cbn. destruct (leap_year y); repeat constructor. Qed.

Lemma month_lengths_sum : forall y, zsum (months y) = year_length y.
Proof. intros y. unfold year_length, months. cbn. destruct (leap_year y); reflexivity. Qed.

(** The day of the year is below the length of the year. *)
Lemma day_of_year_bound : forall y m d, valid_date y m d ->
  0 <= zsum (firstn (Z.to_nat (m - 1)) (months y)) + (d - 1) < year_length y.
Proof.
  intros y m d (Hy & Hm & Hd).
  assert (L : length (months y) = 12%nat) by reflexivity.
  pose proof (month_lengths_pos y) as P.
  pose proof (zsum_firstn_le _ 0 (Z.to_nat (m - 1)) P ltac:(lia) ltac:(lia)) as A. cbn [firstn zsum] in A.
  pose proof (zsum_firstn_le _ (S (Z.to_nat (m - 1))) 12 P ltac:(lia) ltac:(lia)) as B.
  rewrite zsum_firstn_step in B by lia.
  assert (F : firstn 12 (months y) = months y) by reflexivity.
  rewrite F, month_lengths_sum in B. lia.
Qed.

(** A day number determines the date. *)
Lemma date_number_injective : forall y m d y' m' d', valid_date y m d -> valid_date y' m' d' ->
  date_number y m d = date_number y' m' d' -> y = y' /\ m = m' /\ d = d'.
Proof.
  intros y m d y' m' d' V V' E. unfold date_number in E.
  pose proof (day_of_year_bound _ _ _ V) as B. pose proof (day_of_year_bound _ _ _ V') as B'.
  assert (ST : forall a, 1 <= a -> days_of_years (Z.to_nat (a - 1)) + year_length a = days_of_years (Z.to_nat a)).
  { intros a Ha. replace (Z.to_nat a) with (S (Z.to_nat (a - 1))) by lia. cbn [days_of_years].
    do 2 f_equal. lia. }
  assert (Y : y = y').
  { destruct V as (Hy & _). destruct V' as (Hy' & _).
    destruct (Z.lt_trichotomy y y') as [H|[H|H]]; auto; exfalso.
    - pose proof (days_of_years_le (Z.to_nat y) (Z.to_nat (y' - 1)) ltac:(lia)). specialize (ST y Hy). lia.
    - pose proof (days_of_years_le (Z.to_nat y') (Z.to_nat (y - 1)) ltac:(lia)). specialize (ST y' Hy'). lia. }
  subst y'. split; [auto|].
  destruct V as (_ & Hm & Hd). destruct V' as (_ & Hm' & Hd').
  assert (L : length (months y) = 12%nat) by reflexivity.
  pose proof (month_lengths_pos y) as P.
  set (lens := months y) in *.
  assert (M : m = m').
  { destruct (Z.lt_trichotomy m m') as [H|[H|H]]; auto; exfalso.
    - pose proof (zsum_firstn_le lens (S (Z.to_nat (m - 1))) (Z.to_nat (m' - 1)) P ltac:(lia) ltac:(lia)) as Q.
      rewrite zsum_firstn_step in Q by lia. lia.
    - pose proof (zsum_firstn_le lens (S (Z.to_nat (m' - 1))) (Z.to_nat (m - 1)) P ltac:(lia) ltac:(lia)) as Q.
      rewrite zsum_firstn_step in Q by lia. lia. }
  subst m'. split; [auto|lia].
Qed.

(** The instant [x] (in units of the precision since the epoch) is the given date and
    time of day. *)
Definition denotes (x : Z) (p : precision) (y m d hh mm ss fraction : Z) : Prop :=
  valid_date y m d /\ y <= 999999 /\ 0 <= hh < 24 /\ 0 <= mm < 60 /\ 0 <= ss < 60 /\ 0 <= fraction < per_second p /\
  x = ((((date_number y m d - epoch) * 24 + hh) * 60 + mm) * 60 + ss) * per_second p + fraction.

Lemma year_bound : forall y m d days, valid_date y m d -> date_number y m d = epoch + days -> days <= 364522971 -> y <= 999999.
Proof.
  intros y m d days V E H. pose proof (day_of_year_bound _ _ _ V) as B. unfold date_number in E. rewrite epoch_value in E.
  destruct (Z.le_gt_cases y 999999) as [|G]; auto. exfalso.
  assert (Q : 365 * 999999 + 242499 <= days_of_years (Z.to_nat (y - 1))).
  { rewrite days_of_years_closed, Z2Nat.id by lia. unfold leap_days. clear - G.
    Z.to_euclidean_division_equations; lia. }
  lia.
Qed.

(** Four digits, or a sign and five or six. *)
Definition year_text (y : Z) (s : bytes) : Prop :=
  (y <= 9999 /\ fixed_digits 4 y s) \/
  (9999 < y <= 99999 /\ exists t, s = lit "+" ++ t /\ fixed_digits 5 y t) \/
  (99999 < y <= 999999 /\ exists t, s = lit "+" ++ t /\ fixed_digits 6 y t).

Lemma year_shown : forall y, 1 <= y <= 999999 -> year_text y (show_year y).
Proof.
  intros y H. unfold show_year, year_text. destruct (Z.ltb_spec y 10000).
  - left. split; [lia|]. apply (show_dec_fixed 3); cbn; lia.
  - right. destruct (Z.ltb_spec y 100000).
    + left. split; [lia|]. eexists. split; [reflexivity|]. apply (show_dec_fixed 4); cbn; lia.
    + right. split; [lia|]. eexists. split; [reflexivity|]. apply (show_dec_fixed 5); cbn; lia.
Qed.

(** Seconds from 1970-01-01 to the end of the year 999999. *)
Definition end_of_999999 : Z := (date_number 1000000 1 1 - epoch) * 86400.

Lemma end_of_999999_value : end_of_999999 = max_unix_seconds + 1.
Proof.
  unfold end_of_999999, date_number. rewrite days_of_years_closed, Z2Nat.id by lia. rewrite epoch_value.
  vm_compute. reflexivity.
Qed.

Lemma iso8601_shown : forall x p, 0 <= x -> x / per_second p < end_of_999999 ->
  exists y m d hh mm ss fraction ty tm td thh tmm tss tf,
    format_iso8601 x p = Some (ty ++ lit "-" ++ tm ++ lit "-" ++ td ++ lit "T" ++
      thh ++ lit ":" ++ tmm ++ lit ":" ++ tss ++ tf ++ lit "Z") /\
    year_text y ty /\ fixed_digits 2 m tm /\ fixed_digits 2 d td /\
    fixed_digits 2 hh thh /\ fixed_digits 2 mm tmm /\ fixed_digits 2 ss tss /\ fraction_text p fraction tf /\
    denotes x p y m d hh mm ss fraction.
Proof.
  intros x p Hx Hm. assert (Hm' : x / per_second p <= max_unix_seconds) by (clear - Hm; rewrite end_of_999999_value in Hm; lia). clear Hm. rename Hm' into Hm.
  unfold format_iso8601. cbv zeta.
  replace (match p with Micros => 1000000 | Millis => 1000 | Seconds => 1 end) with (per_second p) by (destruct p; reflexivity).
  assert (Pp : 0 < per_second p) by (destruct p; cbn; lia).
  set (secs := x / per_second p) in *. set (sub := x mod per_second p).
  replace (max_unix_seconds <? secs) with false by lia.
  assert (Hs : 0 <= secs) by (apply Z.div_pos; lia).
  assert (Hx2 : x = secs * per_second p + sub /\ 0 <= sub < per_second p).
  { unfold secs, sub. pose proof (Z.div_mod x (per_second p) ltac:(lia)).
    pose proof (Z.mod_pos_bound x (per_second p) ltac:(lia)). lia. }
  clearbody secs sub.
  assert (HD : 0 <= secs / 86400 <= 364522971).
  { split; [apply Z.div_pos; lia|]. unfold max_unix_seconds in Hm. apply Z.lt_succ_r, Z.div_lt_upper_bound; lia. }
  pose proof (civil_valid (secs / 86400) (proj1 HD)) as C.
  destruct (civil (secs / 86400)) as [[y m] d]. destruct C as [V N].
  pose proof (year_bound _ _ _ _ V N (proj2 HD)) as Y.
  assert (Hd : 1 <= d <= 31).
  { destruct V as (_ & M & D). split; [apply D|].
    assert (A : Forall (fun l => l <= 31) (months y)).
    { unfold months; cbn [map]; unfold days_in_month; cbn; destruct (leap_year y); repeat (constructor; [clear; lia|]); constructor. }
    rewrite Forall_forall in A.
    assert (I : In (nth (Z.to_nat (m - 1)) (months y) 0) (months y)).
    { apply nth_In. clear - M. unfold months. cbn [map length]. lia. }
    specialize (A _ I). clear - A D. lia. }
  assert (Ht : secs = secs / 86400 * 86400 + secs mod 86400 /\ 0 <= secs mod 86400 < 86400).
  { clear. pose proof (Z.div_mod secs 86400 ltac:(lia)). pose proof (Z.mod_pos_bound secs 86400 ltac:(lia)). lia. }
  revert N Ht HD. generalize (secs / 86400) (secs mod 86400). intros q t N Ht HD.
  assert (T : 0 <= t / 3600 < 24 /\ 0 <= t / 60 mod 60 < 60 /\ 0 <= t mod 60 < 60 /\
              t = ((t / 3600) * 60 + t / 60 mod 60) * 60 + t mod 60).
  { destruct Ht as [_ Ht]. clear - Ht. Z.to_euclidean_division_equations; lia. }
  revert T. generalize (t / 3600) (t / 60 mod 60) (t mod 60). intros hh mm ss (T1 & T2 & T3 & T4).
  exists y, m, d, hh, mm, ss, sub.
  do 7 eexists. split; [reflexivity|].
  pose proof V as (Vy & Vm & _).
  split; [apply year_shown; lia|].
  do 5 (split; [apply (show_dec_fixed 1); cbn; lia|]).
  split; [apply fraction_shown; lia|].
  unfold denotes. split; [exact V|]. do 5 (split; [lia|]).
  rewrite N. destruct Hx2 as [Hx2 _]. rewrite Hx2 at 1. do 2 f_equal.
  clear - Ht T4. lia.
Qed.

Lemma iso8601_panics_iff : forall x p, format_iso8601 x p = None <-> end_of_999999 <= x / per_second p.
Proof.
  intros x p. rewrite end_of_999999_value. unfold format_iso8601. cbv zeta.
  replace (match p with Micros => 1000000 | Millis => 1000 | Seconds => 1 end) with (per_second p) by (destruct p; reflexivity).
  destruct (Z.ltb_spec max_unix_seconds (x / per_second p)).
  - split; [lia|auto].
  - destruct (civil _) as [[y m] d]. split; [discriminate|lia].
Qed.
