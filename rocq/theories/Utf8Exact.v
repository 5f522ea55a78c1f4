(** Well-formed UTF-8 is exactly what sequences of Unicode scalar values are encoded as, each in one way. *)
From Verif Require Import Base Utf8.

(** Unicode scalar values, and their encoding as bits (RFC 3629, section 3): the bits of the number, most significant first,
    in the places marked x of the row of its range. *)
Definition scalar_value (c : Z) : Prop := 0 <= c <= 1114111 /\ ~ (55296 <= c <= 57343).
Inductive encodes : Z -> bytes -> Prop :=
| E_one c : 0 <= c < 2 ^ 7 -> encodes c [c]
| E_two x y : 0 <= x < 2 ^ 5 -> 0 <= y < 2 ^ 6 -> 2 ^ 7 <= x * 2 ^ 6 + y -> encodes (x * 2 ^ 6 + y) [192 + x; 128 + y]
| E_three x y z : 0 <= x < 2 ^ 4 -> 0 <= y < 2 ^ 6 -> 0 <= z < 2 ^ 6 -> 2 ^ 11 <= x * 2 ^ 12 + y * 2 ^ 6 + z ->
    encodes (x * 2 ^ 12 + y * 2 ^ 6 + z) [224 + x; 128 + y; 128 + z]
| E_four x y z u : 0 <= x < 2 ^ 3 -> 0 <= y < 2 ^ 6 -> 0 <= z < 2 ^ 6 -> 0 <= u < 2 ^ 6 -> 2 ^ 16 <= x * 2 ^ 18 + y * 2 ^ 12 + z * 2 ^ 6 + u ->
    encodes (x * 2 ^ 18 + y * 2 ^ 12 + z * 2 ^ 6 + u) [240 + x; 128 + y; 128 + z; 128 + u].
Inductive text_of : list Z -> bytes -> Prop :=
| X_nil : text_of [] []
| X_cons c cs s t : scalar_value c -> encodes c s -> text_of cs t -> text_of (c :: cs) (s ++ t).

Lemma scalar_iff : forall c, is_scalar c = true <-> scalar_value c.
Proof. intros c. unfold is_scalar, in_range, scalar_value. lia. Qed.

Lemma encode_encodes : forall c, scalar_value c -> encodes c (utf8_encode c).
Proof.
  intros c [H _]. unfold utf8_encode. destruct (Z.ltb_spec c 128); [constructor; lia|].
  destruct (Z.ltb_spec c 2048).
  { pose proof (E_two (c / 64) (c mod 64)) as E. replace (c / 64 * 2 ^ 6 + c mod 64) with c in E by lia. apply E; lia. }
  destruct (Z.ltb_spec c 65536).
  { pose proof (E_three (c / 4096) ((c / 64) mod 64) (c mod 64)) as E.
    replace (c / 4096 * 2 ^ 12 + (c / 64) mod 64 * 2 ^ 6 + c mod 64) with c in E by lia. apply E; lia. }
  pose proof (E_four (c / 262144) ((c / 4096) mod 64) ((c / 64) mod 64) (c mod 64)) as E.
  replace (c / 262144 * 2 ^ 18 + (c / 4096) mod 64 * 2 ^ 12 + (c / 64) mod 64 * 2 ^ 6 + c mod 64) with c in E by lia. apply E; lia.
Qed.

Lemma encodes_only : forall c s, scalar_value c -> encodes c s -> s = utf8_encode c.
Proof.
  intros c s V E. unfold utf8_encode. destruct V as [V _]. destruct E as [c H|x y X Y L|x y z X Y Z1 L|x y z u X Y Z1 U L].
  - now replace (c <? 128) with true by lia.
  - set (c := x * 2 ^ 6 + y) in *. replace (c <? 128) with false by lia. replace (c <? 2048) with true by lia. repeat f_equal; lia.
  - set (c := x * 2 ^ 12 + y * 2 ^ 6 + z) in *. replace (c <? 128) with false by lia. replace (c <? 2048) with false by lia. replace (c <? 65536) with true by lia.
    repeat f_equal; lia.
  - set (c := x * 2 ^ 18 + y * 2 ^ 12 + z * 2 ^ 6 + u) in *. replace (c <? 128) with false by lia. replace (c <? 2048) with false by lia.
    replace (c <? 65536) with false by lia. repeat f_equal; lia.
Qed.

Lemma text_of_iff : forall cs s, text_of cs s <-> Forall scalar_value cs /\ s = utf8_text cs.
Proof.
  induction cs as [|c cs IH]; intros s; split.
  - intros H. inversion H. split; [constructor|reflexivity].
  - intros [_ ->]. constructor.
  - intros H. inversion H as [|c' cs' a t V E T]. subst. apply IH in T as [F ->]. split; [now constructor|].
    rewrite (encodes_only c a V E). reflexivity.
  - intros [F ->]. inversion F as [|? ? V F']. subst. change (utf8_text (c :: cs)) with (utf8_encode c ++ utf8_text cs).
    constructor; [exact V|now apply encode_encodes|]. now apply IH.
Qed.

Lemma decode_text : forall s cs, utf8_decode s = Some cs -> text_of cs s.
Proof.
  intros s. induction s as [s IH] using bytes_length_ind. intros cs H. destruct s as [|a s1]; [injection H as <-; constructor|].
  cbn [utf8_decode] in H.
  assert (K : forall f t, (length t < length (a :: s1))%nat -> option_map (cons f) (utf8_decode t) = Some cs -> exists r, cs = f :: r /\ text_of r t).
  { intros f t L E. destruct (utf8_decode t) as [r|] eqn:D; [|discriminate]. injection E as <-. exists r. split; [reflexivity|]. now apply IH. }
  destruct (in_range 0 127 a) eqn:A1.
  { apply in_range_iff in A1. apply K in H as (r & -> & T); [|cbn; lia]. apply (X_cons a r [a] s1); [split; lia|constructor; lia|exact T]. }
  destruct s1 as [|b s2]; [discriminate|]. destruct (in_range 194 223 a) eqn:A2.
  { destruct (in_range 128 191 b) eqn:B; [|discriminate]. apply in_range_iff in A2, B. apply K in H as (r & -> & T); [|cbn; lia].
    apply (X_cons _ r [a; b] s2); [split; lia| |exact T]. pose proof (E_two (a - 192) (b - 128)) as E.
    replace (192 + (a - 192)) with a in E by lia. replace (128 + (b - 128)) with b in E by lia. apply E; lia. }
  destruct s2 as [|c s3]; [discriminate|].
  match type of H with (if ?x then _ else _) = _ => destruct x eqn:A3 end.
  { destruct (in_range 128 191 c) eqn:C; [|discriminate]. unfold in_range in A3. apply in_range_iff in C. apply K in H as (r & -> & T); [|cbn; lia].
    assert (N : 224 <= a <= 239 /\ 128 <= b <= 191 /\ (a = 224 -> 160 <= b) /\ (a = 237 -> b <= 159)) by lia. clear A1 A2 A3.
    apply (X_cons _ r [a; b; c] s3); [split; lia| |exact T]. pose proof (E_three (a - 224) (b - 128) (c - 128)) as E.
    replace (224 + (a - 224)) with a in E by lia. replace (128 + (b - 128)) with b in E by lia. replace (128 + (c - 128)) with c in E by lia. apply E; lia. }
  destruct s3 as [|d s4]; [discriminate|].
  match type of H with (if ?x then _ else _) = _ => destruct x eqn:A4 end; [|discriminate].
  unfold in_range in A4. apply K in H as (r & -> & T); [|cbn; lia].
  assert (N : 240 <= a <= 244 /\ 128 <= b <= 191 /\ 128 <= c <= 191 /\ 128 <= d <= 191 /\ (a = 240 -> 144 <= b) /\ (a = 244 -> b <= 143)) by lia. clear A1 A2 A3 A4.
  apply (X_cons _ r [a; b; c; d] s4); [split; lia| |exact T]. pose proof (E_four (a - 240) (b - 128) (c - 128) (d - 128)) as E.
  replace (240 + (a - 240)) with a in E by lia. replace (128 + (b - 128)) with b in E by lia. replace (128 + (c - 128)) with c in E by lia.
  replace (128 + (d - 128)) with d in E by lia. apply E; lia.
Qed.

Theorem utf8_decode_iff : forall s cs, utf8_decode s = Some cs <-> text_of cs s.
Proof.
  intros s cs. split; [apply decode_text|]. intros H. apply text_of_iff in H as [F ->]. apply utf8_decode_text.
  eapply Forall_impl; [|exact F]. intros c V. now apply scalar_iff.
Qed.

Theorem utf8_valid_iff : forall s, utf8_valid s = true <-> exists cs, text_of cs s.
Proof.
  intros s. rewrite utf8_decode_valid. split; intros (cs & H); exists cs; now apply utf8_decode_iff.
Qed.

Theorem text_of_unique : forall s cs cs', text_of cs s -> text_of cs' s -> cs = cs'.
Proof. intros s cs cs' H H'. apply utf8_decode_iff in H, H'. congruence. Qed.
