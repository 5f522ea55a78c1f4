From Verif Require Import Base Utf8 RzcobsModel ParserModel ParserProofs DecoderModel.

(* ------------------------------------------------------------------ *)
(** * Readers are determined by what they consume *)

(** [prefix_ok m]: success depends only on the consumed bytes; a truncation of
    the consumed bytes gives [UnexpectedEof]; a definite failure does not depend
    on further bytes; an [UnexpectedEof] stays one under truncation. *)
Definition prefix_ok {A} (m : reader A) : Prop := forall b,
  match m b with
  | Ok (a, r) =>
      exists u, b = u ++ r /\ (forall s, m (u ++ s) = Ok (a, s)) /\
                (forall p q, u = p ++ q -> q <> [] -> m p = Err UnexpectedEof)
  | Err Malformed => forall s, m (b ++ s) = Err Malformed
  | Err UnexpectedEof => forall p q, b = p ++ q -> m p = Err UnexpectedEof
  | Panic => forall s, m (b ++ s) = Panic
  | NoFuel => forall s, m (b ++ s) = NoFuel
  end.

Lemma prefix_ret : forall A (a : A), prefix_ok (ret a).
Proof.
  intros A a b. cbn. exists []. repeat split; auto.
  intros p q H Hq. destruct p; cbn in H; try discriminate. congruence.
Qed.

Lemma prefix_fail : forall A, prefix_ok (@fail A Malformed).
Proof. intros A b. cbn. auto. Qed.

Lemma prefix_panic : forall A, prefix_ok (fun _ => @Panic decode_error (A * bytes)).
Proof. intros A b. auto. Qed.

Lemma prefix_nofuel : forall A, prefix_ok (fun _ => @NoFuel decode_error (A * bytes)).
Proof. intros A b. auto. Qed.

Lemma app_split : forall A (a b p q : list A), a ++ b = p ++ q ->
  (exists c, c <> [] /\ a = p ++ c) \/ (exists c, p = a ++ c /\ b = c ++ q).
Proof.
  induction a as [|x a IH]; intros b p q H.
  - right. exists p. auto.
  - destruct p as [|y p].
    + left. exists (x :: a). split; [discriminate|auto].
    + inversion H; subst. destruct (IH b p q H2) as [(c & C1 & C2)|(c & C1 & C2)].
      * left. exists c. subst. auto.
      * right. exists c. subst. auto.
Qed.

Lemma prefix_bind : forall A B (m : reader A) (f : A -> reader B),
  prefix_ok m -> (forall a, prefix_ok (f a)) -> prefix_ok (rbind m f).
Proof.
  intros A B m f Hm Hf b. unfold rbind. specialize (Hm b).
  destruct (m b) as [[a r]|[]| |] eqn:Em; cbn [bind fst snd].
  - destruct Hm as (u & Hb & H1 & H2). specialize (Hf a r).
    destruct (f a r) as [[c r2]|[]| |] eqn:Ef.
    + destruct Hf as (u2 & Hr & F1 & F2). exists (u ++ u2). repeat split.
      * subst. rewrite <- app_assoc. reflexivity.
      * intro s. rewrite <- app_assoc, H1. cbn [bind fst snd]. apply F1.
      * intros p q Hpq Hq. apply app_split in Hpq as [(c0 & C1 & C2)|(c0 & C1 & C2)].
        -- rewrite (H2 p c0 C2 C1). reflexivity.
        -- subst p. rewrite H1. cbn [bind fst snd]. eapply F2; eauto.
    + intros p q Hpq. subst b. apply app_split in Hpq as [(c0 & C1 & C2)|(c0 & C1 & C2)].
      * rewrite (H2 p c0 C2 C1). reflexivity.
      * subst p. rewrite H1. cbn [bind fst snd]. eapply Hf; eauto.
    + intro s. subst b. rewrite <- app_assoc, H1. cbn [bind fst snd]. auto.
    + intro s. subst b. rewrite <- app_assoc, H1. cbn [bind fst snd]. auto.
    + intro s. subst b. rewrite <- app_assoc, H1. cbn [bind fst snd]. auto.
  - intros p q H. rewrite (Hm p q H). reflexivity.
  - intro s. rewrite Hm. reflexivity.
  - intro s. rewrite Hm. reflexivity.
  - intro s. rewrite Hm. reflexivity.
Qed.

Lemma prefix_read_bytes : forall n, prefix_ok (read_bytes n).
Proof.
  intros n b. unfold read_bytes.
  destruct (Z.leb_spec n (Z.of_nat (length b))).
  - exists (firstn (Z.to_nat n) b).
    assert (L : length (firstn (Z.to_nat n) b) = Z.to_nat n) by (rewrite firstn_length; lia).
    repeat split.
    + symmetry. apply firstn_skipn.
    + intro s. rewrite app_length, L.
      destruct (Z.leb_spec n (Z.of_nat (Z.to_nat n + length s))); try lia.
      set (x := firstn (Z.to_nat n) b) in *. rewrite <- L.
      rewrite firstn_app_exact, skipn_app_exact. reflexivity.
    + intros p q Hpq Hq. rewrite Hpq, app_length in L.
      destruct q; try congruence. cbn [length] in L.
      destruct (Z.leb_spec n (Z.of_nat (length p))); auto; lia.
  - intros p q Hpq. subst b. rewrite app_length in H.
    destruct (Z.leb_spec n (Z.of_nat (length p))); auto; lia.
Qed.

Lemma prefix_read_u : forall n, prefix_ok (read_u n).
Proof. intro n. apply prefix_bind; [apply prefix_read_bytes|intro; apply prefix_ret]. Qed.

Lemma prefix_read_i : forall n, prefix_ok (read_i n).
Proof. intro n. apply prefix_bind; [apply prefix_read_u|intro; apply prefix_ret]. Qed.

Lemma prefix_lift : forall A (o : option A), prefix_ok (lift_option o).
Proof. intros A [a|]; [apply prefix_ret|apply prefix_fail]. Qed.

Lemma prefix_get_format : forall t, prefix_ok (get_format t).
Proof. intro t. apply prefix_bind; [apply prefix_read_u|intro; apply prefix_lift]. Qed.

Lemma prefix_get_variant : forall f, prefix_ok (get_variant f).
Proof.
  intro f. unfold get_variant. destruct (negb (has_bar f)); [apply prefix_panic|].
  cbv zeta. destruct (discriminant_width _); [|apply prefix_fail].
  apply prefix_bind; [apply prefix_read_u|intro; apply prefix_lift].
Qed.

Create HintDb pfx.
Global Hint Resolve prefix_ret prefix_fail prefix_panic prefix_nofuel prefix_read_bytes prefix_read_u
  prefix_read_i prefix_lift prefix_get_format prefix_get_variant : pfx.

Lemma prefix_if : forall A (c : bool) (x y : reader A),
  prefix_ok x -> prefix_ok y -> prefix_ok (if c then x else y).
Proof. intros A [] x y; auto. Qed.
Global Hint Resolve prefix_if : pfx.

Lemma Forall_position_none : forall f l p q, position f l = None -> l = p ++ q -> position f p = None.
Proof.
  intros f l p q H E. subst. apply position_none in H. apply Forall_app in H as [H _].
  apply position_none. auto.
Qed.

Lemma prefix_text : prefix_ok (fun b =>
  match position (fun x => x =? 255) b with
  | None => Err UnexpectedEof
  | Some e =>
      let data := firstn e b in
      if utf8_valid data then Ok (APreformatted data, skipn (S e) b) else Err Malformed
  end).
Proof.
  intro b. cbv zeta. destruct (position (fun x => x =? 255) b) as [e|] eqn:E.
  - destruct (position_some _ _ _ E) as (A & B & x & r & C & D).
    assert (Eb : b = firstn e b ++ x :: r) by (rewrite <- C; symmetry; apply firstn_skipn).
    assert (Ls : skipn (S e) b = r).
    { rewrite Eb at 1. replace (S e) with (length (firstn e b) + 1)%nat.
      - rewrite <- skipn_skipn. rewrite skipn_app_exact. reflexivity.
      - rewrite firstn_length. lia. }
    assert (P : forall s, position (fun x => x =? 255) (firstn e b ++ x :: s) = Some e).
    { intro s. rewrite position_app; auto. f_equal. rewrite firstn_length. lia. }
    assert (F : forall s, firstn e (firstn e b ++ x :: s) = firstn e b).
    { intro s. rewrite <- (firstn_app_exact _ (firstn e b) (x :: s)) at 2. f_equal. rewrite firstn_length. lia. }
    assert (S : forall s, skipn (S e) (firstn e b ++ x :: s) = s).
    { intro s. replace (S e) with (length (firstn e b) + 1)%nat by (rewrite firstn_length; lia).
      rewrite <- skipn_skipn, skipn_app_exact. reflexivity. }
    destruct (utf8_valid (firstn e b)) eqn:V.
    + exists (firstn e b ++ [x]). rewrite Ls. repeat split.
      * rewrite <- app_assoc. exact Eb.
      * intro s. rewrite <- app_assoc. cbn [app]. rewrite P, F, S, V. reflexivity.
      * intros p q Hpq Hq.
        assert (position (fun x => x =? 255) p = None) as ->; auto.
        apply app_split in Hpq as [(c & C1 & C2)|(c & C1 & C2)].
        -- apply position_none. rewrite C2 in B. apply Forall_app in B as [B _]. auto.
        -- destruct c as [|y c].
           ++ rewrite app_nil_r in C1. subst p. apply position_none. auto.
           ++ cbn in C2. inversion C2. destruct c; cbn in *; [subst q; congruence|discriminate].
    + intro s. assert (b ++ s = firstn e b ++ x :: (r ++ s)) as ->.
      { rewrite Eb at 1. rewrite <- app_assoc. reflexivity. }
      rewrite P, F, V. reflexivity.
  - intros p q Hpq. rewrite (Forall_position_none _ _ _ _ E Hpq). reflexivity.
Qed.

Section Prefix.
  Context (t : table) (rec : bytes -> reader (list arg)) (sf : nat).
  Context (Hrec : forall f, prefix_ok (rec f)).

  Lemma prefix_elements : forall n f e, prefix_ok (decode_elements rec n f e).
  Proof.
    induction n as [|n IH]; intros f e; cbn [decode_elements]; auto with pfx.
    apply prefix_bind; auto with pfx. intro v. apply prefix_bind; auto. intro a.
    apply prefix_bind; auto with pfx.
  Qed.

  Lemma prefix_slice : forall n, prefix_ok (decode_format_slice t rec n).
  Proof.
    intro n. apply prefix_bind; auto with pfx. intro f. apply prefix_elements.
  Qed.

  Lemma prefix_sequence : forall n, prefix_ok (decode_sequence t rec n).
  Proof.
    induction n as [|n IH]; cbn [decode_sequence]; auto with pfx.
    apply prefix_bind; auto with pfx. intro i. destruct (i =? 0); auto with pfx.
    apply prefix_bind; auto with pfx. intro f. apply prefix_bind; auto. intro a.
    apply prefix_bind; auto with pfx.
  Qed.

  Lemma prefix_ty : forall x, prefix_ok (decode_ty t rec sf x).
  Proof.
    destruct x; cbn [decode_ty];
      try (apply prefix_bind; [solve [auto with pfx]|intro; auto with pfx]; fail).
    - destruct (bitfield_size lo hi); auto with pfx. apply prefix_bind; auto with pfx.
    - apply prefix_text.
    - apply prefix_text.
    - apply prefix_bind; [apply prefix_sequence|auto with pfx].
    - apply prefix_bind; auto with pfx. intro f. apply prefix_bind; auto with pfx. intro v.
      apply prefix_bind; auto with pfx.
    - apply prefix_bind; [apply prefix_slice|auto with pfx].
    - apply prefix_bind; auto with pfx. intro n. apply prefix_bind; [apply prefix_slice|auto with pfx].
    - apply prefix_bind; auto with pfx. intro i. apply prefix_bind; auto with pfx.
    - apply prefix_bind; auto with pfx. intro i. apply prefix_bind; auto with pfx.
    - apply prefix_bind; auto with pfx. intro i. apply prefix_bind; auto with pfx.
  Qed.

  Lemma prefix_params : forall ps, prefix_ok (decode_params t rec sf ps).
  Proof.
    induction ps as [|p ps IH]; cbn [decode_params]; auto with pfx.
    apply prefix_bind; [apply prefix_ty|]. intro a. apply prefix_bind; auto with pfx.
  Qed.
End Prefix.

Lemma prefix_decode_format : forall t fuel f, prefix_ok (decode_format t fuel f).
Proof.
  induction fuel as [|fuel IH]; intro f; cbn [decode_format]; auto with pfx.
  destruct (parse f ForwardsCompatible); auto with pfx. apply prefix_params. auto.
Qed.

Lemma prefix_decode_fuel : forall t fuel, prefix_ok (decode_fuel t fuel).
Proof.
  intros t fuel. unfold decode_fuel. apply prefix_bind; auto with pfx. intro i.
  apply prefix_bind.
  - destruct (t_timestamp t); auto with pfx. apply prefix_bind; auto with pfx.
    apply prefix_decode_format.
  - intro ts. apply prefix_bind; auto with pfx. intro lf.
    apply prefix_bind; auto with pfx. apply prefix_decode_format.
Qed.

(* ------------------------------------------------------------------ *)
(** * More fuel does not change a result *)

Definition fuel_le {A} (m1 m2 : reader A) : Prop := forall b, m1 b = NoFuel \/ m1 b = m2 b.

Lemma fuel_le_refl : forall A (m : reader A), fuel_le m m.
Proof. intros A m b. auto. Qed.

Lemma fuel_le_bind : forall A B (m1 m2 : reader A) (f1 f2 : A -> reader B),
  fuel_le m1 m2 -> (forall a, fuel_le (f1 a) (f2 a)) -> fuel_le (rbind m1 f1) (rbind m2 f2).
Proof.
  intros A B m1 m2 f1 f2 Hm Hf b. unfold rbind. destruct (Hm b) as [E|E]; rewrite E; cbn [bind]; auto.
  destruct (m2 b) as [[a r]| | |]; cbn [bind fst snd]; auto. apply Hf.
Qed.

Create HintDb fle.
Global Hint Resolve fuel_le_refl fuel_le_bind : fle.

Section FuelLe.
  Context (t : table) (r1 r2 : bytes -> reader (list arg)) (s1 s2 : nat).
  Context (Hr : forall f, fuel_le (r1 f) (r2 f)) (Hs : (s1 <= s2)%nat).

  Lemma fuel_le_elements : forall n f e, fuel_le (decode_elements r1 n f e) (decode_elements r2 n f e).
  Proof. induction n as [|n IH]; intros f e; cbn [decode_elements]; auto 10 with fle. Qed.

  Lemma fuel_le_sequence : forall n1 n2, (n1 <= n2)%nat ->
    fuel_le (decode_sequence t r1 n1) (decode_sequence t r2 n2).
  Proof.
    induction n1 as [|n1 IH]; intros n2 H; cbn [decode_sequence].
    - intro b. auto.
    - destruct n2 as [|n2]; [lia|]. cbn [decode_sequence].
      apply fuel_le_bind; auto with fle. intro i. destruct (i =? 0); auto with fle.
      apply fuel_le_bind; auto with fle. intro f. apply fuel_le_bind; auto with fle. intro a.
      apply fuel_le_bind; auto with fle. apply IH. lia.
  Qed.

  Lemma fuel_le_slice : forall n, fuel_le (decode_format_slice t r1 n) (decode_format_slice t r2 n).
  Proof. intro n. apply fuel_le_bind; auto with fle. intro. apply fuel_le_elements. Qed.

  Lemma fuel_le_ty : forall x, fuel_le (decode_ty t r1 s1 x) (decode_ty t r2 s2 x).
  Proof.
    destruct x; cbn [decode_ty]; try (apply fuel_le_refl);
      repeat (apply fuel_le_bind; [auto using fuel_le_slice, fuel_le_sequence with fle|intro]);
      auto with fle.
  Qed.

  Lemma fuel_le_params : forall ps, fuel_le (decode_params t r1 s1 ps) (decode_params t r2 s2 ps).
  Proof.
    induction ps as [|p ps IH]; cbn [decode_params]; auto with fle.
    apply fuel_le_bind; [apply fuel_le_ty|]. auto with fle.
  Qed.
End FuelLe.

Lemma fuel_le_decode_format : forall t F1 F2 f, (F1 <= F2)%nat ->
  fuel_le (decode_format t F1 f) (decode_format t F2 f).
Proof.
  induction F1 as [|F1 IH]; intros F2 f H; cbn [decode_format].
  - intro b. auto.
  - destruct F2 as [|F2]; [lia|]. cbn [decode_format].
    destruct (parse f ForwardsCompatible); auto with fle.
    apply fuel_le_params; auto. intro g. apply IH. lia.
Qed.

Lemma fuel_le_decode_fuel : forall t F1 F2, (F1 <= F2)%nat ->
  fuel_le (decode_fuel t F1) (decode_fuel t F2).
Proof.
  intros t F1 F2 H. unfold decode_fuel. apply fuel_le_bind; auto with fle. intro i.
  apply fuel_le_bind.
  - destruct (t_timestamp t); auto with fle. apply fuel_le_bind; auto using fuel_le_decode_format with fle.
  - intro ts. apply fuel_le_bind; auto with fle. intro lf.
    apply fuel_le_bind; auto using fuel_le_decode_format with fle.
Qed.

(* ------------------------------------------------------------------ *)
(** * The budget is never exhausted *)

Lemma prefix_length : forall A (m : reader A) b a r, prefix_ok m -> m b = Ok (a, r) ->
  (length r <= length b)%nat.
Proof.
  intros A m b a r H E. specialize (H b). rewrite E in H. destruct H as (u & Hb & _).
  subst. rewrite app_length. lia.
Qed.

Lemma read_bytes_length : forall n b l r, 0 <= n -> read_bytes n b = Ok (l, r) ->
  Z.of_nat (length b) = n + Z.of_nat (length r) /\ Z.of_nat (length l) = n /\ b = l ++ r.
Proof.
  intros n b l r Hn H. unfold read_bytes in H.
  destruct (Z.leb_spec n (Z.of_nat (length b))); inversion H; subst.
  rewrite skipn_length, firstn_length, firstn_skipn. repeat split; lia.
Qed.

Lemma read_u_inv : forall n b x r, read_u n b = Ok (x, r) ->
  exists l, b = l ++ r /\ length l = n /\ x = le_value l.
Proof.
  intros n b x r H. unfold read_u, rbind in H. apply bind_ok in H as ([l r'] & H1 & H2).
  cbn [fst snd ret] in H2. inversion H2; subst.
  apply read_bytes_length in H1 as (A & B & C); try lia. exists l. repeat split; auto. lia.
Qed.

Lemma rbind_ok : forall A B (m : reader A) (f : A -> reader B) b c r,
  rbind m f b = Ok (c, r) <-> exists a b', m b = Ok (a, b') /\ f a b' = Ok (c, r).
Proof.
  intros. unfold rbind. rewrite bind_ok. split.
  - intros ([a b'] & H1 & H2). eauto.
  - intros (a & b' & H1 & H2). exists (a, b'). auto.
Qed.

(** [nf n m]: with fewer than [n] bytes the budget suffices. *)
Definition nf {A} (n : nat) (m : reader A) : Prop :=
  forall b, (length b < n)%nat -> m b <> NoFuel.

Lemma nf_bind : forall A B n (m : reader A) (f : A -> reader B),
  prefix_ok m -> nf n m -> (forall a, nf n (f a)) -> nf n (rbind m f).
Proof.
  intros A B n m f Hp Hm Hf b Hb. unfold rbind. intro H.
  apply bind_nofuel in H as [H|([a r] & H1 & H2)].
  - apply (Hm b Hb H).
  - apply (prefix_length _ _ _ _ _ Hp) in H1. apply (Hf a) in H2; auto. cbn [snd]. lia.
Qed.

Lemma nf_ret : forall A n (a : A), nf n (ret a).
Proof. intros A n a b _ H. discriminate. Qed.
Lemma nf_fail : forall A n e, nf n (@fail A e).
Proof. intros A n e b _ H. discriminate. Qed.
Lemma nf_read_bytes : forall n k, nf n (read_bytes k).
Proof. intros n k b _ H. unfold read_bytes in H. destruct (k <=? _); discriminate. Qed.
Lemma nf_read_u : forall n k, nf n (read_u k).
Proof. intros n k. apply nf_bind; auto using nf_read_bytes with pfx. intro. apply nf_ret. Qed.
Lemma nf_read_i : forall n k, nf n (read_i k).
Proof. intros n k. apply nf_bind; auto using nf_read_u with pfx. intro. apply nf_ret. Qed.
Lemma nf_lift : forall A n (o : option A), nf n (lift_option o).
Proof. intros A n [a|]; [apply nf_ret|apply nf_fail]. Qed.
Lemma nf_get_format : forall n t, nf n (get_format t).
Proof. intros n t. apply nf_bind; auto using nf_read_u with pfx. intro. apply nf_lift. Qed.
Lemma nf_get_variant : forall n f, nf n (get_variant f).
Proof.
  intros n f. unfold get_variant. destruct (negb (has_bar f)). { intros b _ H. discriminate. }
  cbv zeta. destruct (discriminant_width _); [|apply nf_fail].
  apply nf_bind; auto using nf_read_u with pfx. intro. apply nf_lift.
Qed.
Lemma nf_if : forall A n (c : bool) (x y : reader A), nf n x -> nf n y -> nf n (if c then x else y).
Proof. intros A n [] x y; auto. Qed.
Create HintDb nfdb.
Global Hint Resolve nf_ret nf_fail nf_read_bytes nf_read_u nf_read_i nf_lift nf_get_format nf_get_variant nf_if : nfdb.

(** After a 2-byte read, two fewer bytes remain. *)
Lemma nf_bind_read2 : forall B n (f : Z -> reader B),
  (forall a, nf (n - 2) (f a)) -> nf n (rbind (read_u 2) f).
Proof.
  intros B n f Hf b Hb H. unfold rbind in H.
  apply bind_nofuel in H as [H|([a r] & H1 & H2)].
  - exact (nf_read_u n 2 b Hb H).
  - apply read_u_inv in H1 as (l & E & L & _). subst b. rewrite app_length in Hb.
    apply (Hf a) in H2; auto. cbn [snd]. lia.
Qed.

Lemma rbind_assoc : forall A B C (m : reader A) (f : A -> reader B) (g : B -> reader C) b,
  rbind (rbind m f) g b = rbind m (fun a => rbind (f a) g) b.
Proof.
  intros. unfold rbind. destruct (m b) as [[a r]| | |]; reflexivity.
Qed.

Lemma nf_bind_get_format : forall B n t (f : bytes -> reader B),
  (forall a, nf (n - 2) (f a)) -> nf n (rbind (get_format t) f).
Proof.
  intros B n t f Hf b Hb. unfold get_format. rewrite rbind_assoc.
  apply (nf_bind_read2 B n (fun a => rbind (lift_option (get_without_level t a)) f)); auto.
  intro a. apply nf_bind; auto with pfx nfdb.
Qed.

Section NoFuel.
  Context (t : table) (rec : bytes -> reader (list arg)) (n : nat).
  Context (Hp : forall f, prefix_ok (rec f)) (Hn : forall f, nf n (rec f)).

  Lemma nf_elements : forall k m f e, (m <= n)%nat -> nf m (decode_elements rec k f e).
  Proof.
    induction k as [|k IH]; intros m f e Hm; cbn [decode_elements]; auto with nfdb.
    apply nf_bind; auto with pfx nfdb. intro v. apply nf_bind; auto.
    { intros b Hb. apply Hn. lia. }
    intro a. apply nf_bind; auto using prefix_elements with nfdb.
  Qed.

  Lemma nf_slice : forall k, nf (S n) (decode_format_slice t rec k).
  Proof.
    intros k. apply nf_bind_get_format. intro f. apply nf_elements. lia.
  Qed.

  Lemma nf_sequence : forall k, (k <= S n)%nat -> nf k (decode_sequence t rec k).
  Proof.
    induction k as [|k IH]; intro Hk; cbn [decode_sequence].
    - intros b Hb. lia.
    - apply nf_bind_read2. intro i. destruct (i =? 0); auto with nfdb.
      apply nf_bind; auto with pfx nfdb. intro f. apply nf_bind; auto.
      { intros b Hb. apply Hn. lia. }
      intro a. apply nf_bind; auto using prefix_sequence with nfdb.
      intros b Hb. apply IH; lia.
  Qed.

  Lemma nf_ty : forall x, nf (S n) (decode_ty t rec (S n) x).
  Proof.
    destruct x; cbn [decode_ty];
      try (apply nf_bind; [solve [auto with pfx]|solve [auto with nfdb]|intro; auto with nfdb]; fail).
    - destruct (bitfield_size lo hi); [|intros b _ H; discriminate].
      apply nf_bind; auto with pfx nfdb.
    - intros b _ H. destruct (position _ b); try discriminate. destruct (utf8_valid _); discriminate.
    - intros b _ H. destruct (position _ b); try discriminate. destruct (utf8_valid _); discriminate.
    - apply nf_bind; auto using prefix_sequence with nfdb. apply nf_sequence. lia.
    - apply nf_bind_get_format. intro f. apply nf_bind; auto with pfx nfdb. intro v.
      apply nf_bind; auto with nfdb. intros b Hb. apply Hn. lia.
    - apply nf_bind; auto using prefix_slice, nf_slice with nfdb.
    - apply nf_bind; auto with pfx nfdb. intro k. apply nf_bind; auto using prefix_slice, nf_slice with nfdb.
    - apply nf_bind; auto with pfx nfdb. intro k. apply nf_bind; auto with pfx nfdb.
    - apply nf_bind; auto with pfx nfdb. intro k. apply nf_bind; auto with pfx nfdb.
    - apply nf_bind; auto with pfx nfdb. intro k. apply nf_bind; auto with pfx nfdb.
  Qed.

  Lemma nf_params : forall ps, nf (S n) (decode_params t rec (S n) ps).
  Proof.
    induction ps as [|p ps IH]; cbn [decode_params]; auto with nfdb.
    apply nf_bind; auto using prefix_ty, nf_ty. intro a.
    apply nf_bind; auto using prefix_params with nfdb.
  Qed.
End NoFuel.

Lemma nf_decode_format : forall t fuel f, nf fuel (decode_format t fuel f).
Proof.
  induction fuel as [|n IH]; intro f; cbn [decode_format].
  - intros b Hb. lia.
  - destruct (parse f ForwardsCompatible) eqn:E.
    + apply nf_params; auto using prefix_decode_format.
    + auto with nfdb.
    + intros b _ H. discriminate.
    + apply parse_no_fuel in E. contradiction.
Qed.

Lemma nf_decode_fuel : forall t fuel, nf fuel (decode_fuel t fuel).
Proof.
  intros t fuel. unfold decode_fuel. apply nf_bind; auto with pfx nfdb. intro i.
  apply nf_bind.
  - destruct (t_timestamp t); auto with pfx. apply prefix_bind; auto with pfx. apply prefix_decode_format.
  - destruct (t_timestamp t); auto with nfdb.
    apply nf_bind; auto using prefix_decode_format, nf_decode_format with nfdb.
  - intro ts. apply nf_bind; auto with pfx nfdb. intro lf.
    apply nf_bind; auto using prefix_decode_format, nf_decode_format with nfdb.
Qed.

(** Any budget above the number of bytes gives the same result. *)
Lemma decode_fuel_enough : forall t F1 F2 b,
  (length b < F1)%nat -> (length b < F2)%nat -> decode_fuel t F1 b = decode_fuel t F2 b.
Proof.
  assert (W : forall t F1 F2 b, (length b < F1)%nat -> (F1 <= F2)%nat ->
    decode_fuel t F1 b = decode_fuel t F2 b).
  { intros t F1 F2 b H1 H2. destruct (fuel_le_decode_fuel t F1 F2 H2 b) as [E|E]; auto.
    apply nf_decode_fuel in E; [contradiction|auto]. }
  intros t F1 F2 b H1 H2. destruct (le_lt_dec F1 F2).
  - apply W; auto.
  - symmetry. apply W; auto. lia.
Qed.

Lemma decode_no_fuel : forall t b, decode t b <> NoFuel.
Proof.
  intros t b H. unfold decode in H.
  destruct (decode_fuel t (S (length b)) b) as [[f r]| | |] eqn:E; try discriminate.
  apply nf_decode_fuel in E; auto.
Qed.

(* ------------------------------------------------------------------ *)
(** * Consequences for [Table::decode] *)

Lemma decode_ok_inv : forall t b f n, decode t b = Ok (f, n) ->
  exists u r, b = u ++ r /\ n = length u /\
    decode_fuel t (S (length b)) b = Ok (f, r).
Proof.
  intros t b f n H. unfold decode in H.
  destruct (decode_fuel t (S (length b)) b) as [[f' r]| | |] eqn:E; try discriminate.
  inversion H; subst. pose proof (prefix_decode_fuel t (S (length b)) b) as P. rewrite E in P.
  destruct P as (u & Hb & _). exists u, r. repeat split; auto.
  rewrite Hb at 1. rewrite app_length. lia.
Qed.

Lemma decode_extend : forall t b f n, decode t b = Ok (f, n) ->
  (n <= length b)%nat /\ forall s, decode t (firstn n b ++ s) = Ok (f, n).
Proof.
  intros t b f n H. apply decode_ok_inv in H as (u & r & Hb & Hn & E).
  split. { subst. rewrite app_length. lia. }
  intro s. subst n. rewrite Hb, firstn_app_exact.
  set (F := S (length b + length s)).
  assert (EF : decode_fuel t F b = Ok (f, r)).
  { rewrite <- E. apply decode_fuel_enough; subst F; lia. }
  pose proof (prefix_decode_fuel t F b) as P. rewrite EF in P.
  destruct P as (u' & Hb' & P1 & P2).
  assert (u' = u).
  { rewrite Hb in Hb'. apply app_inv_tail in Hb'. auto. }
  subst u'. unfold decode.
  rewrite (decode_fuel_enough t _ F).
  - rewrite P1. f_equal. f_equal. rewrite app_length. lia.
  - lia.
  - subst F. rewrite Hb, !app_length. lia.
Qed.

Lemma decode_truncate : forall t b f n k, decode t b = Ok (f, n) -> (k < n)%nat ->
  decode t (firstn k b) = Err UnexpectedEof.
Proof.
  intros t b f n k H Hk. apply decode_ok_inv in H as (u & r & Hb & Hn & E).
  pose proof (prefix_decode_fuel t (S (length b)) b) as P. rewrite E in P.
  destruct P as (u' & Hb' & P1 & P2).
  assert (u' = u). { rewrite Hb in Hb'. apply app_inv_tail in Hb'. auto. }
  subst u'. unfold decode.
  rewrite (decode_fuel_enough t _ (S (length b))).
  - rewrite (P2 (firstn k b) (skipn k u)); auto.
    + rewrite Hb, firstn_app. replace (k - length u)%nat with O by lia.
      cbn [firstn]. rewrite app_nil_r. symmetry. apply firstn_skipn.
    + intro E0. apply (f_equal (@length Z)) in E0. rewrite skipn_length in E0. cbn in E0. lia.
  - lia.
  - rewrite firstn_length. lia.
Qed.

Lemma decode_malformed_extend : forall t b s, decode t b = Err Malformed ->
  decode t (b ++ s) = Err Malformed.
Proof.
  intros t b s H. unfold decode in *.
  destruct (decode_fuel t (S (length b)) b) as [[f r]|e| |] eqn:E; try discriminate.
  inversion H; subst e. rewrite (decode_fuel_enough t _ (S (length (b ++ s)))) in E; try lia.
  2: { rewrite app_length. lia. }
  pose proof (prefix_decode_fuel t (S (length (b ++ s))) b) as P. rewrite E in P.
  rewrite P. reflexivity.
Qed.

Lemma decode_eof_truncate : forall t b s, decode t (b ++ s) = Err UnexpectedEof ->
  decode t b = Err UnexpectedEof.
Proof.
  intros t b s H. unfold decode in *.
  destruct (decode_fuel t (S (length (b ++ s))) (b ++ s)) as [[f r]|e| |] eqn:E; try discriminate.
  inversion H; subst e.
  pose proof (prefix_decode_fuel t (S (length (b ++ s))) (b ++ s)) as P. rewrite E in P.
  rewrite (decode_fuel_enough t _ (S (length (b ++ s)))); try lia.
  2: { rewrite app_length. lia. }
  rewrite (P b s eq_refl). reflexivity.
Qed.

(** A frame is at least its two index bytes. *)
Lemma decode_ok_min : forall t b f n, decode t b = Ok (f, n) -> (2 <= n)%nat.
Proof.
  intros t b f n H. apply decode_ok_inv in H as (u & r & Hb & Hn & E).
  unfold decode_fuel in E. apply rbind_ok in E as (i & b1 & E1 & E2).
  apply read_u_inv in E1 as (l & L1 & L2 & _).
  assert (PL : (length r <= length b1)%nat).
  { eapply prefix_length; [|exact E2]. apply prefix_bind.
    - destruct (t_timestamp t); auto with pfx. apply prefix_bind; auto with pfx. apply prefix_decode_format.
    - intro ts. apply prefix_bind; auto with pfx. intro lf.
      apply prefix_bind; auto with pfx. apply prefix_decode_format. }
  subst n. rewrite L1 in Hb. apply (f_equal (@length Z)) in Hb. rewrite !app_length in Hb. lia.
Qed.
