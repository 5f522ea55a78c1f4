(** Common vocabulary of the model: bytes, outcomes of Rust computations,
    string literals, little-endian integers, list utilities.

    Rust integers are [Z]; a [u8] is a [Z] in [0..256).  Byte strings (and
    Rust [str], as UTF-8) are [list Z]. *)

From Coq Require Export ZArith List Bool Lia String Ascii.
From Coq Require Export ZifyBool ZifyNat ZifyN.
Export ListNotations.
Open Scope Z_scope.
Open Scope bool_scope.
(* [String] exports [length], [concat] and [++]: the list versions win. *)
Open Scope list_scope.
Notation length := List.length.
Notation concat := List.concat.

Definition bytes := list Z.

Definition byte_ok (b : Z) : Prop := 0 <= b < 256.
Definition bytes_ok (l : bytes) : Prop := Forall byte_ok l.
Definition byte_okb (b : Z) : bool := (0 <=? b) && (b <? 256).

(** Outcome of a Rust computation returning [Result<A, E>] that may panic.
    [NoFuel] is the artificial "recursion budget of the model exhausted". *)
Inductive outcome (E A : Type) : Type :=
| Ok (a : A)
| Err (e : E)
| Panic
| NoFuel.
Arguments Ok {E A} _.
Arguments Err {E A} _.
Arguments Panic {E A}.
Arguments NoFuel {E A}.

(** The [?] operator. *)
Definition bind {E A B} (r : outcome E A) (f : A -> outcome E B) : outcome E B :=
  match r with
  | Ok a => f a
  | Err e => Err e
  | Panic => Panic
  | NoFuel => NoFuel
  end.

Notation "x <- e ;; k" := (bind e (fun x => k))
  (at level 61, e at next level, right associativity).
Notation "' p <- e ;; k" := (bind e (fun p => k))
  (at level 61, p pattern, e at next level, right associativity).

(** [lit "abc"] is the byte string of an ASCII Coq string literal. *)
Fixpoint lit (s : string) : bytes :=
  match s with
  | EmptyString => []
  | String a r => Z.of_N (N_of_ascii a) :: lit r
  end.

(** Equality test on byte strings. *)
Fixpoint beq (a b : bytes) : bool :=
  match a, b with
  | [], [] => true
  | x :: a', y :: b' => (x =? y) && beq a' b'
  | _, _ => false
  end.

(** [strip_prefix p s]: [str::strip_prefix]. *)
Fixpoint strip_prefix (p s : bytes) : option bytes :=
  match p, s with
  | [], _ => Some s
  | x :: p', y :: s' => if x =? y then strip_prefix p' s' else None
  | _, [] => None
  end.

(** [position f l]: [iter().position]. *)
Fixpoint position (f : Z -> bool) (l : bytes) : option nat :=
  match l with
  | [] => None
  | x :: l' => if f x then Some O else option_map S (position f l')
  end.

(** [split_on c s]: [str::split(c)]; always non-empty. *)
Fixpoint split_on (c : Z) (s : bytes) : list bytes :=
  match s with
  | [] => [[]]
  | x :: s' =>
      if x =? c then [] :: split_on c s'
      else match split_on c s' with
           | [] => [[x]]
           | p :: ps => (x :: p) :: ps
           end
  end.

(** Little-endian integers: [to_le_bytes] / byteorder [read_uXX::<LE>]. *)
Fixpoint le_bytes (n : nat) (x : Z) : bytes :=
  match n with
  | O => []
  | S n' => (x mod 256) :: le_bytes n' (x / 256)
  end.

Fixpoint le_value (l : bytes) : Z :=
  match l with
  | [] => 0
  | b :: l' => b + 256 * le_value l'
  end.

(** Two's complement reading of an [n]-byte unsigned value. *)
Definition to_signed (n : nat) (x : Z) : Z :=
  if x <? 2 ^ (8 * Z.of_nat n - 1) then x else x - 2 ^ (8 * Z.of_nat n).

(* ------------------------------------------------------------------ *)
(** * Lemmas *)

Lemma beq_true : forall a b, beq a b = true <-> a = b.
Proof.
  induction a as [|x a IH]; destruct b as [|y b]; cbn [beq]; split; intro H;
    try discriminate; auto.
  - apply andb_prop in H as [H1 H2]. apply Z.eqb_eq in H1. apply IH in H2. congruence.
  - inversion H; subst. rewrite Z.eqb_refl. cbn. apply IH; reflexivity.
Qed.

Lemma beq_refl : forall a, beq a a = true.
Proof. intro a. apply beq_true. reflexivity. Qed.

Lemma beq_false : forall a b, beq a b = false <-> a <> b.
Proof.
  intros a b. split.
  - intros H E. subst. rewrite beq_refl in H. discriminate.
  - intro H. destruct (beq a b) eqn:E; auto. apply beq_true in E. contradiction.
Qed.

Lemma strip_prefix_app : forall p s, strip_prefix p (p ++ s) = Some s.
Proof.
  induction p as [|x p IH]; cbn [strip_prefix app]; intro s; auto.
  rewrite Z.eqb_refl. apply IH.
Qed.

Lemma strip_prefix_some : forall p s r, strip_prefix p s = Some r -> s = p ++ r.
Proof.
  induction p as [|x p IH]; cbn [strip_prefix app]; intros s r H.
  - congruence.
  - destruct s as [|y s]; try discriminate.
    destruct (x =? y) eqn:E; try discriminate.
    apply Z.eqb_eq in E. subst. f_equal. auto.
Qed.

Lemma position_some : forall f l n,
  position f l = Some n ->
  (n < length l)%nat /\ Forall (fun x => f x = false) (firstn n l) /\
  exists x r, skipn n l = x :: r /\ f x = true.
Proof.
  induction l as [|y l IH]; cbn [position]; intros n H; try discriminate.
  destruct (f y) eqn:E.
  - inversion H; subst. cbn. repeat split; try lia; auto. exists y, l. auto.
  - destruct (position f l) as [k|] eqn:P; cbn in H; try discriminate.
    inversion H; subst. destruct (IH k eq_refl) as (A & B & x & r & C & D).
    cbn. repeat split; try lia; eauto.
Qed.

Lemma position_none : forall f l,
  position f l = None <-> Forall (fun x => f x = false) l.
Proof.
  induction l as [|y l IH]; cbn [position]; split; intro H; auto.
  - destruct (f y) eqn:E; try discriminate.
    destruct (position f l) eqn:P; cbn in H; try discriminate.
    constructor; auto. apply IH; auto.
  - inversion H; subst. rewrite H2. apply IH in H3. rewrite H3. reflexivity.
Qed.

Lemma position_app : forall f a x b,
  Forall (fun y => f y = false) a -> f x = true ->
  position f (a ++ x :: b) = Some (length a).
Proof.
  induction a as [|y a IH]; cbn [position app length]; intros x b H Hx.
  - rewrite Hx. reflexivity.
  - inversion H; subst. rewrite H2. rewrite IH; auto.
Qed.

Lemma le_bytes_length : forall n x, length (le_bytes n x) = n.
Proof. induction n; cbn [le_bytes length]; auto. Qed.

Lemma le_bytes_ok : forall n x, bytes_ok (le_bytes n x).
Proof.
  induction n; cbn [le_bytes]; intro x; constructor; auto.
  unfold byte_ok. apply Z.mod_pos_bound. lia.
  apply IHn.
Qed.

Lemma le_value_bound : forall l, bytes_ok l -> 0 <= le_value l < 256 ^ Z.of_nat (length l).
Proof.
  induction l as [|b l IH]; cbn [le_value length]; intro H.
  - cbn. lia.
  - inversion H; subst. specialize (IH H3). unfold byte_ok in H2.
    rewrite Nat2Z.inj_succ, Z.pow_succ_r by lia. lia.
Qed.

Lemma le_value_bytes : forall n x, 0 <= x < 256 ^ Z.of_nat n -> le_value (le_bytes n x) = x.
Proof.
  induction n as [|n IH]; intros x H.
  - cbn in *. lia.
  - cbn [le_bytes le_value]. rewrite Nat2Z.inj_succ, Z.pow_succ_r in H by lia.
    rewrite IH.
    + pose proof (Z.div_mod x 256). lia.
    + split. apply Z.div_pos; lia. apply Z.div_lt_upper_bound; lia.
Qed.

Lemma le_value_mod : forall n x, le_value (le_bytes n x) = x mod 256 ^ Z.of_nat n.
Proof.
  induction n as [|n IH]; intros x.
  - cbn. rewrite Z.mod_1_r. reflexivity.
  - cbn [le_bytes le_value]. rewrite Nat2Z.inj_succ, Z.pow_succ_r by lia.
    rewrite IH. rewrite Z.rem_mul_r by lia. reflexivity.
Qed.

Lemma le_bytes_value : forall l, bytes_ok l -> le_bytes (length l) (le_value l) = l.
Proof.
  induction l as [|b l IH]; cbn [le_bytes le_value length]; intro H; auto.
  inversion H; subst. unfold byte_ok in H2. f_equal.
  - rewrite (Z.mul_comm 256), Z.mod_add by lia. apply Z.mod_small. lia.
  - rewrite (Z.mul_comm 256), Z.div_add by lia.
    rewrite Z.div_small by lia. rewrite Z.add_0_l. auto.
Qed.

Lemma pow256 : forall n, 0 <= n -> 256 ^ n = 2 ^ (8 * n).
Proof. intros. rewrite Z.pow_mul_r by lia. reflexivity. Qed.

Lemma to_signed_spec : forall n x, (0 < n)%nat ->
  - 2 ^ (8 * Z.of_nat n - 1) <= x < 2 ^ (8 * Z.of_nat n - 1) ->
  to_signed n (x mod 256 ^ Z.of_nat n) = x.
Proof.
  intros n x Hn H. unfold to_signed.
  rewrite pow256 by lia.
  assert (E : 2 ^ (8 * Z.of_nat n) = 2 * 2 ^ (8 * Z.of_nat n - 1)).
  { rewrite <- Z.pow_succ_r by lia. f_equal. lia. }
  set (h := 2 ^ (8 * Z.of_nat n - 1)) in *.
  assert (0 < h) by (apply Z.pow_pos_nonneg; lia).
  rewrite E. destruct (Z_lt_dec x 0).
  - replace (x mod (2 * h)) with (x + 2 * h).
    + destruct (Z.ltb_spec (x + 2*h) h); lia.
    + symmetry. rewrite <- (Z.mod_add x 1) by lia. rewrite Z.mul_1_l. apply Z.mod_small. lia.
  - rewrite Z.mod_small by lia. destruct (Z.ltb_spec x h); lia.
Qed.

Lemma Forall_app_iff : forall A (P : A -> Prop) a b,
  Forall P (a ++ b) <-> Forall P a /\ Forall P b.
Proof. intros. apply Forall_app. Qed.

Lemma bytes_ok_app : forall a b, bytes_ok (a ++ b) <-> bytes_ok a /\ bytes_ok b.
Proof. intros. apply Forall_app. Qed.

Lemma firstn_app_exact : forall A (a b : list A), firstn (length a) (a ++ b) = a.
Proof.
  intros. rewrite firstn_app, firstn_all, Nat.sub_diag. cbn. apply app_nil_r.
Qed.

Lemma skipn_app_exact : forall A (a b : list A), skipn (length a) (a ++ b) = b.
Proof.
  intros. rewrite skipn_app, skipn_all, Nat.sub_diag. reflexivity.
Qed.

Lemma skipn_skipn : forall A n m (l : list A), skipn n (skipn m l) = skipn (m + n) l.
Proof.
  intros A n m. revert n. induction m as [|m IH]; intros n l; [reflexivity|].
  destruct l; cbn [skipn plus]; [apply skipn_nil|apply IH].
Qed.

Lemma lor_bound : forall n a b, 0 <= n -> 0 <= a < 2 ^ n -> 0 <= b < 2 ^ n -> 0 <= Z.lor a b < 2 ^ n.
Proof.
  intros n a b Hn Ha Hb.
  assert (E : Z.lor a b = Z.land (Z.lor a b) (Z.ones n)).
  { rewrite Z.land_lor_distr_l, !Z.land_ones, !Z.mod_small by lia. reflexivity. }
  rewrite E, Z.land_ones by lia. apply Z.mod_pos_bound. apply Z.pow_pos_nonneg; lia.
Qed.
