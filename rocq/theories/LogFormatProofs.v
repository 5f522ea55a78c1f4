(** The log format parser: it accepts the documented syntax, terminates, and loses only what follows
    a percent sign or an opening bracket without partner. *)
From Verif Require Import Base Utf8 ParserModel Numerals EnvFilterModel LogFormatModel LogFormatSpec.

Scheme writes_mut := Induction for writes Sort Prop with writes_all_mut := Induction for writes_all Sort Prop.

(* ------------------------------------------------------------------ *)
(** * Termination and panics *)

(** A result that is not out of fuel, panics only if there is a backslash, and leaves the end of the input. *)
Definition good {A} (i : bytes) (r : pres A) : Prop :=
  r <> NoFuel /\ (~ In 92 i -> r <> Panic) /\ forall q a, r = Ok (q, a) -> exists pre, i = pre ++ q.

Lemma good_err : forall A i e, @good A i (Err e).
Proof. intros. split; [discriminate|]. split; discriminate. Qed.
Lemma good_ok : forall A (a : A) pre q, good (pre ++ q) (Ok (q, a)).
Proof. intros. split; [discriminate|]. split; [discriminate|]. intros q' a' H. injection H as <- <-. eauto. Qed.
Lemma good_same : forall A (a : A) i, good i (Ok (i, a)).
Proof. intros. apply (good_ok _ a [] i). Qed.

Lemma good_or : forall A i (a b : pres A), good i a -> good i b -> good i (p_or a b).
Proof. intros A i a b Ga Gb. destruct a as [|[]| |]; auto. Qed.

(** Continue with the rest. *)
Lemma good_bind : forall A B i (r : pres A) (f : bytes -> A -> pres B), good i r ->
  (forall q a, r = Ok (q, a) -> good q (f q a)) -> good i (' (q, a) <- r ;; f q a).
Proof.
  intros A B i r f (N & P & S) F. destruct r as [[q a]|e| |]; cbn [bind]; [|apply good_err| |congruence].
  - destruct (S q a eq_refl) as [pre ->]. destruct (F q a eq_refl) as (N' & P' & S'). split; auto. split.
    + intros H. apply P'. intros X. apply H. apply in_or_app. auto.
    + intros q' b E. destruct (S' q' b E) as [pre' ->]. exists (pre ++ pre'). now rewrite app_assoc.
  - split; [discriminate|]. split; [|discriminate]. intros H. exfalso. now apply P.
Qed.

Lemma span_app : forall f s, let '(a, b) := span f s in s = a ++ b /\ Forall (fun c => f c = true) a /\ match b with c :: _ => f c = false | [] => True end.
Proof.
  intros f. induction s as [|c s IH]; cbn [span]; auto. destruct (f c) eqn:E; [|auto]. destruct (span f s) as [a b]. destruct IH as (-> & A & B). auto.
Qed.

Section Good.
  Context (X : external).

  Lemma take_alpha_app : forall fuel s, let '(w, q) := take_alpha X fuel s in s = w ++ q.
  Proof.
    induction fuel as [|fuel IH]; intros [|b r]; cbn [take_alpha]; auto.
    destruct (b <? 128).
    - destruct (ascii_alpha b); auto. specialize (IH r). destruct (take_alpha X fuel r) as [w q]. now subst.
    - pose proof (span_app is_continuation r) as S. destruct (span is_continuation r) as [k q]. destruct S as (-> & _). destruct (x_alpha X (b :: k)); auto.
      specialize (IH q). destruct (take_alpha X fuel q) as [w q']. subst. cbn. now rewrite app_assoc.
  Qed.

  Lemma good_word : forall A (f : bytes -> option A) g i, good i (on_word X f g i).
  Proof.
    intros A f g i. unfold on_word, word. pose proof (take_alpha_app (length i) i) as T. destruct (take_alpha X (length i) i) as [w r]. subst i.
    destruct (f w); [apply good_ok|apply good_err].
  Qed.

  Lemma good_width : forall i, good i (parse_width i).
  Proof.
    intros i. unfold parse_width.
    set (y := match i with b :: r => if b =? 94 then (Some ACenter, r) else if b =? 60 then (Some ALeft, r) else if b =? 62 then (Some ARight, r) else (None, i) | [] => (None, i) end).
    assert (Y : exists pre, i = pre ++ snd y).
    { subst y. destruct i as [|b r]; [exists []; auto|]. destruct (b =? 94); [exists [b]; auto|]. destruct (b =? 60); [exists [b]; auto|]. destruct (b =? 62); [exists [b]; auto|]. exists []. auto. }
    destruct y as [a i1]. cbn [snd] in Y. destruct Y as [pre ->]. pose proof (span_app is_digit i1) as S. destruct (span is_digit i1) as [d r]. destruct S as (-> & _).
    destruct d as [|z d]; [apply good_err|]. destruct (parse_digits usize_max (z :: d)); [|apply good_err]. rewrite app_assoc. apply good_ok.
  Qed.

  Lemma good_format : forall b i, good i (parse_format X b i).
  Proof.
    intros b i. unfold parse_format. assert (G : good i (p_or (parse_color X i) (p_or (parse_style X i) (parse_width i)))).
    { apply good_or; [apply good_word|]. apply good_or; [apply good_word|apply good_width]. }
    destruct (p_or (parse_color X i) (p_or (parse_style X i) (parse_width i))); auto. apply good_err.
  Qed.

  Lemma good_string : forall i, good i (parse_string i).
  Proof.
    intros i. unfold parse_string. pose proof (span_app (fun b => negb ((b =? 123) || (b =? 37))) i) as S. destruct (span _ i) as [s r]. destruct S as (-> & _).
    destruct s; [apply good_err|apply good_ok].
  Qed.

  Lemma good_nested_item : forall i r, good i r -> good i (nested_item r).
  Proof. intros i r G. unfold nested_item. apply (good_bind _ _ i r (fun i s => Ok (i, INested s))); auto. intros. apply good_same. Qed.

  Lemma good_built : forall n i r, good i r -> good i (built n r).
  Proof.
    intros n i r G. unfold built. apply (good_bind _ _ i r (fun i l => match build n l with Some s => Ok (i, s) | None => Err Failure end)); auto.
    intros q l _. destruct (build n l); [apply good_same|apply good_err].
  Qed.

  Lemma good_many0 : forall A (p : bytes -> pres A) i fuel, (length i < fuel)%nat -> (forall j, (length j <= length i)%nat -> good j (p j)) -> good i (many0 p fuel i).
  Proof.
    intros A p. intros i; pattern i; apply bytes_length_ind; clear i; intros i IH fuel L P. destruct fuel as [|fuel]; [lia|]. cbn [many0].
    pose proof (P i (le_n _)) as (N & Pn & S). destruct (p i) as [[i1 a]|[]| |] eqn:E; try apply good_err; [|apply good_same| |congruence].
    - destruct (Nat.eqb_spec (length i1) (length i)); [apply good_err|]. destruct (S i1 a eq_refl) as [pre Q].
      assert (Li : (length i1 < length i)%nat) by (subst i; rewrite app_length in *; lia).
      assert (Gi : good i1 (many0 p fuel i1)). { apply IH; [lia|lia|]. intros j Hj. apply P. lia. }
      destruct Gi as (N' & P' & S'). destruct (many0 p fuel i1) as [[r l]|e| |]; cbn [bind]; try apply good_err; [|split; [discriminate|]|congruence].
      + subst i. destruct (S' r l eq_refl) as [pre' ->]. rewrite app_assoc. apply good_ok.
      + split; [|discriminate]. intros H. exfalso. apply P'; auto. intros Z. apply H. subst i. apply in_or_app; auto.
    - split; [discriminate|]. split; [|discriminate]. intros H. exfalso. now apply Pn.
  Qed.

  Lemma good_sep_rest : forall A sep (p : bytes -> pres A) i fuel, (length i < fuel)%nat -> (forall j, (length j <= length i)%nat -> good j (p j)) -> good i (sep_rest sep p fuel i).
  Proof.
    intros A sep p. intros i; pattern i; apply bytes_length_ind; clear i; intros i IH fuel L P. destruct fuel as [|fuel]; [lia|]. cbn [sep_rest].
    destruct i as [|b i1]; [apply good_same|]. destruct (b =? sep); [|apply good_same].
    assert (L1 : (length i1 <= length (b :: i1))%nat) by (cbn; lia).
    pose proof (P i1 L1) as (N & Pn & S). destruct (p i1) as [[i2 a]|[]| |] eqn:E; try apply good_err; [|apply good_same| |congruence].
    - destruct (S i2 a eq_refl) as [pre Q].
      assert (Li : (length i2 <= length i1)%nat) by (subst i1; rewrite app_length in *; lia).
      assert (Gi : good i2 (sep_rest sep p fuel i2)). { apply IH; [cbn; lia|cbn in L; lia|]. intros j Hj. apply P. lia. }
      destruct Gi as (N' & P' & S'). destruct (sep_rest sep p fuel i2) as [[r l]|e| |]; cbn [bind]; try apply good_err; [|split; [discriminate|]|congruence].
      + subst i1. destruct (S' r l eq_refl) as [pre' ->]. change (b :: pre ++ pre' ++ r) with ((b :: pre) ++ (pre' ++ r)). rewrite app_assoc. apply good_ok.
      + split; [|discriminate]. intros H. exfalso. apply P'; auto. intros Z. apply H. right. subst i1. apply in_or_app; auto.
    - split; [discriminate|]. split; [|discriminate]. intros H. exfalso. apply Pn; auto. intros Z. apply H. now right.
  Qed.

  Lemma good_sep_list1 : forall A sep (p : bytes -> pres A) i, (forall j, (length j <= length i)%nat -> good j (p j)) -> good i (sep_list1 sep p i).
  Proof.
    intros A sep p i P. unfold sep_list1. apply (good_bind _ _ i (p i) (fun i1 a => ' (r, l) <- sep_rest sep p (S (length i1)) i1 ;; Ok (r, a :: l))); [apply P; lia|].
    intros q a E. destruct (P i (le_n _)) as (_ & _ & S). destruct (S q a E) as [pre Q].
    assert (L : (length q <= length i)%nat) by (rewrite Q, app_length; lia).
    apply (good_bind _ _ q _ (fun r l => Ok (r, a :: l))); [|intros; apply good_same]. apply good_sep_rest; [lia|]. intros j Hj. apply P. lia.
  Qed.

  Lemma good_until : forall s d, good s (until_unbalanced d s) /\
    forall q x, until_unbalanced d s = Ok (q, x) -> s = x ++ q.
  Proof.
    assert (K : forall b s (r : pres bytes), good s r -> (forall q x, r = Ok (q, x) -> s = x ++ q) ->
      good (b :: s) (match r with Ok (rest, x) => Ok (rest, b :: x) | e => e end) /\
      forall q x, (match r with Ok (rest, x) => Ok (rest, b :: x) | e => e end) = Ok (q, x) -> b :: s = x ++ q).
    { intros b s r (N & P & _) H. destruct r as [[q x]|e| |]; [| split; [apply good_err|discriminate] | | congruence].
      - specialize (H q x eq_refl). subst s. split; [change (b :: x ++ q) with ((b :: x) ++ q); apply good_ok|]. intros q' x' E. injection E as <- <-. reflexivity.
      - split; [|discriminate]. split; [discriminate|]. split; [|discriminate]. intros Z. exfalso. apply P; auto. intros Y. apply Z. now right. }
    intros s; pattern s; apply bytes_length_ind; clear s; intros s IH d. destruct s as [|b r]; cbn [until_unbalanced].
    - destruct d; (split; [try apply good_same; apply good_err|]); [|discriminate]. intros q x E. injection E as <- <-. reflexivity.
    - destruct (Z.eqb_spec b 92).
      + destruct r as [|c r'].
        * split; [|discriminate]. split; [discriminate|]. split; [|discriminate]. intros H. exfalso. apply H. subst. now left.
        * destruct (IH r' ltac:(cbn; lia) d) as [G H]. destruct (K c r' _ G H) as [G1 H1]. apply (K b (c :: r') _ G1 H1).
      + destruct (b =? 123); [destruct (IH r ltac:(cbn; lia) (S d)) as [G H]; apply (K b r _ G H)|].
        destruct (b =? 125).
        * destruct d as [|d]; [|destruct (IH r ltac:(cbn; lia) d) as [G H]; apply (K b r _ G H)].
          split; [apply good_same|]. intros q x E. injection E as <- <-. reflexivity.
        * destruct (IH r ltac:(cbn; lia) d) as [G H]; apply (K b r _ G H).
  Qed.

  Lemma good_parse_nested : forall arg i, (forall j, (length j <= length i)%nat -> good j (arg j)) -> good i (parse_nested X arg i).
  Proof.
    intros arg i P. unfold parse_nested. apply good_nested_item, good_built, good_many0; [lia|]. intros j Hj.
    apply good_or; [apply good_nested_item, P, Hj|]. apply good_or; [apply good_nested_item, good_string|].
    destruct j as [|b r]; [apply good_err|]. destruct (b =? 37); [|apply good_err]. destruct (good_format true r) as (N & Pn & S).
    split; auto. split; [intros H; apply Pn; intros Z; apply H; now right|]. intros q a E. destruct (S q a E) as [pre ->]. exists (b :: pre). reflexivity.
  Qed.

  Lemma good_nested_log_segment : forall i, good i (nested_log_segment X i).
  Proof.
    intros i. unfold nested_log_segment.
    apply (good_bind _ _ i _ (fun r l => match build false l with Some s => Ok (r, INested s) | None => Err Error end)).
    - apply good_sep_list1. intros j _. apply good_or; [apply good_word|apply good_format].
    - intros q l _. destruct (build false l); [apply good_same|apply good_err].
  Qed.

  Lemma good_log_segment : forall arg nest i, (forall n j, (length j <= length i)%nat -> good j (arg n j)) -> good i (parse_log_segment X arg nest i).
  Proof.
    intros arg nest i P. unfold parse_log_segment. apply good_built. destruct nest; apply good_sep_list1; intros j Hj.
    - apply good_or; [apply good_nested_log_segment|]. apply good_or; [apply good_format|]. apply good_parse_nested. intros j' H. apply P. lia.
    - apply good_or; [apply good_word|]. apply good_or; [apply good_format|]. apply good_parse_nested. intros j' H. apply P. lia.
  Qed.

  Lemma good_argument : forall fuel nest i, (length i < fuel)%nat -> good i (parse_argument X fuel nest i).
  Proof.
    induction fuel as [|fuel IH]; intros nest i L; [lia|]. cbn [parse_argument]. destruct i as [|b r]; [apply good_err|]. destruct (Z.eqb_spec b 123) as [->|]; [|apply good_err].
    destruct (good_until r 0) as [(N & P & _) S]. destruct (until_unbalanced 0 r) as [[rest content]|e| |]; cbn [bind]; [|apply good_err| |congruence].
    - specialize (S _ _ eq_refl). destruct rest as [|c rest]; [apply good_err|]. destruct (Z.eq_dec c 125) as [->|Hc].
      2:{ destruct c as [|p|p]; try apply good_err. repeat (destruct p as [p|p|]; try apply good_err). congruence. }
      assert (G : good content (parse_log_segment X (parse_argument X fuel) nest content)).
      { apply good_log_segment. intros n j Hj. apply IH. cbn in L. rewrite S, app_length in L. cbn in L. lia. }
      destruct G as (N' & P' & _). destruct (parse_log_segment X (parse_argument X fuel) nest content) as [[q s]|e| |]; cbn [bind]; [|apply good_err| |congruence].
      + rewrite S. replace (123 :: content ++ 125 :: rest) with ((123 :: content ++ [125]) ++ rest) by (cbn; now rewrite <- app_assoc). apply good_ok.
      + split; [discriminate|]. split; [|discriminate]. intros H. exfalso. apply P'; auto. intros Z. apply H. right. rewrite S. apply in_or_app. auto.
    - split; [discriminate|]. split; [|discriminate]. intros H. exfalso. apply P; auto. intros Z. apply H. now right.
  Qed.

  Lemma good_top : forall i, good i (many0 (fun j => p_or (parse_argument X (S (length j)) false j) (parse_string j)) (S (length i)) i).
  Proof. intros i. apply good_many0; [lia|]. intros j _. apply good_or; [apply good_argument; lia|apply good_string]. Qed.

  Lemma parse_total : forall i, parse_log_format X i <> NoFuel /\ (~ In 92 i -> parse_log_format X i <> Panic).
  Proof.
    intros i. unfold parse_log_format. destruct (good_top i) as (N & P & _). destruct (many0 _ _ i) as [[q l]|e| |].
    - destruct (existsb has_log l); split; discriminate.
    - split; discriminate.
    - split; [discriminate|]. intros H. exfalso. now apply P.
    - congruence.
  Qed.
End Good.
