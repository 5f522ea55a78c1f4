(** Exactly which log format strings make the parser panic (C41). *)
From Verif Require Import Base Utf8 ParserModel Numerals EnvFilterModel LogFormatModel LogFormatSpec LogFormatProofs LogFormatText.

(** Behind an opening bracket: the text ends in an escape that escapes nothing before the
    bracket is closed. *)
Inductive dangling : nat -> bytes -> Prop :=
| D_end : forall d, dangling d [92]
| D_escape : forall d c s, dangling d s -> dangling d (92 :: c :: s)
| D_open : forall d s, dangling (S d) s -> dangling d (123 :: s)
| D_close : forall d s, dangling d s -> dangling (S d) (125 :: s)
| D_other : forall d c s, c <> 92 -> c <> 123 -> c <> 125 -> dangling d s -> dangling d (c :: s).

Lemma keep_panic : forall b (r : pres bytes), (match r with Ok (rest, x) => Ok (rest, b :: x) | e => e end) = Panic <-> r = Panic.
Proof. intros b [[q x]|e| |]; split; intros H; try discriminate H; reflexivity. Qed.

Lemma until_panics : forall s d, until_unbalanced d s = Panic <-> dangling d s.
Proof.
  intros s; pattern s; apply bytes_length_ind; clear s; intros s IH d. split.
  - destruct s as [|b r]; cbn [until_unbalanced]; [destruct d; discriminate|]. destruct (Z.eqb_spec b 92) as [->|N1].
    + destruct r as [|c r']; [constructor|]. rewrite !keep_panic. intros H. apply D_escape. apply IH; [cbn; lia|exact H].
    + destruct (Z.eqb_spec b 123) as [->|N2]; [rewrite keep_panic; intros H; apply D_open, IH; [cbn; lia|exact H]|].
      destruct (Z.eqb_spec b 125) as [->|N3].
      * destruct d as [|d]; [discriminate|]. rewrite keep_panic. intros H. apply D_close, IH; [cbn; lia|exact H].
      * rewrite keep_panic. intros H. apply D_other; auto. apply IH; [cbn; lia|exact H].
  - intros D. destruct D as [d|d c s D|d s D|d s D|d c s N1 N2 N3 D]; cbn [until_unbalanced].
    + reflexivity.
    + change (92 =? 92) with true. cbn iota. rewrite !keep_panic. apply IH; [cbn; lia|exact D].
    + change (123 =? 92) with false. change (123 =? 123) with true. cbn iota. rewrite keep_panic. apply IH; [cbn; lia|exact D].
    + change (125 =? 92) with false. change (125 =? 123) with false. change (125 =? 125) with true. cbn iota. rewrite keep_panic. apply IH; [cbn; lia|exact D].
    + apply Z.eqb_neq in N1, N2, N3. rewrite N1, N2, N3. rewrite keep_panic. apply IH; [cbn; lia|exact D].
Qed.

(** Whether the text ends in an odd number of backslashes. *)
Fixpoint odd_end (odd : bool) (s : bytes) : bool :=
  match s with [] => odd | b :: r => odd_end (if b =? 92 then negb odd else false) r end.

Lemma dangling_odd : forall d s, dangling d s -> odd_end false s = true.
Proof.
  intros d s D. assert (H : forall c s, odd_end false s = true -> odd_end (if c =? 92 then negb true else false) s = true) by (intros c' s' H'; destruct (c' =? 92); exact H').
  induction D as [d|d c s D IH|d s D IH|d s D IH|d c s N1 N2 N3 D IH]; cbn [odd_end]; auto.
  apply Z.eqb_neq in N1. rewrite N1. exact IH.
Qed.

Lemma closed_even : forall s d q x, until_unbalanced d s = Ok (q, x) -> q <> [] -> odd_end false x = false.
Proof.
  intros s; pattern s; apply bytes_length_ind; clear s; intros s IH d q x. destruct s as [|b r]; cbn [until_unbalanced]; [destruct d; [|discriminate]; intros H; injection H as <- <-; congruence|].
  assert (K : forall b (r : pres bytes) q x, (match r with Ok (rest, x) => Ok (rest, b :: x) | e => e end) = Ok (q, x) -> exists y, x = b :: y /\ r = Ok (q, y)).
  { intros b' [[q' x']|e| |] q0 x0 H; try discriminate. injection H as <- <-. eauto. }
  destruct (Z.eqb_spec b 92) as [->|N1].
  - destruct r as [|c r']; [discriminate|]. intros H Q. apply K in H as (y & -> & H). apply K in H as (z & -> & H).
    apply IH in H; [|cbn; lia|exact Q]. cbn [odd_end]. change (92 =? 92) with true. cbn [negb]. destruct (c =? 92); exact H.
  - apply Z.eqb_neq in N1. destruct (b =? 123); [intros H Q; apply K in H as (y & -> & H); apply IH in H; [|cbn; lia|exact Q]; cbn [odd_end]; rewrite N1; exact H|].
    destruct (b =? 125).
    + destruct d as [|d]; [intros H; injection H as <- <-; reflexivity|]. intros H Q; apply K in H as (y & -> & H); apply IH in H; [|cbn; lia|exact Q]; cbn [odd_end]; rewrite N1; exact H.
    + intros H Q; apply K in H as (y & -> & H); apply IH in H; [|cbn; lia|exact Q]; cbn [odd_end]; rewrite N1; exact H.
Qed.

Lemma odd_end_bracket : forall pre o r, odd_end o (pre ++ 123 :: r) = odd_end false r.
Proof. induction pre as [|b pre IH]; intros o r; cbn [app odd_end]; [reflexivity|apply IH]. Qed.

(** No bracket is followed by a text with such an end. *)
Definition steady (i : bytes) : Prop := forall pre r, i = pre ++ 123 :: r -> odd_end false r = false.

Lemma steady_tail : forall pre q, steady (pre ++ q) -> steady q.
Proof. intros pre q H p r ->. apply (H (pre ++ p)). now rewrite app_assoc. Qed.

Definition quiet {A} (i : bytes) (r : pres A) : Prop :=
  (steady i -> r <> Panic) /\ forall q a, r = Ok (q, a) -> exists pre, i = pre ++ q.

Lemma quiet_err : forall A i e, @quiet A i (Err e).
Proof. intros. split; discriminate. Qed.
Lemma quiet_ok : forall A (a : A) pre q, quiet (pre ++ q) (Ok (q, a)).
Proof. intros. split; [discriminate|]. intros q' a' H. injection H as <- <-. eauto. Qed.
Lemma quiet_same : forall A (a : A) i, quiet i (Ok (i, a)).
Proof. intros. apply (quiet_ok _ a [] i). Qed.
Lemma quiet_good : forall A i (r : pres A), good i r -> r <> Panic -> quiet i r.
Proof. intros A i r (_ & _ & G) N. split; auto. Qed.
Lemma quiet_or : forall A i (a b : pres A), quiet i a -> quiet i b -> quiet i (p_or a b).
Proof. intros A i a b Ga Gb. destruct a as [|[]| |]; auto. Qed.

Lemma quiet_bind : forall A B i (r : pres A) (f : bytes -> A -> pres B), quiet i r ->
  (forall q a, r = Ok (q, a) -> quiet q (f q a)) -> quiet i (' (q, a) <- r ;; f q a).
Proof.
  intros A B i r f (P & S) F. destruct r as [[q a]|e| |]; cbn [bind]; [|apply quiet_err| |split; discriminate].
  - destruct (S q a eq_refl) as [pre ->]. destruct (F q a eq_refl) as (P' & S'). split.
    + intros H. apply P'. eapply steady_tail, H.
    + intros q' b E. destruct (S' q' b E) as [pre' ->]. exists (pre ++ pre'). now rewrite app_assoc.
  - split; [|discriminate]. intros H. exfalso. now apply P.
Qed.

Section Quiet.
  Context (X : external).

  Lemma quiet_word : forall A (f : bytes -> option A) g i, quiet i (on_word X f g i).
  Proof. intros A f g i. apply quiet_good; [apply good_word|]. unfold on_word. destruct (word X i) as [w r]. destruct (f w); discriminate. Qed.

  Lemma width_calm : forall i, parse_width i <> Panic.
  Proof.
    intros i. unfold parse_width. destruct (match i with b :: r => _ | [] => _ end) as [a i1]. destruct (span is_digit i1) as [[|z d] r]; [discriminate|].
    destruct (parse_digits usize_max (z :: d)); discriminate.
  Qed.

  Lemma quiet_format : forall b i, quiet i (parse_format X b i).
  Proof.
    intros b i. unfold parse_format. assert (G : quiet i (p_or (parse_color X i) (p_or (parse_style X i) (parse_width i)))).
    { apply quiet_or; [apply quiet_word|]. apply quiet_or; [apply quiet_word|]. apply quiet_good; [apply good_width|apply width_calm]. }
    destruct (p_or (parse_color X i) (p_or (parse_style X i) (parse_width i))); auto. apply quiet_err.
  Qed.

  Lemma string_calm : forall i, parse_string i <> Panic.
  Proof. intros i. unfold parse_string. destruct (span _ i) as [[|b s] r]; discriminate. Qed.
  Lemma quiet_string : forall i, quiet i (parse_string i).
  Proof. intros i. apply quiet_good; [apply good_string|apply string_calm]. Qed.

  Lemma quiet_nested_item : forall i r, quiet i r -> quiet i (nested_item r).
  Proof. intros i r G. unfold nested_item. apply (quiet_bind _ _ i r (fun i s => Ok (i, INested s))); auto. intros. apply quiet_same. Qed.

  Lemma quiet_built : forall n i r, quiet i r -> quiet i (built n r).
  Proof.
    intros n i r G. unfold built. apply (quiet_bind _ _ i r (fun i l => match build n l with Some s => Ok (i, s) | None => Err Failure end)); auto.
    intros q l _. destruct (build n l); [apply quiet_same|apply quiet_err].
  Qed.

  Lemma quiet_many0 : forall A (p : bytes -> pres A), (forall j, quiet j (p j)) -> forall fuel i, quiet i (many0 p fuel i).
  Proof.
    intros A p P. induction fuel as [|fuel IH]; intros i; cbn [many0]; [split; discriminate|].
    pose proof (P i) as Q. destruct (p i) as [[i1 a]|[]| |]; try apply quiet_err; [|apply quiet_same| |split; discriminate].
    - destruct (length i1 =? length i)%nat; [apply quiet_err|].
      apply (quiet_bind _ _ i (Ok (i1, a)) (fun i1 a => ' (r, l) <- many0 p fuel i1 ;; Ok (r, a :: l)) Q).
      intros q b _. apply (quiet_bind _ _ q _ (fun r l => Ok (r, b :: l)) (IH q)). intros. apply quiet_same.
    - split; [|discriminate]. intros H. exfalso. now apply Q.
  Qed.

  Lemma quiet_cons : forall A b i (r : pres A), quiet i r -> quiet (b :: i) r.
  Proof. intros A b i r [P S]. split; [intros H; apply P; exact (steady_tail [b] i H)|]. intros q a E. destruct (S q a E) as [pre ->]. exists (b :: pre). reflexivity. Qed.

  Lemma quiet_sep_rest : forall A sep (p : bytes -> pres A), (forall j, quiet j (p j)) -> forall fuel i, quiet i (sep_rest sep p fuel i).
  Proof.
    intros A sep p P. induction fuel as [|fuel IH]; intros i; cbn [sep_rest]; [split; discriminate|].
    destruct i as [|b i1]; [apply quiet_same|]. destruct (b =? sep); [|apply quiet_same].
    pose proof (P i1) as Q. destruct (p i1) as [[i2 a]|[]| |]; try apply quiet_err; [|apply quiet_same| |split; discriminate].
    - apply quiet_cons. apply (quiet_bind _ _ i1 (Ok (i2, a)) (fun i2 a => ' (r, l) <- sep_rest sep p fuel i2 ;; Ok (r, a :: l)) Q).
      intros q c _. apply (quiet_bind _ _ q _ (fun r l => Ok (r, c :: l)) (IH q)). intros. apply quiet_same.
    - apply quiet_cons. split; [|discriminate]. intros H. exfalso. now apply Q.
  Qed.

  Lemma quiet_sep_list1 : forall A sep (p : bytes -> pres A), (forall j, quiet j (p j)) -> forall i, quiet i (sep_list1 sep p i).
  Proof.
    intros A sep p P i. unfold sep_list1. apply (quiet_bind _ _ i (p i) (fun i1 a => ' (r, l) <- sep_rest sep p (S (length i1)) i1 ;; Ok (r, a :: l))); [apply P|].
    intros q a _. apply (quiet_bind _ _ q _ (fun r l => Ok (r, a :: l))); [apply quiet_sep_rest, P|intros; apply quiet_same].
  Qed.

  Lemma quiet_parse_nested : forall arg, (forall j, quiet j (arg j)) -> forall i, quiet i (parse_nested X arg i).
  Proof.
    intros arg P i. unfold parse_nested. apply quiet_nested_item, quiet_built, quiet_many0. intros j.
    apply quiet_or; [apply quiet_nested_item, P|]. apply quiet_or; [apply quiet_nested_item, quiet_string|].
    destruct j as [|b r]; [apply quiet_err|]. destruct (b =? 37); [|apply quiet_err]. apply quiet_cons, quiet_format.
  Qed.

  Lemma quiet_nested_log_segment : forall i, quiet i (nested_log_segment X i).
  Proof.
    intros i. unfold nested_log_segment.
    apply (quiet_bind _ _ i _ (fun r l => match build false l with Some s => Ok (r, INested s) | None => Err Error end)).
    - apply quiet_sep_list1. intros j. apply quiet_or; [apply quiet_word|apply quiet_format].
    - intros q l _. destruct (build false l); [apply quiet_same|apply quiet_err].
  Qed.

  Lemma quiet_log_segment : forall arg nest, (forall n j, quiet j (arg n j)) -> forall i, quiet i (parse_log_segment X arg nest i).
  Proof.
    intros arg nest P i. unfold parse_log_segment. apply quiet_built. destruct nest; apply quiet_sep_list1; intros j.
    - apply quiet_or; [apply quiet_nested_log_segment|]. apply quiet_or; [apply quiet_format|]. apply quiet_parse_nested. auto.
    - apply quiet_or; [apply quiet_word|]. apply quiet_or; [apply quiet_format|]. apply quiet_parse_nested. auto.
  Qed.

  Lemma argument_panics : forall fuel nest r, parse_argument X (S fuel) nest (123 :: r) = Panic -> dangling 0 r.
  Proof.
    induction fuel as [fuel IH] using lt_wf_ind. intros nest r. cbn [parse_argument]. change (123 =? 123) with true. cbn iota.
    destruct (until_unbalanced 0 r) as [[rest content]|e| |] eqn:E; cbn [bind]; try discriminate.
    2:{ intros _. now apply until_panics. }
    destruct rest as [|c rest]; [discriminate|]. destruct (Z.eq_dec c 125) as [->|Hc].
    2:{ destruct c as [|p|p]; try discriminate. repeat (destruct p as [p|p|]; try discriminate). congruence. }
    assert (Q : forall n j, quiet j (parse_argument X fuel n j)).
    { intros n j. destruct fuel as [|fuel]; [split; discriminate|]. split.
      - intros St H. destruct j as [|b j]; [discriminate|]. destruct (Z.eqb_spec b 123) as [->|Nb]; [|cbn [parse_argument] in H; apply Z.eqb_neq in Nb; rewrite Nb in H; discriminate].
        apply IH in H; [|lia]. apply dangling_odd in H. rewrite (St [] j eq_refl) in H. discriminate.
      - intros q a H. destruct j as [|b j]; [discriminate|]. cbn [parse_argument] in H. destruct (b =? 123); [|discriminate].
        destruct (good_until j 0) as [_ U]. destruct (until_unbalanced 0 j) as [[q1 x]|e| |]; cbn [bind] in H; try discriminate.
        specialize (U _ _ eq_refl). destruct q1 as [|c1 q1]; [discriminate|]. destruct (Z.eq_dec c1 125) as [->|Hc].
        2:{ destruct c1 as [|p|p]; try discriminate. repeat (destruct p as [p|p|]; try discriminate). congruence. }
        destruct (parse_log_segment X _ n x) as [[q2 s2]|e| |]; cbn [bind] in H; try discriminate. injection H as <- <-.
        exists (b :: x ++ [125]). rewrite U. cbn. now rewrite <- app_assoc. }
    destruct (quiet_log_segment _ nest Q content) as [P _].
    assert (St : steady content).
    { intros pre r' ->. apply closed_even in E; [|discriminate]. now rewrite odd_end_bracket in E. }
    specialize (P St). destruct (parse_log_segment X (parse_argument X fuel) nest content) as [[q s]|e| |]; cbn [bind]; congruence.
  Qed.

  (** How far the parser gets: text up to the next bracket or percent sign, and complete arguments. *)
  Inductive reaches : bytes -> bytes -> Prop :=
  | R_here : forall s, reaches s s
  | R_text : forall p r s, plain_text p -> open_end r -> reaches r s -> reaches (p ++ r) s
  | R_argument : forall i r g s, parse_argument X (S (length i)) false i = Ok (r, g) -> reaches r s -> reaches i s.

  Lemma argument_shorter : forall fuel nest i r g, parse_argument X fuel nest i = Ok (r, g) -> (length r < length i)%nat.
  Proof.
    intros [|fuel] nest i r g H; [discriminate|]. destruct i as [|b j]; [discriminate|]. cbn [parse_argument] in H. destruct (b =? 123); [|discriminate].
    destruct (good_until j 0) as [_ U]. destruct (until_unbalanced 0 j) as [[q1 x]|e| |]; cbn [bind] in H; try discriminate.
    specialize (U _ _ eq_refl). destruct q1 as [|c1 q1]; [discriminate|]. destruct (Z.eq_dec c1 125) as [->|Hc].
    2:{ destruct c1 as [|p|p]; try discriminate. repeat (destruct p as [p|p|]; try discriminate). congruence. }
    destruct (parse_log_segment X _ nest x) as [[q2 s2]|e| |]; cbn [bind] in H; try discriminate. injection H as <- <-. rewrite U. cbn. rewrite app_length. cbn. lia.
  Qed.

  Lemma string_ok : forall p r, plain_text p -> open_end r -> parse_string (p ++ r) = Ok (r, MkSegment (MString p) no_format).
  Proof.
    intros p r (N & A & B) O. unfold parse_string.
    assert (S : span (fun b => negb ((b =? 123) || (b =? 37))) (p ++ r) = (p, r)).
    { clear N. induction p as [|c p IH]; cbn [app span].
      - destruct r as [|b r]; [reflexivity|]. cbn [span]. destruct O as [-> | ->]; reflexivity.
      - assert (Hc : negb ((c =? 123) || (c =? 37)) = true).
        { destruct (Z.eqb_spec c 123); [subst; exfalso; apply A; now left|]. destruct (Z.eqb_spec c 37); [subst; exfalso; apply B; now left|]. reflexivity. }
        rewrite Hc, IH; [reflexivity| |]; intros Q; [apply A|apply B]; now right. }
    rewrite S. destruct p; [congruence|reflexivity].
  Qed.

  Lemma string_cut : forall i r g, parse_string i = Ok (r, g) -> exists p, i = p ++ r /\ plain_text p /\ open_end r.
  Proof.
    intros i r g H. unfold parse_string in H. pose proof (span_app (fun b => negb ((b =? 123) || (b =? 37))) i) as S. destruct (span _ i) as [a b]. destruct S as (-> & F & O).
    destruct a as [|x a]; [discriminate|]. injection H as <- <-. exists (x :: a). split; auto. split.
    - split; [discriminate|]. rewrite Forall_forall in F. split; intros Q; specialize (F _ Q); cbn in F; discriminate.
    - destruct b as [|c b]; [exact Logic.I|]. cbn. destruct (Z.eqb_spec c 123); [auto|]. destruct (Z.eqb_spec c 37); [auto|]. discriminate.
  Qed.

  Definition step (j : bytes) : pres segment := p_or (parse_argument X (S (length j)) false j) (parse_string j).

  Lemma step_text : forall p r, plain_text p -> open_end r -> step (p ++ r) = Ok (r, MkSegment (MString p) no_format).
  Proof.
    intros p r T O. unfold step. rewrite (string_ok _ _ T O). destruct T as (N & A & _). destruct p as [|c p]; [congruence|]. cbn [app parse_argument].
    destruct (Z.eqb_spec c 123); [subst; exfalso; apply A; now left|]. reflexivity.
  Qed.

  Theorem parse_panics : forall i, parse_log_format X i = Panic <-> exists r, reaches i (123 :: r) /\ dangling 0 r.
  Proof.
    intros i. unfold parse_log_format. fold step.
    assert (E : (many0 step (S (length i)) i = Panic <-> exists r, reaches i (123 :: r) /\ dangling 0 r)).
    { assert (G : forall fuel i, (length i < fuel)%nat -> (many0 step fuel i = Panic <-> exists r, reaches i (123 :: r) /\ dangling 0 r)).
      2:{ apply G. lia. }
      clear i. induction fuel as [|fuel IH]; intros i L; [lia|]. cbn [many0]. split.
      - destruct (step i) as [[i1 a]|[]| |] eqn:S; try discriminate.
        + destruct (Nat.eqb_spec (length i1) (length i)) as [E|E]; [discriminate|]. intros H.
          assert (H1 : many0 step fuel i1 = Panic) by (destruct (many0 step fuel i1) as [[]| | |]; cbn [bind] in H; congruence).
          unfold step, p_or in S. destruct (parse_argument X (Datatypes.S (length i)) false i) as [[r g]|[]| |] eqn:A; try discriminate.
          * injection S as -> ->. pose proof (argument_shorter _ _ _ _ _ A). apply IH in H1 as (r & R & D); [|lia]. exists r. split; auto. eapply R_argument; eauto.
          * apply string_cut in S as (p & -> & T & O). destruct T as (N & T). assert (length p <> 0)%nat by (destruct p; cbn; congruence).
            rewrite app_length in L. apply IH in H1 as (r & R & D); [|lia]. exists r. split; auto. apply R_text; auto. split; auto.
        + intros _. unfold step, p_or in S. destruct (parse_argument X (Datatypes.S (length i)) false i) as [[r g]|[]| |] eqn:A; try discriminate.
          * exfalso. exact (string_calm _ S).
          * destruct i as [|b r]; [discriminate|]. destruct (Z.eqb_spec b 123) as [->|Nb]; [|cbn [parse_argument] in A; apply Z.eqb_neq in Nb; rewrite Nb in A; discriminate].
            exists r. split; [constructor|]. eapply argument_panics, A.
      - intros (r & R & D). remember (123 :: r) as w eqn:W. destruct R as [s|p q s T O R|i q g s A R]; subst s.
        + assert (S : step (123 :: r) = Panic).
          { unfold step. cbn [parse_argument]. change (123 =? 123) with true. cbn iota. apply until_panics in D. rewrite D. reflexivity. }
          now rewrite S.
        + rewrite (step_text _ _ T O). destruct T as (N & T). assert (length p <> 0)%nat by (destruct p; cbn; congruence). rewrite app_length in *.
          destruct (Nat.eqb_spec (length q) (length p + length q)); [lia|]. assert (M : many0 step fuel q = Panic) by (apply IH; [lia|eauto]). now rewrite M.
        + pose proof (argument_shorter _ _ _ _ _ A) as Sh. unfold step at 1. rewrite A. cbn [p_or]. destruct (Nat.eqb_spec (length q) (length i)); [lia|].
          assert (M : many0 step fuel q = Panic) by (apply IH; [lia|eauto]). now rewrite M. }
    rewrite <- E. destruct (many0 step (S (length i)) i) as [[q l]|e| |]; [destruct (existsb has_log l)| | |]; split; congruence.
  Qed.

  (** In particular the text ends in an odd number of backslashes. *)
  Lemma reaches_end : forall i s, reaches i s -> exists pre, i = pre ++ s.
  Proof.
    intros i s R. induction R as [s|p r s T O R [pre ->]|i r g s A R [pre ->]].
    - exists []. reflexivity.
    - exists (p ++ pre). now rewrite app_assoc.
    - destruct (good_argument X (S (length i)) false i (Nat.lt_succ_diag_r _)) as (_ & _ & G). destruct (G _ _ A) as [p ->]. exists (p ++ pre). now rewrite app_assoc.
  Qed.

  Theorem panics_odd : forall i, parse_log_format X i = Panic -> exists pre k, i = pre ++ repeat 92 (2 * k + 1) /\ ~ exists p, pre = p ++ [92].
  Proof.
    intros i H. apply parse_panics in H as (r & R & D). apply reaches_end in R as [pre ->]. apply dangling_odd in D.
    rewrite <- (odd_end_bracket pre false r) in D. remember (pre ++ 123 :: r) as s eqn:Q. clear - D.
    assert (G : forall s, exists pre k, s = pre ++ repeat 92 k /\ (~ exists p, pre = p ++ [92]) /\ odd_end false s = Nat.odd k).
    { clear. intros s. induction s as [|b s IH] using rev_ind; [exists [], 0%nat; repeat split; intros [[] E]; discriminate|].
      assert (OA : forall s o b, odd_end o (s ++ [b]) = if b =? 92 then negb (odd_end o s) else false).
      { induction s0 as [|c s0 IHs]; intros o b'; cbn [app odd_end]; [reflexivity|apply IHs]. }
      rewrite OA. destruct (Z.eqb_spec b 92) as [->|N].
      - destruct IH as (pre & k & -> & P & O). exists pre, (S k). split; [rewrite <- app_assoc; f_equal; rewrite <- repeat_cons; reflexivity|]. split; auto.
        rewrite O. rewrite Nat.odd_succ. unfold Nat.odd. now rewrite Bool.negb_involutive.
      - exists (s ++ [b]), 0%nat. split; [now rewrite app_nil_r|]. split; [|reflexivity]. intros [p E]. apply app_inj_tail in E as [_ E]. congruence. }
    destruct (G s) as (p & k & E & P & O). rewrite D in O. symmetry in O. apply Nat.odd_spec in O as [m ->]. eauto.
  Qed.
End Quiet.
