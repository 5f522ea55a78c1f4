(** What a JSON document denotes, by the grammar of RFC 8259, and that the reader of [SinkSpec] (with which the JSON
    output of the host is read in C55 and C73) reads exactly these documents. *)
From Verif Require Import Base Utf8 ParserModel DecoderModel Numerals DisplayModel SymbolModel EnvFilterModel LogFormatModel SinkModel SinkSpec.
From Verif Require Import JsonSpec JsonScalars JsonValues.

(** The number written in decimal. *)
Fixpoint number_of (d : bytes) : Z :=
  match d with [] => 0 | c :: r => (c - 48) * 10 ^ Z.of_nat (length r) + number_of r end.

Inductive sign : bytes -> Z -> Prop := Plus : sign [] 1 | Minus : sign [45] (-1).

(** What follows an element of a list, and a list, after its opening bracket. *)
Inductive tail_text {A} (P : A -> bytes -> Prop) (close : Z) : list A -> bytes -> Prop :=
| T_close w : blank w -> tail_text P close [] (w ++ [close])
| T_next a l w w' t r : blank w -> blank w' -> P a t -> tail_text P close l r -> tail_text P close (a :: l) (w ++ 44 :: w' ++ t ++ r).
Inductive list_text {A} (P : A -> bytes -> Prop) (close : Z) : list A -> bytes -> Prop :=
| L_empty w : blank w -> list_text P close [] (w ++ [close])
| L_full a l w t r : blank w -> P a t -> tail_text P close l r -> list_text P close (a :: l) (w ++ t ++ r).

Inductive entry_text (P : json -> bytes -> Prop) : bytes * json -> bytes -> Prop :=
| Entry k ks w w' j t : spelled k ks -> blank w -> blank w' -> P j t -> entry_text P (k, j) (34 :: ks ++ 34 :: w ++ 58 :: w' ++ t).

Inductive denotes : json -> bytes -> Prop :=
| D_null : denotes JNull (lit "null")
| D_int g x d : sign g x -> whole d -> denotes (JInt (x * number_of d)) (g ++ d)
| D_str v s : spelled v s -> denotes (JStr v) (34 :: s ++ [34])
| D_arr l t : list_text denotes 93 l t -> denotes (JArr l) (91 :: t)
| D_obj l t : list_text (entry_text denotes) 125 l t -> denotes (JObj l) (123 :: t).

(** A document: a value with white space around it. *)
Inductive document (j : json) : bytes -> Prop :=
| Document w t w' : blank w -> blank w' -> denotes j t -> document j (w ++ t ++ w').

(* ------------------------------------------------------------------ *)
(** * Numbers *)

Lemma number_value : forall d acc, dec_value acc d = acc * 10 ^ Z.of_nat (length d) + number_of d.
Proof.
  induction d as [|c d IH]; intros acc; [cbn; lia|]. cbn [dec_value number_of]. rewrite IH. change (length (c :: d)) with (S (length d)).
  rewrite Nat2Z.inj_succ, Z.pow_succ_r by lia. ring.
Qed.

Lemma span_digits : forall d r, Forall decimal d -> no_digit r -> span is_digit (d ++ r) = (d, r).
Proof.
  intros d r F N. induction F as [|c d C F IH].
  - destruct r as [|c r]; [reflexivity|]. cbn [app span]. cbn [no_digit] in N. now rewrite N.
  - cbn [app span]. apply digit_iff in C. now rewrite C, IH.
Qed.

Lemma span_only : forall s d r, span is_digit s = (d, r) -> s = d ++ r /\ Forall decimal d.
Proof.
  induction s as [|c s IH]; intros d r H; cbn [span] in H; [injection H as <- <-; split; [reflexivity|constructor]|].
  destruct (is_digit c) eqn:D; [|injection H as <- <-; split; [reflexivity|constructor]].
  destruct (span is_digit s) as [x y]. injection H as <- <-. destruct (IH x y eq_refl) as [-> F]. split; [reflexivity|].
  constructor; [now apply digit_iff|exact F].
Qed.

Lemma whole_digits : forall d, whole d -> Forall decimal d /\ d <> [].
Proof.
  intros d [-> |(c & r & -> & C & F)]; (split; [|discriminate]); constructor; auto; unfold decimal; lia.
Qed.

Lemma stop_ends : forall r, stop r -> ends_number r = true.
Proof.
  intros [|c r] S; [reflexivity|]. cbn [stop In] in S. unfold ends_number. replace ((c =? 46) || (c =? 101) || (c =? 69)) with false by lia. reflexivity.
Qed.

Lemma nat_read : forall d r, whole d -> stop r -> read_nat (d ++ r) = Some (number_of d, r).
Proof.
  intros d r W S. destruct (whole_digits d W) as [F N]. unfold read_nat. rewrite span_digits by (exact F || now apply stop_no_digit).
  assert (V : dec_value 0 d = number_of d) by (rewrite number_value; lia). rewrite V. destruct d as [|c [|e d]]; [now elim N|reflexivity|].
  destruct W as [E|(c' & r' & E & C & _)]; [discriminate|]. injection E as <- _. now replace (c =? 48) with false by lia.
Qed.

Lemma nat_only : forall s n r, read_nat s = Some (n, r) -> exists d, s = d ++ r /\ whole d /\ n = number_of d.
Proof.
  intros s n r H. unfold read_nat in H. destruct (span is_digit s) as [d q] eqn:E. apply span_only in E as [-> F].
  assert (V : dec_value 0 d = number_of d) by (rewrite number_value; lia). rewrite V in H.
  destruct d as [|c [|e d]]; [discriminate| |].
  - injection H as <- <-. exists [c]. split; [reflexivity|]. split; [|reflexivity]. inversion F as [|? ? C]. subst. unfold decimal in C.
    destruct (Z.eq_dec c 48) as [->|]; [now left|]. right. exists c, []. split; [reflexivity|]. split; [lia|constructor].
  - destruct (Z.eqb_spec c 48); [discriminate|]. injection H as <- <-. exists (c :: e :: d). split; [reflexivity|]. split; [|reflexivity]. right.
    inversion F as [|? ? C F']. subst. unfold decimal in C. exists c, (e :: d). split; [reflexivity|]. split; [lia|exact F'].
Qed.

Lemma int_read : forall g x d r, sign g x -> whole d -> stop r -> read_int (g ++ d ++ r) = Some (JInt (x * number_of d), r).
Proof.
  intros g x d r G W S. unfold read_int. destruct G; cbn [app].
  - destruct (whole_head d W) as (c & t & E & C). assert (H : d ++ r = c :: t ++ r) by (rewrite E; reflexivity). rewrite H.
    unfold decimal in C. replace (c =? 45) with false by lia. rewrite <- H, nat_read by auto. rewrite stop_ends by exact S. do 3 f_equal. lia.
  - change (45 =? 45) with true. cbn iota. rewrite nat_read by auto. rewrite stop_ends by exact S. do 3 f_equal; lia.
Qed.

Lemma int_only : forall s j r, read_int s = Some (j, r) -> exists g x d, s = g ++ d ++ r /\ sign g x /\ whole d /\ j = JInt (x * number_of d).
Proof.
  intros s j r H. unfold read_int in H.
  assert (K : forall (neg : bool) t, match read_nat t with Some (n, r) => if ends_number r then Some (JInt (if neg then - n else n), r) else None | None => None end = Some (j, r) ->
    exists d, t = d ++ r /\ whole d /\ j = JInt ((if neg then -1 else 1) * number_of d)).
  { intros neg t E. destruct (read_nat t) as [[n q]|] eqn:N; [|discriminate]. destruct (ends_number q); [|discriminate]. injection E as <- <-.
    apply nat_only in N as (d & -> & W & ->). exists d. split; [reflexivity|]. split; [exact W|]. f_equal. destruct neg; lia. }
  destruct s as [|c s]; [|destruct (Z.eqb_spec c 45) as [->|]].
  - apply (K false) in H as (d & E & W & ->). exists [], 1, d. split; [exact E|]. split; [constructor|auto].
  - apply (K true) in H as (d & -> & W & ->). exists [45], (-1), d. split; [reflexivity|]. split; [constructor|auto].
  - apply (K false) in H as (d & E & W & ->). exists [], 1, d. split; [exact E|]. split; [constructor|auto].
Qed.

(* ------------------------------------------------------------------ *)
(** * Every document is read *)

Lemma denotes_head : forall j t, denotes j t -> exists c r, t = c :: r /\ is_ws c = false /\ c <> 93 /\ c <> 125.
Proof.
  intros j t [|g x d G W|v s S|l u L|l u L]; try (eexists; eexists; split; [reflexivity|]; split; [reflexivity|]; split; discriminate).
  destruct (whole_head d W) as (c & r & -> & C). unfold decimal in C. destruct G; cbn [app].
  - exists c, r. split; [reflexivity|]. unfold is_ws. lia.
  - eexists. eexists. split; [reflexivity|]. split; [reflexivity|]. split; discriminate.
Qed.

Lemma tail_stop : forall {A} (P : A -> bytes -> Prop) close l t r, In close [93; 125] -> tail_text P close l t -> stop (t ++ r).
Proof.
  intros A P close l t r C [w W|a l' w w' u v W]; rewrite <- app_assoc; apply blank_stop; auto; cbn [app stop]; cbn [In] in *; tauto.
Qed.

Section Lists.
  Context {A : Type} (P : A -> bytes -> Prop) (item : bytes -> option (A * bytes)) (close : Z) (n : nat).
  Context (closes : In close [93; 125]).
  Context (reads : forall a t w rest, P a t -> (length t <= n)%nat -> blank w -> stop rest -> item (w ++ t ++ rest) = Some (a, rest)).
  Context (head : forall a t, P a t -> exists c r, t = c :: r /\ is_ws c = false /\ c <> close).

  Lemma close_plain : is_ws close = false /\ close <> 44.
  Proof using closes. clear - closes. cbn [In] in closes. unfold is_ws. lia. Qed.

  Lemma separator_end : forall w r, blank w -> separator close (w ++ close :: r) = Some (false, r).
  Proof using closes.
    clear - closes. intros w r W. destruct close_plain as [C N]. unfold separator. rewrite skip_blank, skip_head by (exact W || exact C).
    replace (close =? 44) with false by lia. now rewrite Z.eqb_refl.
  Qed.
  Lemma separator_comma : forall w r, blank w -> separator close (w ++ 44 :: r) = Some (true, r).
  Proof using. intros w r W. unfold separator. now rewrite skip_blank, skip_head by (exact W || reflexivity). Qed.

  Lemma items_read : forall l t, tail_text P close l t -> forall fuel a u w rest, P a u -> (length u <= n)%nat -> blank w -> (length t <= n)%nat -> (length t <= fuel)%nat ->
    items item close fuel (w ++ u ++ t ++ rest) = Some (a :: l, rest).
  Proof using closes reads head.
    induction 1 as [w1 W1|b l w1 w2 t r W1 W2 Pb T IH]; intros fuel a u w rest Pa Lu W Lt Lf.
    - destruct fuel as [|fuel]; [rewrite app_length in Lf; cbn in Lf; lia|]. cbn [items].
      rewrite (reads a u w); auto; [|rewrite <- app_assoc; apply blank_stop; [exact W1|cbn [app stop]; cbn [In] in *; tauto]].
      rewrite <- app_assoc. cbn [app]. now rewrite separator_end.
    - destruct fuel as [|fuel]; [rewrite app_length in Lf; cbn in Lf; lia|]. cbn [items].
      rewrite (reads a u w); auto; [|rewrite <- app_assoc; apply blank_stop; [exact W1|cbn; tauto]].
      rewrite <- app_assoc. cbn [app]. rewrite separator_comma by exact W1. rewrite app_length in Lt, Lf. cbn [length] in Lt, Lf. rewrite !app_length in Lt, Lf.
      rewrite <- !app_assoc. rewrite (IH fuel b t w2 rest); auto; lia.
  Qed.

  Lemma list_read : forall l t fuel rest, list_text P close l t -> (length t <= n)%nat -> (length t <= fuel)%nat ->
    list_of item close fuel (t ++ rest) = Some (l, rest).
  Proof using closes reads head.
    intros l t fuel rest [w W|a l' w u r W Pa T] Ln Lf; unfold list_of.
    - rewrite <- app_assoc. cbn [app]. destruct close_plain as [C N]. rewrite skip_blank, skip_head by (exact W || exact C). now rewrite Z.eqb_refl.
    - rewrite <- !app_assoc. rewrite !app_length in Ln, Lf. destruct (head a u Pa) as (c & x & E & C & N).
      rewrite skip_blank by exact W. assert (K : skip_ws (u ++ r ++ rest) = c :: x ++ r ++ rest) by (rewrite E; cbn [app]; now apply skip_head). rewrite K.
      replace (c =? close) with false by lia. apply items_read; auto; lia.
  Qed.

  (** ** Only lists are read *)
  Context (only : forall s a r, item s = Some (a, r) -> exists w t, s = w ++ t ++ r /\ blank w /\ P a t).

  Lemma separator_only : forall s b r, separator close s = Some (b, r) -> exists w, blank w /\ s = w ++ (if b then 44 else close) :: r.
  Proof using.
    intros s b r H. unfold separator in H. destruct (skip_split s) as (w & W & E). destruct (skip_ws s) as [|c q]; [discriminate|].
    destruct (Z.eqb_spec c 44) as [->|]; [injection H as <- <-; eauto|]. destruct (Z.eqb_spec c close) as [->|]; [|discriminate]. injection H as <- <-. eauto.
  Qed.

  Lemma items_only : forall fuel s l r, items item close fuel s = Some (l, r) -> exists a l' w t u, l = a :: l' /\ s = w ++ t ++ u ++ r /\ blank w /\ P a t /\ tail_text P close l' u.
  Proof using only.
    induction fuel as [|fuel IH]; intros s l r H; [discriminate|]. cbn [items] in H. destruct (item s) as [[a q]|] eqn:I1; [|discriminate].
    apply only in I1 as (w & t & -> & W & Pa). destruct (separator close q) as [[[|] q']|] eqn:Sq; [| |discriminate].
    - apply separator_only in Sq as (w1 & W1 & ->). destruct (items item close fuel q') as [[l' r']|] eqn:I2; [|discriminate]. injection H as <- <-.
      destruct (IH q' l' r' I2) as (b & l2 & w2 & t2 & u2 & -> & -> & W2 & Pb & T).
      exists a, (b :: l2), w, t, (w1 ++ 44 :: w2 ++ t2 ++ u2). split; [reflexivity|].
      split; [rewrite <- app_assoc; cbn [app]; rewrite <- !app_assoc; reflexivity|]. split; [exact W|]. split; [exact Pa|]. now constructor.
    - apply separator_only in Sq as (w1 & W1 & ->). injection H as <- <-. exists a, [], w, t, (w1 ++ [close]). split; [reflexivity|].
      split; [rewrite <- app_assoc; reflexivity|]. split; [exact W|]. split; [exact Pa|]. now constructor.
  Qed.

  Lemma list_only : forall fuel s l r, list_of item close fuel s = Some (l, r) -> exists t, s = t ++ r /\ list_text P close l t.
  Proof using only.
    intros fuel s l r H. unfold list_of in H. destruct (skip_split s) as (w & W & E). destruct (skip_ws s) as [|c q]; [discriminate|].
    destruct (Z.eqb_spec c close) as [->|].
    - injection H as <- <-. exists (w ++ [close]). split; [rewrite <- app_assoc; exact E|now constructor].
    - apply items_only in H as (a & l' & w1 & t & u & -> & -> & W1 & Pa & T). exists (w1 ++ t ++ u). split; [now rewrite <- !app_assoc|now constructor].
  Qed.
End Lists.

Lemma text_read : forall w v s r, blank w -> spelled v s -> read_text (w ++ 34 :: s ++ 34 :: r) = Some (v, r).
Proof.
  intros w v s r W S. unfold read_text. rewrite skip_blank, skip_head by (exact W || reflexivity). change (34 =? 34) with true. cbn iota.
  now rewrite (spelled_read v s S).
Qed.

Lemma text_only : forall s v r, read_text s = Some (v, r) -> exists w t, s = w ++ 34 :: t ++ 34 :: r /\ blank w /\ spelled v t.
Proof.
  intros s v r H. unfold read_text in H. destruct (skip_split s) as (w & W & E). destruct (skip_ws s) as [|c q]; [discriminate|].
  destruct (Z.eqb_spec c 34) as [->|]; [|discriminate]. destruct (parse_str q) as [[x y]| | |] eqn:P; try discriminate. injection H as <- <-.
  apply string_read_only in P as (t & -> & S). exists w, t. auto.
Qed.

Lemma value_read : forall n j t w rest, denotes j t -> (length t <= n)%nat -> blank w -> stop rest -> json_read n (w ++ t ++ rest) = Some (j, rest).
Proof.
  induction n as [|n IH]; intros j t w rest D L W S; [destruct (denotes_head j t D) as (c & r & -> & _); cbn in L; lia|].
  cbn [json_read]. rewrite skip_blank by exact W. destruct D as [|g x d G Wh|v s Sp|l u Li|l u Li].
  - change (lit "null") with (110 :: lit "ull"). cbn [app]. rewrite skip_head by reflexivity. change (110 =? 34) with false. change (110 =? 91) with false.
    change (110 =? 123) with false. change (110 =? 110) with true. cbn iota. change (117 :: 108 :: 108 :: rest) with (lit "ull" ++ rest).
    pose proof (expect_some (lit "ull") rest) as X. unfold expect in X. destruct (strip_prefix (lit "ull") (lit "ull" ++ rest)); [|discriminate]. now injection X as ->.
  - pose proof (denotes_head _ _ (D_int g x d G Wh)) as (c & r & E & C & _). rewrite <- app_assoc.
    assert (K : exists r', g ++ d ++ rest = c :: r') by (exists (r ++ rest); rewrite app_assoc, E; reflexivity). destruct K as (r' & K).
    pose proof (int_read g x d rest G Wh S) as R. rewrite K in R |- *. rewrite skip_head by exact C.
    assert (Q : decimal c \/ c = 45). { destruct G; cbn [app] in E; [|injection E as <- _; now right]. destruct (whole_head d Wh) as (c' & q & -> & Dc). injection E as <- _. now left. }
    unfold decimal in Q. replace (c =? 34) with false by lia. replace (c =? 91) with false by lia. replace (c =? 123) with false by lia. replace (c =? 110) with false by lia. exact R.
  - cbn [app]. rewrite skip_head by reflexivity. change (34 =? 34) with true. cbn iota. rewrite <- app_assoc. cbn [app]. now rewrite (spelled_read v s Sp).
  - cbn [app]. rewrite skip_head by reflexivity. change (91 =? 34) with false. change (91 =? 91) with true. cbn iota. cbn [length] in L.
    rewrite (list_read denotes (json_read n) 93 n) with (l := l); auto; try lia; try (cbn; tauto).
    intros a t Da. destruct (denotes_head a t Da) as (c & r & -> & C & N & _). eauto.
  - cbn [app]. rewrite skip_head by reflexivity. change (123 =? 34) with false. change (123 =? 91) with false. change (123 =? 123) with true. cbn iota. cbn [length] in L.
    rewrite (list_read (entry_text denotes) (SinkSpec.member (json_read n)) 125 n) with (l := l); auto; try lia; try (cbn; tauto).
    + intros a t w' r' E La W' S'. destruct E as [k ks w1 w2 j t Sk W1 W2 Dj]. unfold SinkSpec.member. cbn [app]. rewrite <- app_assoc. cbn [app]. rewrite (text_read w' k ks) by auto.
      rewrite <- app_assoc. rewrite skip_blank by exact W1. cbn [app]. rewrite skip_head by reflexivity. change (58 =? 58) with true. cbn iota. rewrite <- app_assoc.
      rewrite (IH j t w2 r'); auto. cbn [length] in La. rewrite app_length in La. cbn [length] in La. rewrite app_length in La. cbn [length] in La. rewrite app_length in La. lia.
    + intros a t []. eexists. eexists. split; [reflexivity|]. split; [reflexivity|discriminate].
Qed.

Lemma value_read_only : forall n s j r, json_read n s = Some (j, r) -> exists w t, s = w ++ t ++ r /\ blank w /\ denotes j t.
Proof.
  induction n as [|n IH]; intros s j r H; [discriminate|]. cbn [json_read] in H. destruct (skip_split s) as (w & W & E). destruct (skip_ws s) as [|c q]; [discriminate|].
  destruct (Z.eqb_spec c 34) as [->|].
  { destruct (parse_str q) as [[v x]| | |] eqn:P; try discriminate. injection H as <- <-. apply string_read_only in P as (t & -> & S).
    exists w, (34 :: t ++ [34]). split; [rewrite E; cbn [app]; now rewrite <- app_assoc|]. split; [exact W|now constructor]. }
  destruct (Z.eqb_spec c 91) as [->|].
  { destruct (list_of (json_read n) 93 n q) as [[l x]|] eqn:P; [|discriminate]. injection H as <- <-.
    apply (list_only denotes) in P as (t & -> & L); [|exact (fun s a r => IH s a r)]. exists w, (91 :: t). split; [exact E|]. split; [exact W|now constructor]. }
  destruct (Z.eqb_spec c 123) as [->|].
  { destruct (list_of (SinkSpec.member (json_read n)) 125 n q) as [[l x]|] eqn:P; [|discriminate]. injection H as <- <-.
    apply (list_only (entry_text denotes)) in P as (t & -> & L); [exists w, (123 :: t); split; [exact E|]; split; [exact W|now constructor]|].
    intros s' [k v] r' M. unfold SinkSpec.member in M. destruct (read_text s') as [[k' y]|] eqn:Rt; [|discriminate]. apply text_only in Rt as (w1 & ks & -> & W1 & Sk).
    destruct (skip_split y) as (w2 & W2 & E2). destruct (skip_ws y) as [|d y']; [discriminate|]. destruct (Z.eqb_spec d 58) as [->|]; [|discriminate].
    destruct (json_read n y') as [[v' z]|] eqn:Rv; [|discriminate]. injection M as <- <- <-. apply IH in Rv as (w3 & t & -> & W3 & D).
    exists w1, (34 :: ks ++ 34 :: w2 ++ 58 :: w3 ++ t). split; [rewrite E2; cbn [app]; rewrite <- app_assoc; cbn [app]; rewrite <- !app_assoc; cbn [app]; rewrite <- !app_assoc; reflexivity|].
    split; [exact W1|now constructor]. }
  destruct (Z.eqb_spec c 110) as [->|].
  { destruct (strip_prefix (lit "ull") q) as [x|] eqn:P; [|discriminate]. injection H as <- <-. apply strip_prefix_some in P. subst q.
    exists w, (lit "null"). split; [exact E|]. split; [exact W|constructor]. }
  apply int_only in H as (g & x & d & Ed & G & Wh & ->). exists w, (g ++ d). split; [rewrite E, Ed, <- app_assoc; reflexivity|]. split; [exact W|now constructor].
Qed.

Theorem document_iff : forall s j, json_document s = Some j <-> document j s.
Proof.
  intros s j. unfold json_document. split.
  - intros H. destruct (json_read (S (length s)) s) as [[j' r]|] eqn:R; [|discriminate]. apply value_read_only in R as (w & t & -> & W & D).
    destruct (skip_split r) as (w' & W' & E). destruct (skip_ws r); [|discriminate]. injection H as ->. rewrite app_nil_r in E. subst r. now constructor.
  - intros [w t w' W W' D]. rewrite (value_read _ j t w w'); auto; [now rewrite skip_all| |].
    + rewrite !app_length. lia.
    + rewrite <- (app_nil_r w'). apply blank_stop; [exact W'|exact Logic.I].
Qed.

(** A text is a document of at most one value. *)
Theorem denotes_one : forall s j k, document j s -> document k s -> j = k.
Proof. intros s j k J K. apply document_iff in J, K. congruence. Qed.
