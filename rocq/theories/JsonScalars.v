From Verif Require Import Base Utf8 ParserModel DecoderModel Numerals DisplayModel SymbolModel SymbolProofs JsonSpec.

(** * White space *)

Lemma ws_iff : forall c, is_ws c = true <-> In c [32; 10; 9; 13].
Proof.
  intros c. unfold is_ws. rewrite !orb_true_iff, !Z.eqb_eq. cbn. intuition.
Qed.

Lemma ws_not : forall c, ~ In c [32; 10; 9; 13] -> is_ws c = false.
Proof. intros c H. destruct (is_ws c) eqn:E; [|reflexivity]. apply ws_iff in E. contradiction. Qed.

Lemma skip_blank : forall w r, blank w -> skip_ws (w ++ r) = skip_ws r.
Proof.
  intros w r H. induction H as [|c w C H IH]; [reflexivity|]. cbn [app skip_ws]. apply ws_iff in C. now rewrite C.
Qed.

Lemma skip_head : forall c r, is_ws c = false -> skip_ws (c :: r) = c :: r.
Proof. intros c r H. cbn [skip_ws]. now rewrite H. Qed.

Lemma skip_all : forall w, blank w -> skip_ws w = [].
Proof. intros w H. rewrite <- (app_nil_r w), skip_blank by exact H. reflexivity. Qed.

Lemma skip_split : forall s, exists w, blank w /\ s = w ++ skip_ws s.
Proof.
  induction s as [|c s (w & B & E)]; [exists []; split; [constructor|reflexivity]|]. cbn [skip_ws]. destruct (is_ws c) eqn:W.
  - exists (c :: w). split; [constructor; [now apply ws_iff|exact B]|]. cbn [app]. now rewrite <- E.
  - exists []. split; [constructor|reflexivity].
Qed.

Lemma skip_idle : forall s c r, skip_ws s = c :: r -> is_ws c = false.
Proof.
  induction s as [|a s IH]; intros c r H; [discriminate|]. cbn [skip_ws] in H. destruct (is_ws a) eqn:W; [eapply IH, H|]. injection H as -> ->. exact W.
Qed.

Lemma blank_app : forall a b, blank a -> blank b -> blank (a ++ b).
Proof. intros a b A B. apply Forall_app. now split. Qed.

Lemma expect_some : forall p r, expect p (p ++ r) = Ok r.
Proof.
  intros p r. unfold expect. replace (strip_prefix p (p ++ r)) with (Some r); [reflexivity|].
  induction p as [|c p IH]; [reflexivity|]. cbn [app strip_prefix]. now rewrite Z.eqb_refl.
Qed.

Lemma expect_ok : forall p s r, expect p s = Ok r -> s = p ++ r.
Proof. intros p s r H. unfold expect in H. destruct (strip_prefix p s) eqn:E; [|discriminate]. injection H as ->. now apply strip_prefix_some. Qed.

(* ------------------------------------------------------------------ *)
(** * Strings *)

Lemma hex_val_iff : forall c n, hex_val c = Some n <-> hex_digit c n.
Proof.
  intros c n. unfold hex_val, in_range. split.
  - intros H. destruct ((48 <=? c) && (c <=? 57)) eqn:A; [injection H as <-; constructor; lia|].
    destruct ((97 <=? c) && (c <=? 102)) eqn:B; [injection H as <-; replace (c - 87) with (c - 97 + 10) by lia; constructor; lia|].
    destruct ((65 <=? c) && (c <=? 70)) eqn:C; [|discriminate]. injection H as <-. replace (c - 55) with (c - 65 + 10) by lia. apply Hex_upper. lia.
  - intros [x H|x H|x H].
    + replace ((48 <=? x) && (x <=? 57)) with true by lia. reflexivity.
    + replace ((48 <=? x) && (x <=? 57)) with false by lia. replace ((97 <=? x) && (x <=? 102)) with true by lia. f_equal. lia.
    + replace ((48 <=? x) && (x <=? 57)) with false by lia. replace ((97 <=? x) && (x <=? 102)) with false by lia.
      replace ((65 <=? x) && (x <=? 70)) with true by lia. f_equal. lia.
Qed.

Lemma hex4_iff : forall a b c d n, hex4 a b c d = Some n <-> hex_four [a; b; c; d] n.
Proof.
  intros a b c d n. unfold hex4. split.
  - destruct (hex_val a) as [w|] eqn:A, (hex_val b) as [x|] eqn:B, (hex_val c) as [y|] eqn:C, (hex_val d) as [z|] eqn:D; try discriminate.
    apply hex_val_iff in A, B, C, D. intros H. injection H as <-. replace (((w * 16 + x) * 16 + y) * 16 + z) with (w * 4096 + x * 256 + y * 16 + z) by lia. now constructor.
  - intros H. inversion H as [? ? ? ? w x y z A B C D]. subst. apply hex_val_iff in A, B, C, D. rewrite A, B, C, D. f_equal. lia.
Qed.

Lemma hex_four_list : forall h n, hex_four h n -> exists a b c d, h = [a; b; c; d] /\ hex4 a b c d = Some n.
Proof. intros h n H. pose proof H as H'. destruct H as [a b c d w x y z]. exists a, b, c, d. split; [reflexivity|]. now apply hex4_iff. Qed.

Lemma letter_iff : forall e x, simple_escape e = Some x <-> In (e, x) letters.
Proof.
  intros e x. unfold simple_escape, letters. split.
  - intros H.
    repeat match type of H with (if ?e =? ?k then _ else _) = _ => destruct (Z.eqb_spec e k); [injection H as <-; subst; cbn; tauto|] end. discriminate.
  - cbn [In]. intros H. repeat destruct H as [H|H]; try contradiction; injection H as <- <-; reflexivity.
Qed.

Lemma letter_not_u : forall x, ~ In (117, x) letters.
Proof. intros x H. apply letter_iff in H. discriminate. Qed.

Lemma spelled_read : forall v s, spelled v s -> forall r, parse_str (s ++ 34 :: r) = Ok (v, r).
Proof.
  induction 1 as [|c v s A B C S IH|e x v s L S IH|h n v s H N S IH|h n k m v s H N K M S IH]; intros r.
  - reflexivity.
  - cbn [app parse_str]. replace (c =? 34) with false by lia. replace (c =? 92) with false by lia. replace (c <? 32) with false by lia.
    rewrite IH. reflexivity.
  - cbn [app parse_str]. change (92 =? 34) with false. change (92 =? 92) with true. cbn iota. apply letter_iff in L. rewrite L, IH. reflexivity.
  - destruct (hex_four_list h n H) as (a & b & c & d & -> & H4). cbn [app parse_str]. change (92 =? 34) with false. change (92 =? 92) with true. cbn iota.
    change (simple_escape 117) with (@None Z). cbn iota. change (117 =? 117) with true. cbn iota. rewrite H4. unfold in_range.
    replace ((56320 <=? n) && (n <=? 57343)) with false by lia. replace ((55296 <=? n) && (n <=? 56319)) with false by lia. rewrite IH. reflexivity.
  - destruct (hex_four_list h n H) as (a & b & c & d & -> & H4). destruct (hex_four_list k m K) as (a' & b' & c' & d' & -> & K4).
    cbn [app parse_str]. change (92 =? 34) with false. change (92 =? 92) with true. cbn iota.
    change (simple_escape 117) with (@None Z). cbn iota. change (117 =? 117) with true. cbn iota. rewrite H4. unfold in_range.
    replace ((56320 <=? n) && (n <=? 57343)) with false by lia. replace ((55296 <=? n) && (n <=? 56319)) with true by lia. cbn [andb]. rewrite K4.
    replace ((56320 <=? m) && (m <=? 57343)) with true by lia. rewrite IH. unfold prepend. cbn [bind fst snd].
    do 3 f_equal. f_equal. lia.
Qed.

Lemma prepend_ok : forall x r v t, prepend x r = Ok (v, t) -> exists v', r = Ok (v', t) /\ v = x ++ v'.
Proof. intros x [[v' t']| | |] v t H; try discriminate. cbn in H. injection H as <- <-. eauto. Qed.

Lemma string_read_only : forall s v r, parse_str s = Ok (v, r) -> exists t, s = t ++ 34 :: r /\ spelled v t.
Proof.
  induction s as [s IH] using bytes_length_ind. intros v r H. destruct s as [|c s]; [discriminate|]. cbn [parse_str] in H.
  destruct (Z.eqb_spec c 34) as [->|N34]; [injection H as <- <-; exists []; split; [reflexivity|constructor]|].
  destruct (Z.eqb_spec c 92) as [->|N92].
  - destruct s as [|e s]; [discriminate|]. destruct (simple_escape e) as [x|] eqn:L.
    + apply prepend_ok in H as (v' & H & ->). destruct (IH s ltac:(cbn; lia) _ _ H) as (t & -> & S). apply letter_iff in L.
      exists (92 :: e :: t). split; [reflexivity|]. now apply (Sp_letter e x).
    + destruct (Z.eqb_spec e 117) as [->|]; [|discriminate]. destruct s as [|h1 [|h2 [|h3 [|h4 s]]]]; try discriminate.
      destruct (hex4 h1 h2 h3 h4) as [n|] eqn:H4; [|discriminate]. apply hex4_iff in H4. unfold in_range in H.
      destruct ((56320 <=? n) && (n <=? 57343)) eqn:B1; [discriminate|]. destruct ((55296 <=? n) && (n <=? 56319)) eqn:B2.
      * destruct s as [|x [|y [|k1 [|k2 [|k3 [|k4 s]]]]]]; try discriminate.
        destruct ((x =? 92) && (y =? 117)) eqn:XY; [|discriminate]. destruct (hex4 k1 k2 k3 k4) as [m|] eqn:K4; [|discriminate]. apply hex4_iff in K4.
        destruct ((56320 <=? m) && (m <=? 57343)) eqn:B3; [|discriminate]. apply prepend_ok in H as (v' & H & ->).
        destruct (IH s ltac:(cbn; lia) _ _ H) as (t & -> & S). assert (x = 92 /\ y = 117) as [-> ->] by lia.
        exists (92 :: 117 :: [h1; h2; h3; h4] ++ 92 :: 117 :: [k1; k2; k3; k4] ++ t). split; [reflexivity|].
        replace ((n - 55296) * 1024 + (m - 56320) + 65536) with (65536 + (n - 55296) * 1024 + (m - 56320)) by lia. apply Sp_pair; auto; lia.
      * apply prepend_ok in H as (v' & H & ->). destruct (IH s ltac:(cbn; lia) _ _ H) as (t & -> & S).
        exists (92 :: 117 :: [h1; h2; h3; h4] ++ t). split; [reflexivity|]. apply Sp_unit; auto; lia.
  - destruct (Z.ltb_spec c 32); [discriminate|]. apply prepend_ok in H as (v' & H & ->). destruct (IH s ltac:(cbn; lia) _ _ H) as (t & -> & S).
    exists (c :: t). split; [reflexivity|]. now constructor.
Qed.

Lemma ignored_read : forall s, string_text s -> forall r, ignore_str (s ++ 34 :: r) = Ok r.
Proof.
  induction 1 as [|c s A B C S IH|e x s L S IH|h n s H S IH]; intros r.
  - reflexivity.
  - cbn [app ignore_str]. replace (c =? 34) with false by lia. replace (c =? 92) with false by lia. replace (c <? 32) with false by lia. apply IH.
  - cbn [app ignore_str]. change (92 =? 34) with false. change (92 =? 92) with true. cbn iota. apply letter_iff in L. rewrite L. apply IH.
  - destruct (hex_four_list h n H) as (a & b & c & d & -> & H4). cbn [app ignore_str]. change (92 =? 34) with false. change (92 =? 92) with true. cbn iota.
    change (simple_escape 117) with (@None Z). cbn iota. change (117 =? 117) with true. cbn iota. rewrite H4. apply IH.
Qed.

Lemma ignored_only : forall s r, ignore_str s = Ok r -> exists t, s = t ++ 34 :: r /\ string_text t.
Proof.
  induction s as [s IH] using bytes_length_ind. intros r H. destruct s as [|c s]; [discriminate|]. cbn [ignore_str] in H.
  destruct (Z.eqb_spec c 34) as [->|N34]; [injection H as <-; exists []; split; [reflexivity|constructor]|].
  destruct (Z.eqb_spec c 92) as [->|N92].
  - destruct s as [|e s]; [discriminate|]. destruct (simple_escape e) as [x|] eqn:L.
    + destruct (IH s ltac:(cbn; lia) _ H) as (t & -> & S). apply letter_iff in L. exists (92 :: e :: t). split; [reflexivity|]. now apply (St_letter e x).
    + destruct (Z.eqb_spec e 117) as [->|]; [|discriminate]. destruct s as [|h1 [|h2 [|h3 [|h4 s]]]]; try discriminate.
      destruct (hex4 h1 h2 h3 h4) as [n|] eqn:H4; [|discriminate]. apply hex4_iff in H4. destruct (IH s ltac:(cbn; lia) _ H) as (t & -> & S).
      exists (92 :: 117 :: [h1; h2; h3; h4] ++ t). split; [reflexivity|]. now apply (St_unit _ n).
  - destruct (Z.ltb_spec c 32); [discriminate|]. destruct (IH s ltac:(cbn; lia) _ H) as (t & -> & S). exists (c :: t). split; [reflexivity|]. now constructor.
Qed.

(* ------------------------------------------------------------------ *)
(** * Numbers *)

Lemma digit_iff : forall c, is_digit c = true <-> decimal c.
Proof. intros c. unfold is_digit, in_range, decimal. lia. Qed.

(** What may follow a value. *)
Definition stop (r : bytes) : Prop := match r with [] => True | c :: _ => In c [32; 10; 9; 13; 44; 93; 125] end.

(** What does not go on with digits, ... *)
Definition no_digit (r : bytes) : Prop := match r with [] => True | c :: _ => is_digit c = false end.

Lemma stop_cases : forall r, stop r -> r = [] \/ exists c t, r = c :: t /\ is_digit c = false /\ c <> 46 /\ c <> 101 /\ c <> 69.
Proof.
  intros [|c r] H; [now left|]. right. exists c, r. split; [reflexivity|]. cbn [stop In] in H. unfold is_digit, in_range. lia.
Qed.

Lemma stop_no_digit : forall r, stop r -> no_digit r.
Proof. intros r H. destruct (stop_cases r H) as [-> |(c & t & -> & D & _)]; [exact Logic.I|exact D]. Qed.

Lemma skip_digits_all : forall d r, Forall decimal d -> no_digit r -> skip_digits (d ++ r) = r.
Proof.
  intros d r F N. induction F as [|c d C F IH].
  - destruct r as [|c r]; [reflexivity|]. cbn [app skip_digits]. cbn [no_digit] in N. now rewrite N.
  - cbn [app skip_digits]. apply digit_iff in C. now rewrite C.
Qed.

Lemma skip_digits_split : forall s, exists d, s = d ++ skip_digits s /\ Forall decimal d.
Proof.
  induction s as [|c s (d & E & F)]; [exists []; split; [reflexivity|constructor]|]. cbn [skip_digits]. destruct (is_digit c) eqn:D.
  - exists (c :: d). split; [cbn [app]; now rewrite <- E|constructor; [now apply digit_iff|exact F]].
  - exists []. split; [reflexivity|constructor].
Qed.

Lemma some_digits_all : forall d r, digits d -> no_digit r -> some_digits (d ++ r) = Ok r.
Proof.
  intros [|c d] r [N F] S; [now elim N|]. inversion F as [|? ? C F']. subst. cbn [app some_digits]. apply digit_iff in C. rewrite C.
  now rewrite skip_digits_all.
Qed.

Lemma some_digits_split : forall s r, some_digits s = Ok r -> exists d, s = d ++ r /\ digits d.
Proof.
  intros [|c s] r H; [discriminate|]. cbn [some_digits] in H. destruct (is_digit c) eqn:D; [|discriminate]. injection H as <-.
  destruct (skip_digits_split s) as (d & E & F). exists (c :: d). split; [cbn [app]; now rewrite <- E|]. split; [discriminate|].
  constructor; [now apply digit_iff|exact F].
Qed.

Lemma decimal_not : forall c, decimal c -> c <> 43 /\ c <> 45 /\ c <> 46 /\ c <> 101 /\ c <> 69.
Proof. unfold decimal. lia. Qed.

Lemma exponent_read : forall x r, exponent x -> stop r ->
  match x ++ r with c :: t => if (c =? 101) || (c =? 69) then ignore_exponent t else Ok (x ++ r) | [] => Ok (x ++ r) end = Ok r.
Proof.
  intros x r [-> |(e & g & d & -> & E & G & D)] S.
  - cbn [app]. destruct (stop_cases r S) as [-> |(c & t & -> & _ & _ & A & B)]; [reflexivity|].
    replace ((c =? 101) || (c =? 69)) with false by lia. reflexivity.
  - cbn [app]. replace ((e =? 101) || (e =? 69)) with true by (cbn [In] in E; lia). rewrite <- app_assoc.
    apply stop_no_digit in S. cbn [In] in G. destruct G as [<- |[<- |[<- |[]]]]; cbn [app].
    + destruct d as [|c d]; [now elim (proj1 D)|]. cbn [app ignore_exponent]. destruct D as [_ F]. inversion F as [|? ? C F']. subst.
      pose proof (decimal_not c C). replace ((c =? 43) || (c =? 45)) with false by lia. apply (some_digits_all (c :: d) r); [split; [discriminate|exact F]|exact S].
    + cbn [ignore_exponent]. change ((43 =? 43) || (43 =? 45)) with true. cbn iota. now apply some_digits_all.
    + cbn [ignore_exponent]. change ((45 =? 43) || (45 =? 45)) with true. cbn iota. now apply some_digits_all.
Qed.

Lemma exponent_starts : forall x r, exponent x -> stop r -> no_digit (x ++ r) /\ match x ++ r with [] => True | c :: _ => c <> 46 end.
Proof.
  intros x r [-> |(e & g & d & -> & E & G & D)] S.
  - cbn [app]. destruct (stop_cases r S) as [-> |(c & t & -> & A & B & _)]; [split; exact Logic.I|]. split; [exact A|exact B].
  - cbn [app no_digit]. cbn [In] in E. unfold is_digit, in_range. lia.
Qed.

Lemma fraction_read : forall f x r, fraction f -> exponent x -> stop r -> ignore_fraction (f ++ x ++ r) = Ok r.
Proof.
  intros f x r F X S. unfold ignore_fraction. destruct (exponent_starts x r X S) as [N D].
  assert (E : match f ++ x ++ r with c :: t => if c =? 46 then some_digits t else Ok (f ++ x ++ r) | [] => Ok (f ++ x ++ r) end = Ok (x ++ r)).
  { destruct F as [-> |(d & -> & F)].
    - cbn [app]. destruct (x ++ r) as [|c t]; [reflexivity|]. now replace (c =? 46) with false by lia.
    - cbn [app]. change (46 =? 46) with true. cbn iota. now apply some_digits_all. }
  match goal with |- bind ?a _ = _ => replace a with (@Ok unit bytes (x ++ r)) by (symmetry; exact E) end. cbn [bind]. now apply exponent_read.
Qed.

Lemma fraction_starts : forall f x r, fraction f -> exponent x -> stop r -> no_digit (f ++ x ++ r).
Proof. intros f x r [-> |(d & -> & F)] X S; [exact (proj1 (exponent_starts x r X S))|reflexivity]. Qed.

Lemma whole_read : forall w f x r, whole w -> fraction f -> exponent x -> stop r -> ignore_number (w ++ f ++ x ++ r) = Ok r.
Proof.
  intros w f x r W F X S. pose proof (fraction_starts f x r F X S) as N. destruct W as [-> |(c & d & -> & C & D)].
  - cbn [app ignore_number]. change (48 =? 48) with true. cbn iota. destruct (f ++ x ++ r) as [|e t] eqn:E.
    + rewrite <- E. now apply fraction_read.
    + cbn [no_digit] in N. rewrite N, <- E. now apply fraction_read.
  - cbn [app ignore_number]. replace (c =? 48) with false by lia. assert (Dc : is_digit c = true) by (apply digit_iff; unfold decimal; lia). rewrite Dc.
    rewrite skip_digits_all by auto. now apply fraction_read.
Qed.

Lemma exponent_only : forall s r, match s with c :: t => if (c =? 101) || (c =? 69) then ignore_exponent t else Ok s | [] => Ok s end = Ok r ->
  exists x, s = x ++ r /\ exponent x.
Proof.
  intros [|c s] r H; [injection H as <-; exists []; split; [reflexivity|now left]|].
  destruct ((c =? 101) || (c =? 69)) eqn:E; [|injection H as <-; exists []; split; [reflexivity|now left]].
  unfold ignore_exponent in H. destruct s as [|g s]; [discriminate|]. destruct ((g =? 43) || (g =? 45)) eqn:G.
  - destruct (some_digits_split _ _ H) as (d & -> & D). exists (c :: [g] ++ d). split; [reflexivity|]. right. exists c, [g], d.
    split; [reflexivity|]. split; [cbn; lia|]. split; [|exact D]. cbn. assert (g = 43 \/ g = 45) as [-> | ->] by lia; auto.
  - destruct (some_digits_split _ _ H) as (d & E' & D). exists (c :: [] ++ d). split; [cbn [app]; now rewrite E'|]. right. exists c, [], d.
    split; [reflexivity|]. split; [cbn; lia|]. split; [cbn; auto|exact D].
Qed.

Lemma fraction_only : forall s r, ignore_fraction s = Ok r -> exists f x, s = f ++ x ++ r /\ fraction f /\ exponent x.
Proof.
  intros s r H. unfold ignore_fraction in H.
  destruct (match s with c :: t => if c =? 46 then some_digits t else Ok s | [] => Ok s end) as [u| | |] eqn:E; try discriminate. cbn [bind] in H.
  apply exponent_only in H as (x & -> & X). assert (F : exists f, s = f ++ x ++ r /\ fraction f).
  { destruct s as [|c s].
    - injection E as E. exists []. split; [now rewrite <- E|now left].
    - destruct (Z.eqb_spec c 46) as [->|].
      + destruct (some_digits_split _ _ E) as (d & -> & D). exists (46 :: d). split; [reflexivity|]. right. eauto.
      + injection E as E. exists []. split; [now rewrite <- E|now left]. }
  destruct F as (f & -> & F). exists f, x. auto.
Qed.

Lemma whole_only : forall s r, ignore_number s = Ok r -> exists w f x, s = w ++ f ++ x ++ r /\ whole w /\ fraction f /\ exponent x.
Proof.
  intros [|c s] r H; [discriminate|]. cbn [ignore_number] in H. destruct (Z.eqb_spec c 48) as [->|N].
  - assert (E : ignore_fraction s = Ok r) by (destruct s as [|d s]; [exact H|]; destruct (is_digit d); [discriminate|exact H]).
    apply fraction_only in E as (f & x & -> & F & X). exists [48], f, x. split; [reflexivity|]. split; [now left|auto].
  - destruct (is_digit c) eqn:D; [|discriminate]. destruct (skip_digits_split s) as (d & E & F). rewrite E.
    apply fraction_only in H as (f & x & -> & Ff & X). exists (c :: d), f, x. split; [cbn [app]; reflexivity|]. split; [|auto]. right. exists c, d.
    apply digit_iff in D. unfold decimal in D. split; [reflexivity|]. split; [lia|exact F].
Qed.

(* ------------------------------------------------------------------ *)
(** * Scalars *)

Lemma whole_head : forall w, whole w -> exists c r, w = c :: r /\ decimal c.
Proof. intros w [-> |(c & r & -> & C & _)]; [exists 48, []|exists c, r]; (split; [reflexivity|unfold decimal; lia]). Qed.

Lemma scalar_read : forall v r, scalar v -> stop r -> ignore_scalar (v ++ r) = Ok r.
Proof.
  intros v r [| | |s (m & w & f & x & -> & M & W & F & X)|s S] T.
  - apply (expect_some (lit "ull") r).
  - apply (expect_some (lit "rue") r).
  - apply (expect_some (lit "alse") r).
  - rewrite <- !app_assoc. cbn [In] in M. destruct M as [<- |[<- |[]]]; cbn [app].
    + destruct (whole_head w W) as (c & t & -> & C). cbn [app ignore_scalar]. unfold decimal in C.
      replace (c =? 110) with false by lia. replace (c =? 116) with false by lia. replace (c =? 102) with false by lia. replace (c =? 45) with false by lia.
      assert (Dc : is_digit c = true) by now apply digit_iff. rewrite Dc. now apply (whole_read (c :: t)).
    + cbn [ignore_scalar]. change (45 =? 110) with false. change (45 =? 116) with false. change (45 =? 102) with false. change (45 =? 45) with true. cbn iota.
      now apply whole_read.
  - cbn [app ignore_scalar]. change (34 =? 110) with false. change (34 =? 116) with false. change (34 =? 102) with false. change (34 =? 45) with false.
    change (is_digit 34) with false. change (34 =? 34) with true. cbn iota. rewrite <- app_assoc. now apply ignored_read.
Qed.

Lemma scalar_only : forall s r, ignore_scalar s = Ok r -> exists v, s = v ++ r /\ scalar v.
Proof.
  intros [|c s] r H; [discriminate|]. cbn [ignore_scalar] in H.
  destruct (Z.eqb_spec c 110) as [->|]; [apply expect_ok in H; subst s; exists (lit "null"); split; [reflexivity|constructor]|].
  destruct (Z.eqb_spec c 116) as [->|]; [apply expect_ok in H; subst s; exists (lit "true"); split; [reflexivity|constructor]|].
  destruct (Z.eqb_spec c 102) as [->|]; [apply expect_ok in H; subst s; exists (lit "false"); split; [reflexivity|constructor]|].
  destruct (Z.eqb_spec c 45) as [->|].
  { apply whole_only in H as (w & f & x & -> & W & F & X). exists ([45] ++ w ++ f ++ x). split; [rewrite <- !app_assoc; reflexivity|].
    constructor. exists [45], w, f, x. cbn. auto 10. }
  destruct (is_digit c) eqn:D.
  { apply whole_only in H as (w & f & x & E & W & F & X). exists ([] ++ w ++ f ++ x). split; [cbn [app]; rewrite <- !app_assoc; exact E|].
    constructor. exists [], w, f, x. cbn. auto 10. }
  destruct (Z.eqb_spec c 34) as [->|]; [|discriminate]. apply ignored_only in H as (t & -> & S). exists (34 :: t ++ [34]).
  split; [cbn [app]; rewrite <- app_assoc; reflexivity|now constructor].
Qed.

(** How a scalar begins. *)
Lemma scalar_head : forall v, scalar v -> exists c r, v = c :: r /\ (decimal c \/ In c [110; 116; 102; 45; 34]).
Proof.
  intros v [| | |s (m & w & f & x & -> & M & W & F & X)|s S]; try (eexists; eexists; split; [reflexivity|]; right; cbn; tauto).
  cbn [In] in M. destruct M as [<- |[<- |[]]]; cbn [app].
  - destruct (whole_head w W) as (c & t & -> & C). exists c, (t ++ f ++ x). split; [reflexivity|now left].
  - eexists. eexists. split; [reflexivity|]. right. cbn. tauto.
Qed.
