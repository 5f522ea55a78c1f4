From Coq Require Import FinFun.
From Verif Require Import Base ParserModel ParserProofs Numerals FormatSpec.

(** Evaluate only closed goals (printing a symbolic number would not stop). *)
Ltac vmr := lazymatch goal with |- context [dec_str] => fail | |- context [show_pad] => fail | |- context [HBitflags] => fail | |- parse_hint _ = None => fail | |- _ => vm_compute; reflexivity end.

(* ------------------------------------------------------------------ *)
(** * Braces *)

Lemma digit_no_brace : forall s, Forall (fun c => is_digit c = true) s -> no_braces s.
Proof.
  intros s H. rewrite Forall_forall in H. split; intro X; apply H in X; unfold is_digit in X; lia.
Qed.

Lemma no_braces_app : forall a b, no_braces (a ++ b) <-> no_braces a /\ no_braces b.
Proof. intros a b. unfold no_braces. rewrite !in_app_iff. tauto. Qed.

Lemma dec_no_braces : forall n, 0 <= n -> no_braces (dec_str n).
Proof. intros n H. apply digit_no_brace, dec_str_digits, H. Qed.

Ltac nb := unfold no_braces, In; cbn; split; intro; repeat (match goal with H : _ \/ _ |- _ => destruct H end); try lia; auto.

Definition nb_b (s : bytes) : bool := forallb (fun c => negb ((c =? 123) || (c =? 125))) s.
Lemma nb_b_ok : forall s, nb_b s = true -> no_braces s.
Proof.
  intros s H. unfold nb_b in H. rewrite forallb_forall in H.
  split; intro X; apply H in X; cbn in X; discriminate.
Qed.

Lemma show_ty_no_braces : forall t, show_ty_ok t -> no_braces (show_ty t).
Proof.
  intros t H. destruct t; cbn [show_ty show_ty_ok] in *;
    repeat (apply no_braces_app; split); try (apply dec_no_braces; lia);
    try (destruct w); apply nb_b_ok; vmr.
Qed.

Lemma show_pad_no_braces : forall z, 0 <= z -> no_braces (show_pad z).
Proof.
  intros z H. unfold show_pad. destruct (z =? 0); [apply nb_b_ok; reflexivity|].
  apply no_braces_app; split; [apply nb_b_ok; reflexivity|apply dec_no_braces; auto].
Qed.

Lemma show_hint_no_braces : forall m h, show_hint_ok m h -> no_braces (show_hint h).
Proof.
  intros m h H. destruct h; cbn [show_hint show_hint_ok] in *;
    repeat (apply no_braces_app; split); try (apply dec_no_braces; lia);
    try (apply show_pad_no_braces; lia); try (apply nb_b_ok; vmr);
    try (destruct alternate; apply nb_b_ok; vmr);
    try (destruct uppercase; apply nb_b_ok; vmr);
    try (destruct p; apply nb_b_ok; vmr).
  - apply H.
  - apply H.
  - apply H.
  - destruct crate_name; [|apply nb_b_ok; reflexivity].
    apply no_braces_app; split; [apply nb_b_ok; reflexivity|apply H].
  - apply H.
Qed.

Lemma show_param_no_braces : forall m i t h, item_ok m (IParam i t h) -> no_braces (show_param i t h).
Proof.
  intros m i t h (A & B & C). unfold show_param. apply no_braces_app; split.
  - destruct i; [apply dec_no_braces; lia|apply nb_b_ok; reflexivity].
  - apply no_braces_app; split.
    + destruct t; [|apply nb_b_ok; reflexivity]. apply no_braces_app; split; [apply nb_b_ok; reflexivity|].
      apply show_ty_no_braces; auto.
    + destruct h; [|apply nb_b_ok; reflexivity]. apply no_braces_app; split; [apply nb_b_ok; reflexivity|].
      eapply show_hint_no_braces; eauto.
Qed.

(* ------------------------------------------------------------------ *)
(** * Types *)

Lemma digits_dec : forall n r, 0 <= n -> match r with c :: _ => is_digit c = false | [] => True end ->
  digits (dec_str n ++ r) = length (dec_str n).
Proof. intros n r H Hr. apply digits_all; auto. apply dec_str_digits; auto. Qed.

Lemma parse_array_dec : forall n, 0 <= n <= usize_max -> parse_array (dec_str n ++ lit "]") = Ok n.
Proof.
  intros n H. unfold parse_array.
  assert (E : drop_while (fun c => c =? 32) (dec_str n ++ lit "]") = dec_str n ++ lit "]").
  { pose proof (dec_str_digits n ltac:(lia)) as D. pose proof (dec_str_ne n ltac:(lia)).
    destruct (dec_str n) as [|c r]; [congruence|]. inversion D; subst. cbn [app drop_while].
    unfold is_digit in H3. destruct (Z.eqb_spec c 32); auto. lia. }
  rewrite E. rewrite digits_dec by (cbn; auto; lia).
  rewrite skipn_app_exact, firstn_app_exact, parse_digits_dec_str by lia.
  destruct (dec_str n ++ lit "]") eqn:X.
  { apply app_eq_nil in X as [_ X]. discriminate. }
  cbv zeta. reflexivity.
Qed.

Lemma type_from_str_digit : forall c r, is_digit c = true -> type_from_str (c :: r) = None.
Proof.
  intros c r H. unfold is_digit in H. unfold type_from_str.
  assert (B : forall x y, (x < 48 \/ 57 < x) -> beq (c :: r) (x :: y) = false).
  { intros x y Hx. apply beq_false. intro X. inversion X. lia. }
  repeat match goal with |- context [beq (c :: r) ?l] =>
    let l' := eval vm_compute in l in change l with l'; rewrite B by lia end.
  reflexivity.
Qed.

Lemma beq_len : forall (a b : bytes), length a <> length b -> beq a b = false.
Proof. intros a b H. apply beq_false. intro X. subst. auto. Qed.

Lemma type_from_str_array : forall p n, (p = lit "[?;" \/ p = lit "[u8;") -> 0 <= n ->
  type_from_str (p ++ dec_str n ++ lit "]") = None.
Proof.
  intros p n Hp Hn. unfold type_from_str.
  assert (B : forall y, nth_error y (length p - 1) <> Some 59 -> beq (p ++ dec_str n ++ lit "]") y = false).
  { intros y Hy. apply beq_false. intro X. apply Hy. rewrite <- X.
    destruct Hp; subst p; reflexivity. }
  repeat match goal with |- context [beq _ ?l] =>
    let l' := eval vm_compute in l in change l with l'; rewrite B by (destruct Hp; subst p; vm_compute; discriminate) end.
  reflexivity.
Qed.

Lemma parse_range_dec : forall lo hi, 0 <= lo -> lo < hi -> hi <= 128 ->
  parse_range (dec_str lo ++ lit ".." ++ dec_str hi) =
    Ok (Some ((lo, hi), length (dec_str lo ++ lit ".." ++ dec_str hi))).
Proof.
  intros lo hi H1 H2 H3. unfold parse_range. cbv zeta.
  rewrite digits_dec by (cbn; auto; lia). rewrite firstn_app_exact, parse_digits_dec_str by lia.
  assert (SK : skipn (length (dec_str lo) + 2) (dec_str lo ++ lit ".." ++ dec_str hi) = dec_str hi).
  { rewrite <- skipn_skipn, skipn_app_exact. reflexivity. }
  assert (B : is_char_boundary (dec_str lo ++ lit ".." ++ dec_str hi) (length (dec_str lo) + 2) = true).
  { unfold is_char_boundary. rewrite !app_length. change (length (lit "..")) with 2%nat.
    destruct (Nat.eqb_spec (length (dec_str lo) + 2) (length (dec_str lo) + (2 + length (dec_str hi)))); auto.
    rewrite nth_error_app2 by lia. replace (length (dec_str lo) + 2 - length (dec_str lo))%nat with 2%nat by lia.
    pose proof (dec_str_digits hi ltac:(lia)) as D.
    change (nth_error (lit ".." ++ dec_str hi) 2) with (nth_error (dec_str hi) 0).
    destruct (dec_str hi) as [|c r]; [cbn in n; lia|]. cbn [nth_error].
    apply Forall_inv in D. unfold is_digit in D. lia. }
  rewrite B. cbn [negb]. rewrite SK, skipn_app_exact.
  change (firstn 2 (lit ".." ++ dec_str hi)) with (lit ".."). rewrite beq_refl. cbn [negb].
  assert (DH : digits (dec_str hi) = length (dec_str hi)).
  { rewrite <- (app_nil_r (dec_str hi)) at 1. apply digits_dec; cbn; auto; lia. }
  rewrite DH, firstn_all, parse_digits_dec_str by lia.
  destruct ((hi <=? lo) || (128 <=? lo) || (128 <? hi)) eqn:E; [lia|].
  rewrite !app_length. change (length (lit "..")) with 2%nat. do 3 f_equal. lia.
Qed.

Lemma parse_show_ty : forall inp t, show_ty_ok t -> parse_type inp (show_ty t) = Ok t.
Proof.
  intros inp t H. unfold parse_type. destruct t; cbn [show_ty show_ty_ok] in *;
    try (destruct w); try (vmr).
  - pose proof (dec_str_digits lo ltac:(lia)) as D. pose proof (dec_str_ne lo ltac:(lia)).
    destruct (dec_str lo) as [|c r] eqn:E; [congruence|]. inversion D; subst. cbn [app].
    rewrite type_from_str_digit by auto.
    assert (X : forall p, strip_prefix (91 :: p) (c :: r ++ lit ".." ++ dec_str hi) = None).
    { intro p. cbn [strip_prefix]. unfold is_digit in H3. destruct (Z.eqb_spec 91 c); auto. lia. }
    change (lit "[u8;") with [91; 117; 56; 59]. change (lit "[?;") with [91; 63; 59]. rewrite !X.
    change (c :: r ++ lit ".." ++ dec_str hi) with ((c :: r) ++ lit ".." ++ dec_str hi). rewrite <- E.
    rewrite parse_range_dec by lia. cbn [bind]. rewrite Nat.eqb_refl. reflexivity.
  - rewrite type_from_str_array by (auto; lia).
    change (strip_prefix (lit "[u8;") (lit "[?;" ++ dec_str len ++ lit "]")) with (@None bytes).
    rewrite strip_prefix_app, parse_array_dec by lia. reflexivity.
  - rewrite type_from_str_array by (auto; lia).
    rewrite strip_prefix_app, parse_array_dec by lia. reflexivity.
Qed.

(* ------------------------------------------------------------------ *)
(** * Hints *)

Lemma parse_integer_dec : forall z r, 0 <= z <= usize_max ->
  match r with c :: _ => is_digit c = false | [] => True end ->
  parse_integer (dec_str z ++ r) = Some (r, z).
Proof.
  intros z r H Hr. unfold parse_integer. rewrite digits_dec by (auto; lia).
  rewrite firstn_app_exact, skipn_app_exact, parse_digits_dec_str by lia. reflexivity.
Qed.

Lemma parse_hint_radix : forall alt z c, 0 <= z <= usize_max -> c = 120 \/ c = 88 \/ c = 111 \/ c = 98 ->
  parse_hint (show_alt alt ++ show_pad z ++ [c]) =
    Some (if c =? 120 then HHex alt false z else if c =? 88 then HHex alt true z
          else if c =? 111 then HOctal alt z else HBinary alt z).
Proof.
  intros alt z c Hz Hc. unfold show_pad. destruct (Z.eqb_spec z 0) as [->|Hne].
  - destruct alt; destruct Hc as [-> | [-> | [-> | ->]]]; reflexivity.
  - unfold parse_hint.
    assert (P : parse_integer (dec_str z ++ [c]) = Some ([c], z)).
    { apply parse_integer_dec; auto. destruct Hc as [-> | [-> | [-> | ->]]]; reflexivity. }
    rewrite <- app_assoc.
    destruct alt; cbn [show_alt].
    + change (strip_prefix (lit "#") (lit "#" ++ lit "0" ++ dec_str z ++ [c])) with (Some (lit "0" ++ dec_str z ++ [c])).
      cbv iota beta zeta. change (strip_prefix (lit "0") (lit "0" ++ dec_str z ++ [c])) with (Some (dec_str z ++ [c])). cbv iota beta zeta. rewrite P. cbv iota beta zeta.
      destruct Hc as [-> | [-> | [-> | ->]]]; reflexivity.
    + change (strip_prefix (lit "#") ([] ++ lit "0" ++ dec_str z ++ [c])) with (@None bytes).
      cbv iota beta zeta. change (strip_prefix (lit "0") ([] ++ lit "0" ++ dec_str z ++ [c])) with (Some (dec_str z ++ [c])). cbv iota beta zeta. rewrite P. cbv iota beta zeta.
      destruct Hc as [-> | [-> | [-> | ->]]]; reflexivity.
Qed.

Lemma split_on_sep : forall c a b, ~ In c a -> split_on c (a ++ c :: b) = a :: split_on c b.
Proof.
  induction a as [|x a IH]; intros b H; cbn [app split_on].
  - rewrite Z.eqb_refl. reflexivity.
  - destruct (Z.eqb_spec x c); [exfalso; apply H; cbn; auto|]. rewrite IH; [reflexivity|].
    intro; apply H; cbn; auto.
Qed.

Lemma split_on_none : forall c a, ~ In c a -> split_on c a = [a].
Proof.
  induction a as [|x a IH]; intros H; cbn [split_on]; auto.
  destruct (Z.eqb_spec x c); [exfalso; apply H; cbn; auto|]. rewrite IH; [reflexivity|].
  intro; apply H; cbn; auto.
Qed.

Lemma parse_hint_bitflags : forall rest,
  parse_hint (lit "__internal_bitflags_" ++ rest) =
    Some (parse_bitflags (lit "__internal_bitflags_" ++ rest) rest).
Proof.
  intro rest. unfold parse_hint.
  change (strip_prefix (lit "#") (lit "__internal_bitflags_" ++ rest)) with (@None bytes). cbv iota beta zeta.
  change (strip_prefix (lit "0") (lit "__internal_bitflags_" ++ rest)) with (@None bytes). cbv iota beta zeta.
  rewrite strip_prefix_app. reflexivity.
Qed.

Lemma show_hint_ne : forall m h, show_hint_ok m h -> show_hint h <> [].
Proof.
  intros m h H. destruct h; cbn [show_hint show_hint_ok] in *; try discriminate;
    try (destruct p; try contradiction; discriminate);
    try (intro X; apply app_eq_nil in X as [_ X]; apply app_eq_nil in X as [_ X]; try destruct uppercase; discriminate).
  tauto.
Qed.

Lemma parse_show_hint : forall m h, show_hint_ok m h ->
  match h with HUnknown s => parse_hint s = None | _ => parse_hint (show_hint h) = Some h end.
Proof.
  intros m h H. destruct h; try (destruct p); cbn [show_hint show_hint_ok] in *; try contradiction; try vmr.
  - unfold parse_hint.
    change (strip_prefix (lit "#") (lit "0" ++ dec_str zero_pad)) with (@None bytes). cbv iota beta zeta.
    change (strip_prefix (lit "0") (lit "0" ++ dec_str zero_pad)) with (Some (dec_str zero_pad)). cbv iota beta zeta.
    pose proof (parse_integer_dec zero_pad [] H I) as P. rewrite app_nil_r in P. rewrite P. reflexivity.
  - destruct uppercase.
    + exact (parse_hint_radix alternate zero_pad 88 H (or_intror (or_introl eq_refl))).
    + exact (parse_hint_radix alternate zero_pad 120 H (or_introl eq_refl)).
  - exact (parse_hint_radix alternate zero_pad 111 H (or_intror (or_intror (or_introl eq_refl)))).
  - exact (parse_hint_radix alternate zero_pad 98 H (or_intror (or_intror (or_intror eq_refl)))).
  - rewrite parse_hint_bitflags. unfold parse_bitflags. destruct H as ((_ & A) & (_ & B) & (_ & C) & D).
    change (lit "@") with [64]. cbn [app].
    rewrite split_on_sep by auto. rewrite split_on_sep by auto.
    destruct crate_name as [c|].
    + rewrite split_on_sep by auto. rewrite split_on_none by apply D. reflexivity.
    + rewrite app_nil_r, split_on_none by auto. reflexivity.
  - tauto.
Qed.

(* ------------------------------------------------------------------ *)
(** * Parameters *)

Definition no_colon_b (s : bytes) : bool := forallb (fun c => negb (c =? 58)) s.

Lemma dec_no_colon : forall n, 0 <= n -> Forall (fun c => (c =? 58) = false) (dec_str n).
Proof.
  intros n H. eapply Forall_impl; [|apply dec_str_digits; exact H]. intros c Hc.
  cbn in *. unfold is_digit in Hc. lia.
Qed.

Lemma no_colon_ok : forall s, no_colon_b s = true -> Forall (fun c => (c =? 58) = false) s.
Proof.
  intros s H. unfold no_colon_b in H. rewrite forallb_forall in H. rewrite Forall_forall. intros x Hx.
  apply H in Hx. destruct (x =? 58); auto; discriminate.
Qed.

Lemma show_ty_no_colon : forall t, show_ty_ok t -> Forall (fun c => (c =? 58) = false) (show_ty t).
Proof.
  intros t H. destruct t; cbn [show_ty show_ty_ok] in *;
    repeat (apply Forall_app; split); try (apply dec_no_colon; lia);
    try (destruct w); apply no_colon_ok; vmr.
Qed.

Lemma split_type_show : forall t h, show_ty_ok t ->
  split_type (show_ty t ++ match h with Some h => lit ":" ++ show_hint h | None => [] end) =
    (show_ty t, match h with Some h => lit ":" ++ show_hint h | None => [] end).
Proof.
  intros t h H. unfold split_type. pose proof (show_ty_no_colon t H) as NC. destruct h as [h|].
  - change (lit ":" ++ show_hint h) with (58 :: show_hint h).
    rewrite position_app by auto. rewrite firstn_app_exact, skipn_app_exact. reflexivity.
  - rewrite app_nil_r. apply position_none in NC. rewrite NC. reflexivity.
Qed.

Lemma parse_show_param : forall m i t h, item_ok m (IParam i t h) ->
  parse_param (show_param i t h) m = Ok (Param i (match t with Some t => t | None => TFormat end) h).
Proof.
  intros m i t h (A & B & C). unfold parse_param, show_param. cbv zeta.
  set (hp := match h with Some h => lit ":" ++ show_hint h | None => [] end).
  assert (HP : parse_hint_part hp m = Ok h).
  { unfold parse_hint_part, hp. destruct h as [h|]; [|reflexivity].
    change (strip_prefix (lit ":") (lit ":" ++ show_hint h)) with (Some (show_hint h)). cbv iota beta zeta.
    pose proof (show_hint_ne m h C). pose proof (parse_show_hint m h C) as P.
    destruct (show_hint h) eqn:E; [congruence|]. rewrite <- E in *.
    destruct h; try (rewrite P; reflexivity). cbn [show_hint] in *. rewrite P.
    destruct C as (-> & _). reflexivity. }
  assert (NB : match (match t with Some t => lit "=" ++ show_ty t | None => [] end ++ hp) with
               | c :: _ => is_digit c = false | [] => True end).
  { destruct t; [reflexivity|]. unfold hp. destruct h; [reflexivity|exact I]. }
  set (rest := match t with Some t => lit "=" ++ show_ty t | None => [] end ++ hp) in *.
  assert (IX : (index <- (if (digits (match i with Some i => dec_str i | None => [] end ++ rest) =? 0)%nat then Ok None
     else match parse_digits usize_max (firstn (digits (match i with Some i => dec_str i | None => [] end ++ rest))
              (match i with Some i => dec_str i | None => [] end ++ rest)) with
          | Some i => Ok (Some i) | None => Err InvalidInteger end) ;; Ok index) = (Ok i : outcome perr _) /\
     skipn (digits (match i with Some i => dec_str i | None => [] end ++ rest))
       (match i with Some i => dec_str i | None => [] end ++ rest) = rest).
  { destruct i as [i|].
    - rewrite digits_dec by (auto; lia). rewrite firstn_app_exact, skipn_app_exact, parse_digits_dec_str by lia.
      pose proof (dec_str_ne i ltac:(lia)). destruct (dec_str i); [congruence|]. cbn [length Nat.eqb]. split; reflexivity.
    - cbn [app]. assert (digits rest = 0%nat) as ->.
      { destruct rest; [reflexivity|]. cbn [digits]. rewrite NB. reflexivity. }
      split; reflexivity. }
  destruct IX as [IX1 IX2]. rewrite IX2.
  match type of IX1 with bind ?x _ = _ => assert (IX3 : x = Ok i) end.
  { match type of IX1 with bind ?x _ = _ => destruct x; cbn [bind] in IX1; congruence end. }
  rewrite IX3. cbn [bind].
  destruct t as [t|].
  - unfold rest. rewrite <- app_assoc.
    change (strip_prefix (lit "=") (lit "=" ++ show_ty t ++ hp)) with (Some (show_ty t ++ hp)). cbn iota.
    unfold hp at 1 2. rewrite split_type_show by auto. fold hp.
    rewrite parse_show_ty by auto. cbn [bind]. rewrite HP. reflexivity.
  - unfold rest. cbn [app].
    assert (strip_prefix (lit "=") hp = None) as ->. { unfold hp. destruct h; reflexivity. }
    cbn [bind]. rewrite HP. reflexivity.
Qed.

(* ------------------------------------------------------------------ *)
(** * Literals *)

Lemma scan_braces_escape : forall s, scan_braces false false (escape s) = Ok tt.
Proof.
  induction s as [|c s IH]; cbn [escape]; [reflexivity|].
  destruct (Z.eqb_spec c 123).
  - cbn [scan_braces]. exact IH.
  - destruct (Z.eqb_spec c 125).
    + cbn [scan_braces]. exact IH.
    + cbn [scan_braces]. destruct (Z.eqb_spec c 123); [lia|]. destruct (Z.eqb_spec c 125); [lia|]. exact IH.
Qed.

(** Only closing braces doubled. *)
Fixpoint escape_close (s : bytes) : bytes :=
  match s with
  | [] => []
  | c :: s' => if c =? 125 then 125 :: 125 :: escape_close s' else c :: escape_close s'
  end.

Lemma undouble_open : forall s, undouble 123 (escape s) = escape_close s.
Proof.
  induction s as [|c s IH]; cbn [escape escape_close]; [reflexivity|].
  destruct (Z.eqb_spec c 123).
  - subst c. cbn [undouble Z.eqb]. rewrite IH. reflexivity.
  - destruct (Z.eqb_spec c 125).
    + cbn [undouble]. change (125 =? 123) with false. cbn iota. rewrite IH. reflexivity.
    + cbn [undouble]. destruct (Z.eqb_spec c 123); [lia|]. rewrite IH. reflexivity.
Qed.

Lemma undouble_close : forall s, undouble 125 (escape_close s) = s.
Proof.
  induction s as [|c s IH]; cbn [escape_close]; [reflexivity|].
  destruct (Z.eqb_spec c 125).
  - subst c. cbn [undouble]. change (125 =? 125) with true. cbn iota. rewrite IH. reflexivity.
  - cbn [undouble]. destruct (Z.eqb_spec c 125); [lia|]. rewrite IH. reflexivity.
Qed.

Lemma push_escape : forall fs s, push_literal fs (escape s) = Ok (fs ++ [FLit s]).
Proof.
  intros fs s. unfold push_literal. rewrite scan_braces_escape. cbn [bind].
  rewrite undouble_open, undouble_close. reflexivity.
Qed.

Lemma escape_length : forall s, (length s <= length (escape s))%nat.
Proof.
  induction s as [|c s IH]; cbn [escape length]; auto. destruct (c =? 123); [|destruct (c =? 125)]; cbn [length]; lia.
Qed.

(* ------------------------------------------------------------------ *)
(** * The scan *)

Lemma scan_skip : forall m S p rest pos st, ~ In 123 p ->
  scan m S (p ++ rest) pos st = scan m S rest (pos + length p) st.
Proof.
  induction p as [|c p IH]; intros rest pos st H; cbn [app length].
  - rewrite Nat.add_0_r. reflexivity.
  - cbn [scan]. destruct (Z.eqb_spec c 123); [exfalso; apply H; cbn; auto|]. cbn [negb].
    rewrite IH; [|intro; apply H; cbn; auto]. f_equal. lia.
Qed.

Lemma scan_escape : forall m S L rest pos st,
  scan m S (escape L ++ rest) pos st = scan m S rest (pos + length (escape L)) st.
Proof.
  induction L as [|c L IH]; intros rest pos st; cbn [escape].
  - cbn [app length]. rewrite Nat.add_0_r. reflexivity.
  - destruct (Z.eqb_spec c 123).
    + cbn [app scan length]. change (negb (123 =? 123)) with false. change (123 =? 123) with true. cbn iota.
      rewrite IH. f_equal. lia.
    + destruct (Z.eqb_spec c 125).
      * cbn [app scan length]. change (negb (125 =? 123)) with true. cbn iota. rewrite IH. f_equal. lia.
      * cbn [app scan length]. destruct (Z.eqb_spec c 123); [lia|]. cbn [negb]. rewrite IH. f_equal. lia.
Qed.

Lemma scan_param : forall m S body rest pos st, no_braces body ->
  scan m S (123 :: body ++ 125 :: rest) pos st =
    (st' <- at_param m S pos (body ++ 125 :: rest) st ;;
     scan m S rest (pos + 1 + length body + 1) st').
Proof.
  intros m S body rest pos st [H1 H2].
  assert (E : forall st', scan m S (body ++ 125 :: rest) (Datatypes.S pos) st' =
                          scan m S rest (pos + 1 + length body + 1) st').
  { intro st'. replace (body ++ 125 :: rest) with ((body ++ [125]) ++ rest) by (rewrite <- app_assoc; reflexivity).
    rewrite scan_skip.
    - rewrite app_length. cbn [length]. f_equal. lia.
    - intro X. apply in_app_iff in X as [X|[X|[]]]; auto. discriminate. }
  cbn [scan]. change (negb (123 =? 123)) with false. cbn iota.
  destruct (body ++ 125 :: rest) as [|c2 r2] eqn:B. { destruct body; discriminate. }
  assert (c2 <> 123). { destruct body; cbn in B; inversion B; subst; [discriminate|]. intro; subst. apply H1. cbn. auto. }
  destruct (Z.eqb_spec c2 123); [contradiction|].
  destruct (at_param m S pos (c2 :: r2) st); cbn [bind]; auto.
Qed.

Lemma at_param_show : forall m S A L i t h rest fs next,
  item_ok m (IParam i t h) ->
  S = A ++ escape L ++ 123 :: show_param i t h ++ 125 :: rest ->
  at_param m S (length A + length (escape L)) (show_param i t h ++ 125 :: rest) (fs, length A, next) =
    Ok (fs ++ (match L with [] => [] | _ => [FLit L] end) ++
          [FParam (MkParameter (match i with Some i => i | None => next end)
                     (match t with Some t => t | None => TFormat end) h)],
        (length A + length (escape L) + 1 + length (show_param i t h) + 1)%nat,
        match i with Some _ => next | None => next + 1 end).
Proof.
  intros m S A L i t h rest fs next H E. unfold at_param.
  assert (P : (if (length A <? length A + length (escape L))%nat
               then push_literal fs (slice S (length A) (length A + length (escape L))) else Ok fs) =
              Ok (fs ++ match L with [] => [] | _ => [FLit L] end)).
  { destruct L as [|c L'] eqn:EL.
    - cbn [escape length]. rewrite Nat.add_0_r. rewrite Nat.ltb_irrefl, app_nil_r. reflexivity.
    - rewrite <- EL in *. pose proof (escape_length L). assert (length L > 0)%nat by (subst L; cbn; lia).
      destruct (Nat.ltb_spec (length A) (length A + length (escape L))); [|lia].
      unfold slice. rewrite E, skipn_app_exact.
      replace (length A + length (escape L) - length A)%nat with (length (escape L)) by lia.
      rewrite firstn_app_exact. rewrite push_escape. reflexivity. }
  rewrite P. cbn [bind].
  pose proof (show_param_no_braces m i t h H) as [_ NB].
  rewrite position_app; [|rewrite Forall_forall; intros x Hx; destruct (Z.eqb_spec x 125); auto; subst; contradiction|reflexivity].
  rewrite firstn_app_exact, parse_show_param by auto. cbn [bind pr_index pr_ty pr_hint].
  destruct i; rewrite <- app_assoc; reflexivity.
Qed.

(** The literal pending before the next item. *)
Definition pend (L : bytes) : list fragment := match L with [] => [] | _ => [FLit L] end.

Lemma scan_items : forall m S tail items A L fs next,
  items_ok m items -> (match items with ILit _ :: _ => L = [] | _ => True end) ->
  S = A ++ escape L ++ show_items items ++ tail ->
  exists A' L' fs' next',
    S = A' ++ escape L' ++ tail /\
    fs ++ pend L ++ meaning next items = fs' ++ pend L' /\
    scan m S (show_items items ++ tail) (length A + length (escape L)) (fs, length A, next) =
    scan m S tail (length A' + length (escape L')) (fs', length A', next').
Proof.
  intros m S tail. induction items as [|it items IH]; intros A L fs next W WL E.
  - exists A, L, fs, next. cbn [show_items map List.concat app meaning] in *. rewrite app_nil_r. repeat split; auto.
  - destruct W as (W1 & W2 & W3). destruct it as [s|i t h].
    + subst L. change (show_items (ILit s :: items)) with (escape s ++ show_items items) in *.
      rewrite <- !app_assoc in *. cbn [escape app length] in E |- *.
      rewrite Nat.add_0_r, scan_escape.
      destruct (IH A s fs next W2) as (A' & L' & fs' & next' & R1 & R2 & R3); auto.
      { destruct items as [|[]]; auto. contradiction. }
      exists A', L', fs', next'. repeat split; auto.
      rewrite <- R2. cbn [meaning pend app]. destruct s; [cbn in W1; congruence|]. reflexivity.
    + change (show_items (IParam i t h :: items)) with ((lit "{" ++ show_param i t h ++ lit "}") ++ show_items items) in *.
      change (lit "{") with [123] in *. change (lit "}") with [125] in *.
      rewrite <- !app_assoc in *. cbn [app] in *.
      rewrite scan_param by (eapply show_param_no_braces; eauto).
      rewrite (at_param_show m S A L i t h (show_items items ++ tail) fs next W1 E). cbn [bind].
      set (A1 := A ++ escape L ++ 123 :: show_param i t h ++ [125]).
      assert (LA1 : length A1 = (length A + length (escape L) + 1 + length (show_param i t h) + 1)%nat).
      { unfold A1. rewrite !app_length. cbn [length]. rewrite app_length. cbn [length]. lia. }
      rewrite <- LA1.
      destruct (IH A1 [] (fs ++ pend L ++ [FParam (MkParameter (match i with Some i => i | None => next end)
                     (match t with Some t => t | None => TFormat end) h)])
                  (match i with Some _ => next | None => next + 1 end) W2)
        as (A' & L' & fs' & next' & R1 & R2 & R3).
      { destruct items as [|[]]; auto. }
      { rewrite E. unfold A1. cbn [escape app]. rewrite <- !app_assoc. cbn [app]. rewrite <- !app_assoc. reflexivity. }
      cbn [escape length app] in R3. rewrite Nat.add_0_r in R3.
      exists A', L', fs', next'. repeat split; auto.
      rewrite <- R2. cbn [meaning pend app]. rewrite <- !app_assoc. cbn [app].
      destruct i; reflexivity.
Qed.

(* ------------------------------------------------------------------ *)
(** * Type checking succeeds on well typed parameters *)

Lemma check_types_ok : forall fs args len,
  (forall p, In p (frag_params fs) -> 0 <= p_index p < usize_max) ->
  (forall p q, In p (frag_params fs) -> In q (frag_params fs) -> p_index p = p_index q -> compatible (p_ty p) (p_ty q)) ->
  (forall p t, In p (frag_params fs) -> lookup_arg (p_index p) args = Some t -> compatible t (p_ty p)) ->
  exists args' len', check_types fs args len = Ok (args', len').
Proof.
  induction fs as [|[s|p] fs IH]; intros args len H1 H2 H3; cbn [check_types frag_params] in *; eauto.
  assert (I0 := H1 p (or_introl eq_refl)).
  destruct ((len <=? p_index p) && (p_index p =? usize_max)) eqn:E; [lia|]. cbv zeta.
  destruct (lookup_arg (p_index p) args) as [o|] eqn:EL.
  - assert (C : compatible o (p_ty p)) by (apply H3; auto using in_eq).
    assert (K : exists args' len', check_types fs args (if len <=? p_index p then p_index p + 1 else len) = Ok (args', len')).
    { apply IH; intros; auto using in_cons. }
    destruct (is_bitfield o && is_bitfield (p_ty p)) eqn:EB; auto.
    assert (ty_eqb o (p_ty p) = true) as ->; auto. apply ty_eqb_eq. destruct C as [C|[C1 C2]]; auto.
    rewrite C1, C2 in EB. discriminate.
  - apply IH; intros; auto using in_cons. rewrite lookup_arg_app in H0.
    destruct (lookup_arg (p_index p0) args) eqn:E0.
    + inversion H0; subst. apply H3; auto using in_cons.
    + cbn [lookup_arg] in H0. destruct (Z.eqb_spec (p_index p0) (p_index p)); [|discriminate].
      inversion H0; subst. apply H2; auto using in_eq, in_cons.
Qed.

Lemma lookup_arg_in : forall i args t, lookup_arg i args = Some t -> In i (map fst args).
Proof.
  induction args as [|[j t'] args IH]; intros t H; cbn in *; [discriminate|].
  destruct (Z.eqb_spec i j); [subst; auto|]. right. eauto.
Qed.

Lemma check_dense_ok : forall args len, 0 <= len ->
  (forall i, 0 <= i < len -> lookup_arg i args <> None) -> check_dense args len = Ok tt.
Proof.
  intros args len Hl H. unfold check_dense. cbv zeta.
  pose proof (first_gap_spec (length args) 0 args) as G. cbv zeta in G.
  set (g := first_gap (length args) 0 args) in *. destruct G as (A & B & C).
  destruct (Z.ltb_spec g len); auto. exfalso.
  destruct (Z.ltb_spec g (0 + Z.of_nat (length args))) as [X|X].
  - apply (H g); [lia|]. apply C. lia.
  - assert (I : incl (map Z.of_nat (seq 0 (Z.to_nat len))) (map fst args)).
    { intros i Hi. apply in_map_iff in Hi as (k & <- & Hk). apply in_seq in Hk.
      assert (lookup_arg (Z.of_nat k) args <> None) by (apply H; lia).
      destruct (lookup_arg (Z.of_nat k) args) eqn:E; [|congruence]. eapply lookup_arg_in; eauto. }
    apply NoDup_incl_length in I.
    + rewrite !map_length, seq_length in I. lia.
    + apply FinFun.Injective_map_NoDup; [intros x y; lia|apply seq_NoDup].
Qed.

Lemma checks_ok : forall fs, well_typed (frag_params fs) ->
  (forall p, In p (frag_params fs) -> p_index p < usize_max) ->
  exists args len, check_types fs [] 0 = Ok (args, len) /\ check_dense args len = Ok tt.
Proof.
  intros fs (n & Hn & W1 & W2 & W3) HU.
  destruct (check_types_ok fs [] 0) as (args & len & E).
  - intros p Hp. specialize (W1 p Hp). specialize (HU p Hp). lia.
  - exact W3.
  - intros p t _ X. discriminate.
  - exists args, len. split; auto.
    assert (T : types_inv ([] ++ frag_params fs) args len).
    { eapply check_types_inv; eauto.
      - rewrite Forall_forall. intros p Hp. apply W1 in Hp. lia.
      - constructor; cbn; try (intros; contradiction); try (intros; discriminate). split; [lia|auto]. }
    cbn [app] in T. destruct T as [T1 T2 T3 [T4 T5]]. apply check_dense_ok; auto.
    intros i Hi. assert (i < n).
    { destruct T5 as [->|(p & Hp & Ep)]; [lia|]. specialize (W1 p Hp). lia. }
    destruct (W2 i ltac:(lia)) as (p & Hp & Ep). destruct (T1 p Hp) as (t & Ht & _). subst i. congruence.
Qed.

(* ------------------------------------------------------------------ *)
(** * The round trip *)

Lemma parse_show_items : forall m items, items_ok m items ->
  well_typed (frag_params (meaning 0 items)) ->
  (forall p, In p (frag_params (meaning 0 items)) -> p_index p < usize_max) ->
  parse (show_items items) m = Ok (meaning 0 items).
Proof.
  intros m items W T U. unfold parse.
  destruct (scan_items m (show_items items) [] items [] [] [] 0 W) as (A & L & fs & next & E1 & E2 & E3).
  { destruct items as [|[]]; auto. }
  { cbn [escape app]. rewrite app_nil_r. reflexivity. }
  cbn [escape length Nat.add app] in E3. rewrite app_nil_r in E3. rewrite E3.
  cbn [scan bind]. rewrite app_nil_r in E1. cbn [app pend] in E2.
  assert (P : (if (length A =? length (show_items items))%nat then Ok fs
               else push_literal fs (skipn (length A) (show_items items))) = Ok (meaning 0 items)).
  { rewrite E2, E1, app_length, skipn_app_exact, push_escape. destruct L as [|c L'].
    - cbn [escape length]. rewrite Nat.add_0_r, Nat.eqb_refl, app_nil_r. reflexivity.
    - pose proof (escape_length (c :: L')). cbn [length] in H.
      destruct (Nat.eqb_spec (length A) (length A + length (escape (c :: L')))); [lia|]. reflexivity. }
  rewrite P. cbn [bind].
  destruct (checks_ok (meaning 0 items) T U) as (args & len & C1 & C2). rewrite C1. cbn [bind]. rewrite C2. reflexivity.
Qed.

Lemma parse_escape : forall m s, parse (escape s) m = Ok (match s with [] => [] | _ => [FLit s] end).
Proof.
  intros m s. destruct s as [|c s]; [reflexivity|].
  pose proof (parse_show_items m [ILit (c :: s)]) as H. cbn [meaning frag_params] in H.
  unfold show_items in H. cbn [map show_item List.concat] in H. rewrite app_nil_r in H. apply H.
  - cbn. split; auto. discriminate.
  - exists 0. split; [lia|]. cbn. repeat split; try (intros; contradiction). intros; lia.
  - intros p [].
Qed.

(* ------------------------------------------------------------------ *)
(** * Lone braces *)

(** [s] does not begin so that a brace before it would be (or, in this parser,
    could be taken to be) part of an escape. *)
Definition not_brace (s : bytes) : Prop :=
  match s with [] => True | c :: r => c <> 125 /\ (c = 123 -> match r with c2 :: _ => c2 <> 123 | [] => True end) end.

Lemma scan_braces_app_escape : forall L r, scan_braces false false (escape L ++ r) = scan_braces false false r.
Proof.
  induction L as [|c L IH]; intro r; cbn [escape app]; [reflexivity|].
  destruct (Z.eqb_spec c 123).
  - cbn [app scan_braces]. apply IH.
  - destruct (Z.eqb_spec c 125).
    + cbn [app scan_braces]. apply IH.
    + cbn [app scan_braces]. destruct (Z.eqb_spec c 123); [lia|]. destruct (Z.eqb_spec c 125); [lia|]. apply IH.
Qed.

Lemma push_lone : forall fs L b, (match b with [] => True | c :: _ => c <> 125 /\ c <> 123 end) ->
  exists e, push_literal fs (escape L ++ 125 :: b) = Err e.
Proof.
  intros fs L b H. unfold push_literal. rewrite scan_braces_app_escape. cbn [scan_braces].
  change (125 =? 123) with false. change (125 =? 125) with true. cbn iota. cbn [negb].
  destruct b as [|c b]; cbn [scan_braces bind]; [eauto|].
  destruct H as [H1 H2]. destruct (Z.eqb_spec c 123); [contradiction|]. destruct (Z.eqb_spec c 125); [contradiction|].
  cbn [bind]. eauto.
Qed.

(** Once a literal with a lone brace is pending, the scan can only end in an error
    or reach the end with it still pending. *)
Lemma scan_pending : forall m S n rest pos A fs next X,
  (length rest <= n)%nat ->
  S = A ++ X ++ rest -> pos = (length A + length X)%nat -> X <> [] ->
  (forall Y Z0, rest = Y ++ Z0 -> (Z0 = [] \/ exists Z1, Z0 = 123 :: Z1 /\ (match Z1 with c :: _ => c <> 123 | [] => True end)) ->
     forall fs, exists e, push_literal fs (X ++ Y) = Err e) ->
  (exists e, scan m S rest pos (fs, length A, next) = Err e) \/
  scan m S rest pos (fs, length A, next) = Ok (fs, length A, next).
Proof.
  intros m S. induction n as [|n IH]; intros rest pos A fs next X Ln E Ep NX HP.
  - destruct rest; [|cbn in Ln; lia]. right. reflexivity.
  - assert (AP : forall r, rest = 123 :: r -> (match r with c :: _ => c <> 123 | [] => True end) ->
      exists e, at_param m S pos r (fs, length A, next) = Err e).
    { intros r Er Hr. unfold at_param.
      assert (length X > 0)%nat by (destruct X; [congruence|cbn; lia]).
      destruct (Nat.ltb_spec (length A) pos); [|lia].
      unfold slice. rewrite E, skipn_app_exact. replace (pos - length A)%nat with (length X) by lia.
      rewrite firstn_app_exact.
      destruct (HP [] rest eq_refl (or_intror (ex_intro _ r (conj Er Hr))) fs) as [e He].
      rewrite app_nil_r in He. rewrite He. cbn [bind]. eauto. }
    destruct rest as [|c rest1]; [right; reflexivity|]. cbn [length] in Ln. cbn [scan].
    destruct (Z.eqb_spec c 123) as [->|Hc]; cbn [negb].
    + destruct rest1 as [|c2 rest2].
      * destruct (AP [] eq_refl I) as [e He]. rewrite He. cbn [bind]. left. eauto.
      * destruct (Z.eqb_spec c2 123) as [->|Hc2].
        -- apply (IH rest2 (Datatypes.S (Datatypes.S pos)) A fs next (X ++ [123; 123])).
           ++ cbn [length] in Ln. lia.
           ++ rewrite E, <- app_assoc. reflexivity.
           ++ rewrite app_length. cbn [length]. lia.
           ++ destruct X; discriminate.
           ++ intros Y Z0 EY HZ fs'. rewrite <- app_assoc. apply (HP (123 :: 123 :: Y) Z0); auto.
              rewrite EY. reflexivity.
        -- destruct (AP (c2 :: rest2) eq_refl Hc2) as [e He]. rewrite He. cbn [bind]. left. eauto.
    + apply (IH rest1 (Datatypes.S pos) A fs next (X ++ [c])).
      * lia.
      * rewrite E, <- app_assoc. reflexivity.
      * rewrite app_length. cbn [length]. lia.
      * destruct X; discriminate.
      * intros Y Z0 EY HZ fs'. rewrite <- app_assoc. apply (HP (c :: Y) Z0); auto. rewrite EY. reflexivity.
Qed.

Lemma escape_app : forall a b, escape (a ++ b) = escape a ++ escape b.
Proof.
  induction a as [|c a IH]; intro b; cbn [app escape]; auto.
  rewrite IH. destruct (c =? 123); [|destruct (c =? 125)]; reflexivity.
Qed.

Lemma parse_lone_close : forall m items text b, items_ok m items -> not_brace b ->
  exists e, parse (show_items items ++ escape text ++ 125 :: b) m = Err e.
Proof.
  intros m items text b W HB. set (S := show_items items ++ escape text ++ 125 :: b). unfold parse.
  destruct (scan_items m S (escape text ++ 125 :: b) items [] [] [] 0 W) as (A & L & fs & next & E1 & E2 & E3).
  { destruct items as [|[]]; auto. }
  { reflexivity. }
  cbn [escape length Nat.add] in E3. fold S in E3. rewrite E3, scan_escape. clear E3.
  rewrite app_assoc with (m := escape text) in E1. rewrite <- escape_app in E1.
  rewrite <- Nat.add_assoc, <- app_length, <- escape_app.
  set (X := L ++ text) in *. clearbody X. clear W.
  change (125 :: b) with ([125] ++ b). rewrite scan_skip by (intros [Y|[]]; discriminate). cbn [length].
  destruct b as [|c b].
  { cbn [scan bind]. rewrite E1, app_length, app_length. cbn [length].
    destruct (Nat.eqb_spec (length A) (length A + (length (escape X) + 1))); [lia|].
    rewrite skipn_app_exact. destruct (push_lone fs X [] I) as [e He]. rewrite He. cbn [bind]. eauto. }
  destruct HB as [H1 H2]. destruct (Z.eqb_spec c 123) as [->|Hc].
  - specialize (H2 eq_refl). cbn [scan]. change (negb (123 =? 123)) with false. cbn iota.
    assert (AP : exists e, at_param m S (length A + length (escape X) + 1) b (fs, length A, next) = Err e).
    { unfold at_param. destruct (Nat.ltb_spec (length A) (length A + length (escape X) + 1)); [|lia].
      unfold slice. rewrite E1, skipn_app_exact.
      replace (length A + length (escape X) + 1 - length A)%nat with (length (escape X ++ [125])) by (rewrite app_length; cbn [length]; lia).
      change (125 :: 123 :: b) with ([125] ++ 123 :: b). rewrite app_assoc, firstn_app_exact.
      destruct (push_lone fs X [] I) as [e He]. rewrite He. cbn [bind]. eauto. }
    destruct AP as [e He]. destruct b as [|c2 b]; [rewrite He; cbn [bind]; eauto|].
    destruct (Z.eqb_spec c2 123); [contradiction|]. rewrite He; cbn [bind]; eauto.
  - assert (HP : forall Y Z0, c :: b = Y ++ Z0 ->
       (Z0 = [] \/ exists Z1, Z0 = 123 :: Z1 /\ (match Z1 with c :: _ => c <> 123 | [] => True end)) ->
       forall fs, exists e, push_literal fs ((escape X ++ [125]) ++ Y) = Err e).
    { intros Y Z0 EY _ fs0. rewrite <- app_assoc. cbn [app]. apply push_lone.
      destruct Y as [|y Y]; auto. cbn [app] in EY. inversion EY; subst. auto. }
    destruct (scan_pending m S (length (c :: b)) (c :: b) (length A + length (escape X) + 1) A fs next
                (escape X ++ [125])) as [[e He]|He].
    + lia.
    + rewrite <- app_assoc. exact E1.
    + rewrite app_length. cbn [length]. lia.
    + destruct (escape X); discriminate.
    + exact HP.
    + rewrite He. cbn [bind]. eauto.
    + rewrite He. cbn [bind]. rewrite E1, app_length, app_length. cbn [length].
      destruct (Nat.eqb_spec (length A) (length A + (length (escape X) + Datatypes.S (Datatypes.S (length b))))); [lia|].
      rewrite skipn_app_exact. destruct (push_lone fs X (c :: b)) as [e Hp]; [auto|]. rewrite Hp. cbn [bind]. eauto.
Qed.

Lemma parse_lone_open : forall m items text b, items_ok m items ->
  (match b with c :: _ => c <> 123 | [] => True end) -> ~ In 125 b ->
  exists e, parse (show_items items ++ escape text ++ 123 :: b) m = Err e.
Proof.
  intros m items text b W HB NB. set (S := show_items items ++ escape text ++ 123 :: b). unfold parse.
  destruct (scan_items m S (escape text ++ 123 :: b) items [] [] [] 0 W) as (A & L & fs & next & E1 & E2 & E3).
  { destruct items as [|[]]; auto. }
  { reflexivity. }
  cbn [escape length Nat.add] in E3. fold S in E3. rewrite E3, scan_escape. clear E3.
  rewrite app_assoc with (m := escape text) in E1. rewrite <- escape_app in E1.
  rewrite <- Nat.add_assoc, <- app_length, <- escape_app.
  set (X := L ++ text) in *. clearbody X. clear W.
  cbn [scan]. change (negb (123 =? 123)) with false. cbn iota.
  assert (AP : exists e, at_param m S (length A + length (escape X)) b (fs, length A, next) = Err e).
  { unfold at_param.
    assert (PL : (if (length A <? length A + length (escape X))%nat
                  then push_literal fs (slice S (length A) (length A + length (escape X))) else Ok fs) =
                 Ok (fs ++ pend X)).
    { destruct X as [|x X'] eqn:EX.
      - cbn [escape length]. rewrite Nat.add_0_r, Nat.ltb_irrefl. cbn [pend]. rewrite app_nil_r. reflexivity.
      - rewrite <- EX in *. pose proof (escape_length X). assert (length X > 0)%nat by (subst X; cbn; lia).
        destruct (Nat.ltb_spec (length A) (length A + length (escape X))); [|lia].
        unfold slice. rewrite E1, skipn_app_exact.
        replace (length A + length (escape X) - length A)%nat with (length (escape X)) by lia.
        rewrite firstn_app_exact, push_escape. subst X. reflexivity. }
    rewrite PL. cbn [bind].
    assert (position (fun c => c =? 125) b = None) as ->.
    { apply position_none. rewrite Forall_forall. intros x Hx. destruct (Z.eqb_spec x 125); auto. subst. contradiction. }
    eauto. }
  destruct AP as [e He]. destruct b as [|c2 b]; [rewrite He; cbn [bind]; eauto|].
  destruct (Z.eqb_spec c2 123); [contradiction|]. rewrite He; cbn [bind]; eauto.
Qed.
