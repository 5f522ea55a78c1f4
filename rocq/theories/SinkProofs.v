(** Proofs about the sinks. *)
From Verif Require Import Base Utf8 ParserModel DecoderModel Numerals DisplayModel SymbolModel SymbolProofs StreamModel EnvFilterModel
  EnvFilterProofs LogFormatModel LocationModel SinkModel SinkSpec.

(* ------------------------------------------------------------------ *)
(** * JSON texts are read back *)

Lemma small_cases : forall (P : Z -> Prop), Forall P (map Z.of_nat (seq 0 32)) -> forall b, 0 <= b < 32 -> P b.
Proof.
  intros P F b H. rewrite Forall_forall in F. apply F. apply in_map_iff. exists (Z.to_nat b). split; [lia|]. apply in_seq. lia.
Qed.

Lemma escape_read : forall b r, 0 <= b -> parse_str (escape_byte b ++ r) = prepend [b] (parse_str r).
Proof.
  intros b r H. destruct (Z.ltb_spec b 32) as [L|L].
  - revert b L H. assert (Q : forall b, 0 <= b < 32 -> parse_str (escape_byte b ++ r) = prepend [b] (parse_str r)).
    { apply small_cases. cbn [map seq]. repeat constructor; cbn [Z.of_nat]; try reflexivity. }
    intros b L H. apply Q. lia.
  - unfold escape_byte. destruct (Z.eqb_spec b 34) as [->|N34]; [reflexivity|]. destruct (Z.eqb_spec b 92) as [->|N92]; [reflexivity|].
    repeat (match goal with |- context [b =? ?k] => destruct (Z.eqb_spec b k); [lia|] end).
    destruct (Z.ltb_spec b 32); [lia|]. cbn [app]. apply parse_plain; lia.
Qed.

Lemma string_read : forall s r, byte_text s -> parse_str (flat_map escape_byte s ++ 34 :: r) = Ok (s, r).
Proof.
  intros s r H. induction H as [|b s Hb H IH]; [reflexivity|]. cbn [flat_map]. rewrite <- app_assoc, escape_read by auto.
  rewrite IH. reflexivity.
Qed.

Lemma json_string_cons : forall s r, json_string s ++ r = 34 :: flat_map escape_byte s ++ 34 :: r.
Proof. intros s r. unfold json_string. cbn [app]. now rewrite <- app_assoc. Qed.

Lemma json_tree : forall P : json -> Prop, P JNull -> (forall x, P (JInt x)) -> (forall s, P (JStr s)) ->
  (forall l, Forall P l -> P (JArr l)) -> (forall l, Forall (fun kv => P (snd kv)) l -> P (JObj l)) -> forall j, P j.
Proof.
  intros P H1 H2 H3 H4 H5. fix IH 1. intros [|x|s|l|l].
  - exact H1.
  - apply H2.
  - apply H3.
  - apply H4. induction l as [|j l IHl]; constructor; [apply IH|exact IHl].
  - apply H5. induction l as [|[k j] l IHl]; constructor; [apply IH|exact IHl].
Qed.

(** Texts inside are lists of bytes. *)
Inductive json_ok : json -> Prop :=
| O_null : json_ok JNull
| O_int : forall x, json_ok (JInt x)
| O_str : forall s, byte_text s -> json_ok (JStr s)
| O_arr : forall l, Forall json_ok l -> json_ok (JArr l)
| O_obj : forall l, Forall (fun kv => byte_text (fst kv) /\ json_ok (snd kv)) l -> json_ok (JObj l).

Definition stops (r : bytes) : Prop := match r with c :: _ => is_digit c = false /\ ends_number r = true | [] => True end.

Lemma span_stop : forall a r, Forall (fun c => is_digit c = true) a -> stops r -> span is_digit (a ++ r) = (a, r).
Proof.
  intros a r H S. induction H as [|c a Hc H IH]; cbn [app span].
  - destruct r as [|c r]; [reflexivity|]. destruct S as [S _]. cbn. now rewrite S.
  - now rewrite Hc, IH.
Qed.

Lemma nat_read : forall n r, 0 <= n -> stops r -> read_nat (dec_str n ++ r) = Some (n, r).
Proof.
  intros n r H S. unfold read_nat. rewrite span_stop by (auto using dec_str_digits).
  pose proof (dec_str_value n H) as V. destruct (num_str_spec 10 false n ltac:(lia) H) as (_ & _ & NE & NZ & Z0). fold (dec_str n) in *.
  destruct (dec_str n) as [|c [|d l]] eqn:E; [congruence|now rewrite V|].
  destruct (Z.eqb_spec c 48) as [->|_]; [|now rewrite V].
  destruct (Z.eq_dec n 0) as [N|N]; [discriminate (Z0 N)|]. destruct (NZ N) as (c & q & E2 & C). congruence.
Qed.

Lemma stops_ends : forall r, stops r -> ends_number r = true.
Proof. intros [|c r] H; [reflexivity|apply H]. Qed.

Lemma dec_head : forall n, 0 <= n -> exists c l, dec_str n = c :: l /\ is_digit c = true.
Proof.
  intros n H. pose proof (dec_str_digits n H) as D. pose proof (dec_str_ne n H) as NE. destruct (dec_str n) as [|c l]; [congruence|].
  inversion D; subst. eauto.
Qed.

Lemma digit_bounds : forall c, is_digit c = true -> 48 <= c <= 57.
Proof. intros c H. unfold is_digit in H. lia. Qed.

Lemma int_read : forall x r, stops r -> read_int (int_text x ++ r) = Some (JInt x, r).
Proof.
  intros x r S. unfold read_int, int_text. destruct (Z.ltb_spec x 0) as [L|L].
  - cbn [app]. rewrite (Z.eqb_refl 45). rewrite nat_read by (auto; lia). rewrite stops_ends by auto. now rewrite Z.opp_involutive.
  - destruct (dec_head x L) as (c & l & E & D). rewrite E. cbn [app]. apply digit_bounds in D.
    destruct (Z.eqb_spec c 45); [lia|]. change (c :: l ++ r) with ((c :: l) ++ r). rewrite <- E.
    rewrite nat_read by auto. now rewrite stops_ends by auto.
Qed.

Lemma skip_plain : forall c r, is_ws c = false -> skip_ws (c :: r) = c :: r.
Proof. intros c r H. cbn. now rewrite H. Qed.

Lemma text_read : forall s r, byte_text s -> read_text (json_string s ++ r) = Some (s, r).
Proof.
  intros s r H. unfold read_text. rewrite json_string_cons, skip_plain by reflexivity. rewrite Z.eqb_refl. now rewrite string_read.
Qed.

(** The first byte of a value. *)
Lemma json_head : forall j, exists c t, json_text j = c :: t /\ is_ws c = false /\ c <> 93 /\ c <> 125 /\
  (forall x, j = JInt x -> c <> 34 /\ c <> 91 /\ c <> 123 /\ c <> 110).
Proof.
  intros [|x|s|l|l]; cbn [json_text].
  - do 2 eexists. split; [reflexivity|]. repeat split; try discriminate.
  - unfold int_text. destruct (Z.ltb_spec x 0) as [L|L].
    + do 2 eexists. split; [reflexivity|]. repeat split; discriminate.
    + destruct (dec_head x L) as (c & t & E & D). exists c, t. split; [exact E|]. apply digit_bounds in D.
      split; [unfold is_ws; lia|]. repeat split; lia.
  - do 2 eexists. split; [unfold json_string; reflexivity|]. repeat split; try discriminate.
  - do 2 eexists. split; [reflexivity|]. repeat split; try discriminate.
  - do 2 eexists. split; [reflexivity|]. repeat split; try discriminate.
Qed.

Section Lists.
  Context {A B : Type} (item : bytes -> option (A * bytes)) (show : B -> bytes) (val : B -> A) (close : Z).
  Context (Hc : close = 93 \/ close = 125).

  Definition joined (l : list B) : bytes := join [44] (map show l).

  Lemma separator_comma : forall r, separator close (44 :: r) = Some (true, r).
  Proof. reflexivity. Qed.
  Lemma separator_close : forall r, separator close (close :: r) = Some (false, r).
  Proof. intros r. destruct Hc as [-> | ->]; reflexivity. Qed.

  Lemma items_read : forall l fuel r, l <> [] -> (length l <= fuel)%nat ->
    (forall b r, In b l -> (exists q, r = 44 :: q) \/ (exists q, r = close :: q) -> item (show b ++ r) = Some (val b, r)) ->
    items item close fuel (joined l ++ close :: r) = Some (map val l, r).
  Proof.
    intros l. induction l as [|b l IH]; intros fuel r NE L H; [congruence|]. destruct fuel as [|fuel]; [cbn in L; lia|]. cbn [items].
    destruct l as [|c l].
    - cbn [joined map join app]. rewrite H; [|now left|right; eauto]. now rewrite separator_close.
    - assert (E : joined (b :: c :: l) ++ close :: r = show b ++ 44 :: joined (c :: l) ++ close :: r).
      { unfold joined. cbn [map join]. rewrite <- !app_assoc. reflexivity. }
      rewrite E, H; [|now left|left; eauto]. rewrite separator_comma. rewrite IH; [reflexivity|discriminate|cbn in *; lia|].
      intros x q I0. apply H. now right.
  Qed.

  Lemma list_read : forall l fuel r, (length l <= fuel)%nat ->
    (forall b, In b l -> exists c t, show b = c :: t /\ is_ws c = false /\ c <> close) ->
    (forall b r, In b l -> (exists q, r = 44 :: q) \/ (exists q, r = close :: q) -> item (show b ++ r) = Some (val b, r)) ->
    list_of item close fuel (joined l ++ close :: r) = Some (map val l, r).
  Proof.
    intros l fuel r L Hd H. unfold list_of. destruct l as [|b l].
    - cbn [joined map join app]. assert (W : is_ws close = false) by (destruct Hc as [-> | ->]; reflexivity).
      rewrite skip_plain by auto. now rewrite Z.eqb_refl.
    - destruct (Hd b (or_introl eq_refl)) as (c & t & E & W & N).
      assert (J : exists q, joined (b :: l) ++ close :: r = c :: q).
      { unfold joined. cbn [map]. rewrite E. destruct (map show l); cbn; eauto. }
      destruct J as (q & J). rewrite J. rewrite skip_plain by auto.
      destruct (Z.eqb_spec c close); [congruence|]. rewrite <- J. apply items_read; auto. discriminate.
  Qed.
End Lists.

Lemma join_length : forall l, Forall (fun x : bytes => x <> []) l -> (length l <= length (join [44%Z] l))%nat /\
  Forall (fun x => (length x <= length (join [44%Z] l))%nat) l.
Proof.
  intros l. induction l as [|x l IH]; intros H; [split; [cbn; lia|constructor]|].
  inversion H as [|? ? Nx Hl]; subst. destruct (IH Hl) as (A & B). destruct x as [|c x]; [congruence|]. destruct l as [|y l].
  - cbn. split; [lia|]. constructor; [cbn; lia|constructor].
  - change (join [44%Z] ((c :: x) :: y :: l)) with ((c :: x) ++ [44] ++ join [44%Z] (y :: l)). rewrite !app_length. cbn [length] in *.
    split; [lia|]. constructor; [cbn; lia|]. eapply Forall_impl; [|exact B]. intros z Hz. cbn in *. lia.
Qed.

Lemma stops_next : forall r, (exists q, r = 44 :: q) \/ (exists q, r = 93 :: q) \/ (exists q, r = 125 :: q) -> stops r.
Proof. intros r [(q & ->)|[(q & ->)|(q & ->)]]; split; reflexivity. Qed.

Lemma json_string_ne : forall s t, exists c q, json_string s ++ t = c :: q /\ is_ws c = false /\ c <> 125.
Proof. intros s t. do 2 eexists. split; [apply json_string_cons|]. split; [reflexivity|discriminate]. Qed.

Definition entry_text (p : bytes * json) : bytes := json_string (fst p) ++ [58] ++ json_text (snd p).

Theorem json_read_text : forall j fuel r, json_ok j -> stops r -> (length (json_text j) <= fuel)%nat ->
  json_read fuel (json_text j ++ r) = Some (j, r).
Proof.
  intros j. induction j as [|x|s|l IH|l IH] using json_tree; intros fuel r K S L.
  all: destruct fuel as [|fuel]; [exfalso; match type of L with context [json_text ?k] => destruct (json_head k) as (c & t & E & _); rewrite E in L; cbn in L; lia end|].
  - reflexivity.
  - destruct (json_head (JInt x)) as (c & t & E & W & _ & _ & N). cbn [json_text] in *. destruct (N x eq_refl) as (N1 & N2 & N3 & N4).
    cbn [json_read]. rewrite E. cbn [app]. rewrite skip_plain by auto.
    destruct (Z.eqb_spec c 34); [congruence|]. destruct (Z.eqb_spec c 91); [congruence|]. destruct (Z.eqb_spec c 123); [congruence|].
    destruct (Z.eqb_spec c 110); [congruence|]. change (c :: t ++ r) with ((c :: t) ++ r). rewrite <- E. now apply int_read.
  - inversion K; subst. cbn [json_text json_read]. rewrite json_string_cons, skip_plain by reflexivity. rewrite Z.eqb_refl. now rewrite string_read.
  - inversion K as [| | |? Kl|]; subst. cbn [json_text] in *. cbn [json_read app]. rewrite skip_plain by reflexivity.
    change (91 =? 34) with false. change (91 =? 91) with true. cbv iota. rewrite <- app_assoc. cbn [app].
    rewrite !app_length in L. cbn [length] in L.
    assert (NE : Forall (fun x : bytes => x <> []) (map json_text l)).
    { apply Forall_map. apply Forall_forall. intros j _. destruct (json_head j) as (c & t & E & _). rewrite E. discriminate. }
    destruct (join_length _ NE) as (L1 & L2). rewrite map_length in L1. rewrite Forall_map in L2.
    pose proof (list_read (json_read fuel) json_text (fun j : json => j) 93 (or_introl eq_refl) l fuel r) as Q. unfold joined in Q.
    rewrite Q; [now rewrite map_id|lia| |].
    + intros j _. destruct (json_head j) as (c & t & E & W & N & _). eauto.
    + intros j q J Hq. rewrite Forall_forall in IH, Kl, L2. apply (IH j J); [now apply Kl|apply stops_next; tauto|].
      specialize (L2 j J). cbv beta in L2. lia.
  - inversion K as [| | | |? Kl]; subst. cbn [json_text] in *. change (fun p : bytes * json => json_string (fst p) ++ [58] ++ json_text (snd p)) with entry_text in *. cbn [json_read app]. rewrite skip_plain by reflexivity.
    change (123 =? 34) with false. change (123 =? 91) with false. change (123 =? 123) with true. cbv iota. rewrite <- app_assoc. cbn [app].
    rewrite !app_length in L. cbn [length] in L.
    assert (NE : Forall (fun x : bytes => x <> []) (map entry_text l)).
    { apply Forall_map. apply Forall_forall. intros j _. discriminate. }
    destruct (join_length _ NE) as (L1 & L2). rewrite map_length in L1. rewrite Forall_map in L2.
    pose proof (list_read (member (json_read fuel)) entry_text (fun p : bytes * json => p) 125 (or_intror eq_refl) l fuel r) as Q. unfold joined in Q.
    rewrite map_id in Q.
    match goal with |- match ?e with _ => _ end = _ => assert (E : e = Some (l, r)); [|rewrite E; reflexivity] end. apply Q; [change (@length (bytes * json) l) with (length l); etransitivity; [exact L1|]; clear - L; unfold bytes in *; lia| |].
    + intros p _. unfold entry_text. destruct (json_string_ne (fst p) ([58] ++ json_text (snd p))) as (c & t & E & W & N). eauto.
    + intros [k j] q J Hq. rewrite Forall_forall in IH, Kl, L2. destruct (Kl _ J) as (Kk & Kj). cbn [fst snd] in *.
      unfold entry_text, member. cbn [fst snd]. rewrite <- !app_assoc. rewrite text_read by auto. cbn [app].
      rewrite skip_plain by reflexivity. change (58 =? 58) with true. cbv iota.
      rewrite (IH _ J); [reflexivity|exact Kj|apply stops_next; tauto|].
      specialize (L2 _ J). cbv beta in L2. set (n := length (join [44] (map entry_text l))) in *.
      assert (M : (length (json_text j) < length (entry_text (k, j)))%nat) by (unfold entry_text; cbn [fst snd]; rewrite !app_length; cbn [length]; lia).
      clear - L L2 M. eapply Nat.le_trans; [apply Nat.lt_le_incl, M|]. eapply Nat.le_trans; [exact L2|]. unfold n, bytes in *. lia.
Qed.

Theorem document_read : forall j, json_ok j -> json_document (json_text j) = Some j.
Proof.
  intros j K. unfold json_document. rewrite <- (app_nil_r (json_text j)) at 2. rewrite json_read_text; [reflexivity|exact K|exact I|lia].
Qed.

(** ** On one line *)

Lemma escape_line : forall b, 0 <= b -> one_line (escape_byte b).
Proof.
  intros b H. destruct (Z.ltb_spec b 32) as [L|L].
  - revert b L H. assert (Q : forall b, 0 <= b < 32 -> one_line (escape_byte b)).
    { apply small_cases. cbn [map seq]. repeat (constructor; [vm_compute; repeat constructor; discriminate|]). constructor. }
    intros b L H. apply Q. lia.
  - unfold escape_byte. repeat (match goal with |- context [b =? ?k] => destruct (Z.eqb_spec b k); [repeat constructor; lia|] end).
    destruct (Z.ltb_spec b 32); [lia|]. repeat constructor. lia.
Qed.

Lemma one_line_app : forall a b, one_line a -> one_line b -> one_line (a ++ b).
Proof. intros a b A B. apply Forall_app. auto. Qed.

Lemma string_line : forall s, byte_text s -> one_line (json_string s).
Proof.
  intros s H. unfold json_string. apply one_line_app; [repeat constructor; lia|]. apply one_line_app; [|repeat constructor; lia].
  induction H as [|b s Hb H IH]; [constructor|]. cbn. apply one_line_app; [now apply escape_line|exact IH].
Qed.

Lemma join_line : forall l, Forall one_line l -> one_line (join [44] l).
Proof.
  intros l H. induction H as [|x l Hx H IH]; [constructor|]. destruct l as [|y l]; [exact Hx|].
  change (join [44] (x :: y :: l)) with (x ++ [44] ++ join [44] (y :: l)).
  apply one_line_app; [exact Hx|]. apply one_line_app; [repeat constructor; lia|exact IH].
Qed.

Lemma digits_line : forall n, 0 <= n -> one_line (dec_str n).
Proof. intros n H. eapply Forall_impl; [|exact (dec_str_digits n H)]. intros c D. apply digit_bounds in D. lia. Qed.

Theorem json_line : forall j, json_ok j -> one_line (json_text j).
Proof.
  intros j. induction j as [|x|s|l IH|l IH] using json_tree; intros K; cbn [json_text].
  - vm_compute; repeat constructor; discriminate.
  - unfold int_text. destruct (Z.ltb_spec x 0); [constructor; [lia|]|]; apply digits_line; lia.
  - inversion K; subst. now apply string_line.
  - inversion K as [| | |? Kl|]; subst. apply one_line_app; [repeat constructor; lia|]. apply one_line_app; [|repeat constructor; lia].
    apply join_line. apply Forall_map. rewrite Forall_forall in *. auto.
  - inversion K as [| | | |? Kl]; subst. apply one_line_app; [repeat constructor; lia|]. apply one_line_app; [|repeat constructor; lia].
    apply join_line. apply Forall_map. rewrite Forall_forall in *. intros p J. destruct (Kl p J). 
    apply one_line_app; [now apply string_line|]. apply one_line_app; [repeat constructor; lia|]. now apply IH.
Qed.
