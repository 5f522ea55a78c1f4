(** Panic-freedom of [Table::decode]. *)
From Verif Require Import Base Utf8 RzcobsModel ParserModel ParserProofs DecoderModel DecoderProofs
  PrepareProofs.

(** No string the decoder may have to parse makes the parser panic: the
    timestamp format, every table string, and every ['|']-separated variant of
    a string that is not a log message. *)
Definition parse_safe (s : bytes) : Prop := parse s ForwardsCompatible <> Panic.
Definition table_safe (t : table) : Prop :=
  (forall e, t_timestamp t = Some e -> parse_safe (e_string e)) /\
  (forall i e, lookup_entry i (t_entries t) = Some e -> parse_safe (e_string e)) /\
  (forall i e v, lookup_entry i (t_entries t) = Some e -> tag_level (e_tag e) = None ->
     In v (split_on 124 (e_string e)) -> parse_safe v).

Definition np {A} (m : reader A) : Prop := forall b, m b <> Panic.

Lemma np_bind : forall A B (m : reader A) (f : A -> reader B) (P : A -> Prop),
  np m -> (forall b a r, m b = Ok (a, r) -> P a) -> (forall a, P a -> np (f a)) -> np (rbind m f).
Proof.
  intros A B m f P Hm HP Hf b H. unfold rbind in H.
  apply bind_panic in H as [H|([a r] & H1 & H2)].
  - apply (Hm b H).
  - apply (Hf a (HP _ _ _ H1) _ H2).
Qed.

Lemma np_bind0 : forall A B (m : reader A) (f : A -> reader B),
  np m -> (forall a, np (f a)) -> np (rbind m f).
Proof. intros. apply np_bind with (P := fun _ => True); auto. Qed.

Lemma np_ret : forall A (a : A), np (ret a).
Proof. intros A a b H. discriminate. Qed.
Lemma np_fail : forall A e, np (@fail A e).
Proof. intros A e b H. discriminate. Qed.
Lemma np_read_bytes : forall k, np (read_bytes k).
Proof. intros k b H. unfold read_bytes in H. destruct (k <=? _); discriminate. Qed.
Lemma np_read_u : forall k, np (read_u k).
Proof. intros k. apply np_bind0; auto using np_read_bytes, np_ret. Qed.
Lemma np_read_i : forall k, np (read_i k).
Proof. intros k. apply np_bind0; auto using np_read_u, np_ret. Qed.
Lemma np_lift : forall A (o : option A), np (lift_option o).
Proof. intros A [a|]; [apply np_ret|apply np_fail]. Qed.
Lemma np_get_format : forall t, np (get_format t).
Proof. intros t. apply np_bind0; auto using np_read_u, np_lift. Qed.
Lemma np_if : forall A (c : bool) (x y : reader A), np x -> np y -> np (if c then x else y).
Proof. intros A [] x y; auto. Qed.
Lemma np_get_variant : forall f, has_bar f = true -> np (get_variant f).
Proof.
  intros f H. unfold get_variant. rewrite H. cbn [negb]. destruct (discriminant_width _); [|apply np_fail].
  apply np_bind0; auto using np_read_u, np_lift.
Qed.
Create HintDb npdb.
Global Hint Resolve np_ret np_fail np_read_bytes np_read_u np_read_i np_lift np_get_format np_if : npdb.

Lemma lift_ok : forall A (o : option A) b a r, lift_option o b = Ok (a, r) -> o = Some a /\ r = b.
Proof. intros A [x|] b a r H; cbn in H; inversion H; auto. Qed.

Lemma get_format_ok : forall t b f r, get_format t b = Ok (f, r) ->
  exists i e, lookup_entry i (t_entries t) = Some e /\ tag_level (e_tag e) = None /\ f = e_string e /\
    get_without_level t i = Some f.
Proof.
  intros t b f r H. unfold get_format in H. apply rbind_ok in H as (i & b' & _ & H).
  apply lift_ok in H as [H _]. exists i. pose proof H as H0. unfold get_without_level, get_with_level in H.
  destruct (lookup_entry i (t_entries t)) as [e|]; [|discriminate].
  destruct (tag_level (e_tag e)) eqn:T; inversion H; subst. eauto.
Qed.

Lemma get_variant_in : forall f b v r, get_variant f b = Ok (v, r) -> In v (split_on 124 f).
Proof.
  intros f b v r H. unfold get_variant in H. destruct (negb (has_bar f)); [discriminate|].
  cbv zeta in H. destruct (discriminant_width _); [|discriminate].
  apply rbind_ok in H as (d & b' & _ & H). apply lift_ok in H as [H _].
  unfold nth_variant in H. destruct (d <? _); [|discriminate]. eapply nth_error_In; eauto.
Qed.

Section NP.
  Context (t : table) (Ht : table_safe t) (rec : bytes -> reader (list arg)) (sf : nat).
  Context (Hr : forall f, parse_safe f -> np (rec f)).

  Definition tfmt (f : bytes) : Prop := exists i e,
    lookup_entry i (t_entries t) = Some e /\ tag_level (e_tag e) = None /\ f = e_string e.

  Lemma tfmt_get : forall b f r, get_format t b = Ok (f, r) -> tfmt f.
  Proof.
    intros b f r H. apply get_format_ok in H as (i & e & A & B & C & _).
    exists i, e. auto.
  Qed.

  Lemma tfmt_safe : forall f, tfmt f -> parse_safe f.
  Proof. intros f (i & e & A & B & ->). destruct Ht as (_ & H & _). eauto. Qed.

  Lemma tfmt_variant : forall f v, tfmt f -> In v (split_on 124 f) -> parse_safe v.
  Proof. intros f v (i & e & A & B & ->) Hv. destruct Ht as (_ & _ & H). eauto. Qed.

  Lemma np_choose : forall f, np (if has_bar f then get_variant f else ret f).
  Proof.
    intros f. destruct (has_bar f) eqn:E; auto using np_get_variant with npdb.
  Qed.

  Lemma choose_safe : forall f, tfmt f -> forall b v r,
    (if has_bar f then get_variant f else ret f) b = Ok (v, r) -> parse_safe v.
  Proof.
    intros f Hf b v r H. destruct (has_bar f).
    - apply get_variant_in in H. eapply tfmt_variant; eauto.
    - cbn in H. inversion H; subst. apply tfmt_safe; auto.
  Qed.

  Lemma np_elements : forall n f, tfmt f -> np (decode_elements rec n f (has_bar f)).
  Proof.
    induction n as [|n IH]; intros f Hf; cbn [decode_elements]; auto with npdb.
    apply np_bind with (P := parse_safe); eauto using np_choose, choose_safe.
    intros v Hv. apply np_bind0; auto. intro a. apply np_bind0; auto with npdb.
  Qed.

  Lemma np_slice : forall n, np (decode_format_slice t rec n).
  Proof.
    intro n. apply np_bind with (P := tfmt); eauto using tfmt_get with npdb.
    intros f Hf. apply np_elements. auto.
  Qed.

  Lemma np_sequence : forall n, np (decode_sequence t rec n).
  Proof.
    induction n as [|n IH]; cbn [decode_sequence]; [intros b H; discriminate|].
    apply np_bind0; auto with npdb. intro i. destruct (i =? 0); auto with npdb.
    apply np_bind with (P := parse_safe); auto with npdb.
    - intros b f r H. apply lift_ok in H as [H _]. apply tfmt_safe.
      unfold get_without_level, get_with_level in H.
      destruct (lookup_entry i (t_entries t)) as [e|] eqn:E; [|discriminate].
      destruct (tag_level (e_tag e)) eqn:T; inversion H; subst. exists i, e. auto.
    - intros f Hf. apply np_bind0; auto. intro a. apply np_bind0; auto with npdb.
  Qed.

  Lemma np_ty : forall x, ty_valid x -> np (decode_ty t rec sf x).
  Proof.
    intros x V. destruct x; cbn [decode_ty];
      try (apply np_bind0; [solve [auto with npdb]|intro; auto with npdb]; fail).
    - cbn in V. destruct (bitfield_size_some lo hi) as [n E]; try lia. rewrite E.
      apply np_bind0; auto with npdb.
    - intros b H. destruct (position _ b); try discriminate. destruct (utf8_valid _); discriminate.
    - intros b H. destruct (position _ b); try discriminate. destruct (utf8_valid _); discriminate.
    - apply np_bind0; [apply np_sequence|auto with npdb].
    - apply np_bind with (P := tfmt); eauto using tfmt_get with npdb. intros f Hf.
      apply np_bind with (P := parse_safe); eauto using np_choose, choose_safe.
      intros v Hv. apply np_bind0; auto with npdb.
    - apply np_bind0; [apply np_slice|auto with npdb].
    - apply np_bind0; auto with npdb. intro n. apply np_bind0; [apply np_slice|auto with npdb].
    - apply np_bind0; auto with npdb. intro i. apply np_bind0; auto with npdb.
    - apply np_bind0; auto with npdb. intro i. apply np_bind0; auto with npdb.
    - apply np_bind0; auto with npdb. intro i. apply np_bind0; auto with npdb.
  Qed.

  Lemma np_params : forall ps, Forall (fun p => ty_valid (p_ty p)) ps -> np (decode_params t rec sf ps).
  Proof.
    induction 1 as [|p ps Hp Hps IH]; cbn [decode_params]; auto with npdb.
    apply np_bind0; [apply np_ty; auto|]. intro a. apply np_bind0; auto with npdb.
  Qed.
End NP.

Lemma prepare_valid : forall s m fs, parse s m = Ok fs ->
  Forall (fun p => ty_valid (p_ty p)) (prepare_params (params_of fs)).
Proof.
  intros s m fs H. apply parse_parsed_ok in H as (n & H). rewrite params_of_frag.
  destruct (prepare_spec _ _ H) as [_ W]. eapply Forall_impl; [|exact W].
  intros p Hp. exact (wire_ty_valid _ _ _ _ H Hp).
Qed.

Lemma np_decode_format : forall t, table_safe t -> forall fuel f, parse_safe f -> np (decode_format t fuel f).
Proof.
  intros t Ht. induction fuel as [|fuel IH]; intros f Hf; cbn [decode_format]; [intros b H; discriminate|].
  destruct (parse f ForwardsCompatible) eqn:E.
  - apply np_params; auto. eapply prepare_valid; eauto.
  - apply np_fail.
  - contradiction.
  - intros b H; discriminate.
Qed.

Lemma decode_no_panic : forall t b, table_safe t -> decode t b <> Panic.
Proof.
  intros t b Ht H. unfold decode in H.
  destruct (decode_fuel t (S (length b)) b) as [[f r]| | |] eqn:E; try discriminate.
  revert E. apply (fun X : np (decode_fuel t (S (length b))) => X b). clear H.
  unfold decode_fuel. apply np_bind0; auto with npdb. intro i.
  apply np_bind0.
  - destruct (t_timestamp t) as [e|] eqn:E; auto with npdb. apply np_bind0; auto with npdb.
    apply np_decode_format; auto. apply Ht; auto.
  - intro ts. apply np_bind with (P := fun lf => parse_safe (snd lf)); auto with npdb.
    + intros b' lf r H. apply lift_ok in H as [H _]. unfold get_with_level in H.
      destruct (lookup_entry i (t_entries t)) as [e|] eqn:E; inversion H; subst. cbn.
      destruct Ht as (_ & Ht & _). eauto.
    + intros lf Hlf. apply np_bind0; auto with npdb. apply np_decode_format; auto.
Qed.

Lemma decode_total : forall t b, table_safe t ->
  (exists f n, decode t b = Ok (f, n)) \/ decode t b = Err UnexpectedEof \/ decode t b = Err Malformed.
Proof.
  intros t b Ht. pose proof (decode_no_panic t b Ht). pose proof (decode_no_fuel t b).
  destruct (decode t b) as [[f n]|[]| |]; try contradiction; eauto.
Qed.
