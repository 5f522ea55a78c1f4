(** Displaying decoded frames (C37-C39). *)
From Verif Require Import Base Utf8 ParserModel ParserProofs FormatSpec DecoderModel DecoderProofs DecoderPanic PrepareProofs
  Numerals EncodeModel EncodeSpec EncodeProofs DisplayModel DisplayProofs.

(* ------------------------------------------------------------------ *)
(** * Texts *)

Lemma concat_text_some : forall l s, concat_text l = Some s <-> exists ps, l = map Some ps /\ s = concat ps.
Proof.
  induction l as [|[a|] l IH]; intros s; cbn [concat_text].
  - split. { intros E. injection E as <-. exists []. auto. }
    intros ([|] & E & ->); [reflexivity|discriminate].
  - destruct (concat_text l) as [r|] eqn:E.
    + destruct (proj1 (IH r) eq_refl) as (ps & -> & ->). split.
      * intros X. injection X as <-. exists (a :: ps). auto.
      * intros ([|b qs] & X & ->); [discriminate|]. cbn [map] in X. injection X as -> X.
        cbn [concat]. do 2 f_equal.
        assert (Y : Some (concat ps) = Some (concat qs)) by (apply IH; exists qs; split; auto).
        now injection Y as ->.
    + split; [discriminate|]. intros ([|b qs] & X & ->); [discriminate|]. cbn [map] in X. injection X as -> ->.
      assert (Y : None = Some (concat qs)) by (apply IH; exists qs; auto). discriminate.
  - split; [discriminate|]. intros ([|b qs] & X & _); discriminate.
Qed.

Lemma concat_text_total : forall l, Forall (fun t => t <> None) l -> concat_text l <> None.
Proof.
  induction 1 as [|[s|] l H1 H2 IH]; cbn [concat_text]; try congruence.
  destruct (concat_text l); congruence.
Qed.

Lemma join_texts_total : forall l, Forall (fun t => t <> None) l -> join_texts l <> None.
Proof.
  induction 1 as [|[s|] l H1 H2 IH]; cbn [join_texts]; try congruence.
  destruct l as [|t l]; [congruence|]. destruct (join_texts (t :: l)); congruence.
Qed.

(* ------------------------------------------------------------------ *)
(** * Induction over arguments *)

Section ArgInd.
  Context (P : arg -> Prop)
    (Hleaf : forall a, match a with AFormat _ _ | AFormatSlice _ | AFormatSequence _ => True | _ => P a end)
    (Hfmt : forall f args, Forall P args -> P (AFormat f args))
    (Hslice : forall es, Forall (fun e => Forall P (snd e)) es -> P (AFormatSlice es))
    (Hseq : forall args, Forall P args -> P (AFormatSequence args)).

  Fixpoint arg_induction (a : arg) : P a :=
    let fix go (l : list arg) : Forall P l :=
      match l with
      | [] => Forall_nil _
      | x :: l' => Forall_cons x (arg_induction x) (go l')
      end in
    match a return P a with
    | AFormat f args => Hfmt f args (go args)
    | AFormatSequence args => Hseq args (go args)
    | AFormatSlice es =>
        Hslice es ((fix goes (l : list (bytes * list arg)) : Forall (fun e => Forall P (snd e)) l :=
          match l with
          | [] => Forall_nil _
          | e :: l' => Forall_cons e (go (snd e)) (goes l')
          end) es)
    | ABool b => Hleaf (ABool b)
    | AF32 x => Hleaf (AF32 x)
    | AF64 x => Hleaf (AF64 x)
    | AUxx x => Hleaf (AUxx x)
    | AIxx x => Hleaf (AIxx x)
    | AStr s => Hleaf (AStr s)
    | AIStr s => Hleaf (AIStr s)
    | ASlice s => Hleaf (ASlice s)
    | AChar c => Hleaf (AChar c)
    | APreformatted s => Hleaf (APreformatted s)
    end.
End ArgInd.

(* ------------------------------------------------------------------ *)
(** * Shape of decoded arguments *)

Section All2.
  Context {A B : Type} (P : A -> B -> Prop).
  Fixpoint all2 (l : list A) (m : list B) {struct m} : Prop :=
    match l, m with
    | [], [] => True
    | a :: l', b :: m' => P a b /\ all2 l' m'
    | _, _ => False
    end.
End All2.

Section AllP.
  Context {A : Type} (P : A -> Prop).
  Fixpoint allp (l : list A) : Prop := match l with [] => True | a :: l' => P a /\ allp l' end.
End AllP.

Lemma allp_forall : forall A (P : A -> Prop) l, allp P l <-> Forall P l.
Proof.
  induction l as [|a l IH]; cbn [allp]; split; intros H; auto.
  - destruct H. constructor; auto. apply IH. auto.
  - inversion H; subst. split; auto. apply IH. auto.
Qed.

Lemma all2_nth : forall A B (P : A -> B -> Prop) l m i a, all2 P l m -> nth_error l i = Some a ->
  exists b, nth_error m i = Some b /\ P a b.
Proof.
  induction l as [|x l IH]; intros [|y m] i a H N; cbn [all2] in H; try contradiction; destruct i; cbn in N; try discriminate.
  - injection N as <-. exists y. split; [reflexivity|apply H].
  - apply IH with (m := m) in N; [|apply H]. exact N.
Qed.

Lemma all2_length : forall A B (P : A -> B -> Prop) l m, all2 P l m -> length l = length m.
Proof. induction l as [|x l IH]; intros [|y m] H; cbn in *; try contradiction; auto. f_equal. apply IH, H. Qed.

Definition wire_types (frags : list fragment) : list ty := map p_ty (prepare_params (params_of frags)).

Section Shape.
  (** [Q]: strings that may occur as nested format strings; [N]: alternatives are not ["{=u8}"]. *)
  Context (Q : bytes -> Prop) (N : Prop).

  Definition u8_str : bytes := lit "{=u8}".

  Fixpoint arg_ok (t : ty) (a : arg) {struct a} : Prop :=
    match a with
    | ABool _ => t = TBool
    | AF32 _ => t = TF32
    | AF64 _ => t = TF64
    | AUxx x => match t with TU w => 0 <= x < 2 ^ (8 * Z.of_nat (width_bytes w)) | TUsize | TBitField _ _ => True | _ => False end
    | AIxx x => match t with TI _ | TIsize => True | _ => False end
    | AStr _ => t = TStr
    | AIStr _ => t = TIStr
    | APreformatted _ => t = TDebug \/ t = TDisplay
    | ASlice s => bytes_ok s /\ match t with TU8Slice | TU8Array _ => True | _ => False end
    | AChar c => t = TChar /\ is_scalar c = true
    | AFormat f args => t = TFormat /\ Q f /\
        exists frags, parse f ForwardsCompatible = Ok frags /\ all2 arg_ok (wire_types frags) args
    | AFormatSequence args => t = TFormatSequence /\ allp (arg_ok TFormat) args
    | AFormatSlice es =>
        match t with TFormatSlice | TFormatArray _ => True | _ => False end /\
        (N -> existsb (fun e => beq (fst e) u8_str) es = true -> Forall (fun e => fst e = u8_str) es) /\
        allp (fun e => Q (fst e) /\
          exists frags, parse (fst e) ForwardsCompatible = Ok frags /\ all2 arg_ok (wire_types frags) (snd e)) es
    end.

  Definition format_ok (f : bytes) (args : list arg) : Prop :=
    exists frags, parse f ForwardsCompatible = Ok frags /\ all2 arg_ok (wire_types frags) args.
End Shape.

(** [yields m P]: on bytes, results of [m] satisfy [P]. *)
Definition yields {A} (m : reader A) (P : A -> Prop) : Prop :=
  forall b a r, bytes_ok b -> m b = Ok (a, r) -> P a /\ bytes_ok r.

Lemma yields_bind : forall A B (m : reader A) (f : A -> reader B) P R,
  yields m P -> (forall a, P a -> yields (f a) R) -> yields (rbind m f) R.
Proof.
  intros A B m f P R H1 H2 b c r Hb E. apply rbind_ok in E as (a & b' & E1 & E2).
  destruct (H1 _ _ _ Hb E1) as [Pa Hb']. exact (H2 a Pa _ _ _ Hb' E2).
Qed.

Lemma yields_ret : forall A (a : A) (P : A -> Prop), P a -> yields (ret a) P.
Proof. intros A a P H b c r Hb E. injection E as -> ->. auto. Qed.

Lemma yields_fail : forall A e (P : A -> Prop), yields (fail e) P.
Proof. intros A e P b c r Hb E. discriminate. Qed.

Lemma yields_impl : forall A (m : reader A) (P R : A -> Prop), yields m P -> (forall a, P a -> R a) -> yields m R.
Proof. intros A m P R H I b a r Hb E. destruct (H _ _ _ Hb E). auto. Qed.

Lemma yields_bytes : forall n, 0 <= n -> yields (read_bytes n) (fun s => bytes_ok s /\ Z.of_nat (length s) = n).
Proof.
  intros n Hn b s r Hb E. apply read_bytes_length in E as (_ & L & ->); auto.
  apply Forall_app in Hb as [H1 H2]. auto.
Qed.

Lemma le_value_bound : forall l, bytes_ok l -> 0 <= le_value l < 256 ^ Z.of_nat (length l).
Proof.
  induction l as [|x l IH]; intros H; [cbn; lia|]. inversion H as [|? ? Hx Hl]; subst. specialize (IH Hl).
  cbn [le_value length]. rewrite Nat2Z.inj_succ, Z.pow_succ_r by lia. unfold byte_ok in Hx. lia.
Qed.

Lemma yields_u : forall n, yields (read_u n) (fun x => 0 <= x < 256 ^ Z.of_nat n).
Proof.
  intros n b x r Hb E. apply read_u_inv in E as (l & -> & <- & ->).
  apply Forall_app in Hb as [H1 H2]. split; auto. apply le_value_bound. auto.
Qed.

Lemma yields_i : forall n, yields (read_i n) (fun _ => True).
Proof. intros n. eapply yields_bind; [apply yields_u|]. intros a _. apply yields_ret. auto. Qed.

Lemma yields_lift : forall A (o : option A), yields (lift_option o) (fun a => o = Some a).
Proof. intros A [a|]; [apply yields_ret; auto|apply yields_fail]. Qed.

Lemma pow_width : forall n, 256 ^ Z.of_nat n = 2 ^ (8 * Z.of_nat n).
Proof. intros n. rewrite Z.pow_mul_r by lia. reflexivity. Qed.

Section Decoded.
  Context (tbl : table).

  (** Strings a frame of this table can contain: entries and their alternatives. *)
  Definition table_string (f : bytes) : Prop :=
    (exists e, t_timestamp tbl = Some e /\ f = e_string e) \/
    exists i e, lookup_entry i (t_entries tbl) = Some e /\
      (f = e_string e \/ In f (split_on 124 (e_string e))).

  (** No alternative is exactly ["{=u8}"]. *)
  Definition no_u8_variant : Prop := forall i e, lookup_entry i (t_entries tbl) = Some e ->
    has_bar (e_string e) = true -> ~ In u8_str (split_on 124 (e_string e)).

  Notation ok := (arg_ok table_string no_u8_variant).

  Lemma yields_format : yields (get_format tbl) (fun f => exists i e, lookup_entry i (t_entries tbl) = Some e /\ f = e_string e).
  Proof.
    unfold get_format. eapply yields_bind; [apply yields_u|]. intros i _.
    eapply yields_impl; [apply yields_lift|]. intros f E. unfold get_without_level, get_with_level in E.
    destruct (lookup_entry i (t_entries tbl)) as [e|] eqn:L; [|discriminate].
    destruct (tag_level (e_tag e)); [discriminate|]. injection E as <-. eauto.
  Qed.

  Lemma yields_variant : forall f, yields (get_variant f) (fun v => In v (split_on 124 f)).
  Proof.
    intros f. unfold get_variant. destruct (has_bar f); cbn [negb].
    - destruct (discriminant_width _); [|apply yields_fail]. eapply yields_bind; [apply yields_u|]. intros d _.
      eapply yields_impl; [apply yields_lift|]. intros v E. unfold nth_variant in E. cbv zeta in E.
      destruct (_ <? _); [|discriminate]. eapply nth_error_In; eauto.
    - intros b a r _ E. discriminate.
  Qed.

  Section Nested.
    Context (rec : bytes -> reader (list arg)) (sf : nat).
    Context (Hrec : forall f, yields (rec f) (format_ok table_string no_u8_variant f)).

    Lemma yields_elements : forall n f e, yields (decode_elements rec n f e) (fun es =>
      Forall (fun el => (if e then In (fst el) (split_on 124 f) else fst el = f) /\ format_ok table_string no_u8_variant (fst el) (snd el)) es).
    Proof.
      induction n as [|n IH]; intros f e; cbn [decode_elements]; [apply yields_ret; constructor|].
      apply yields_bind with (P := fun v => if e then In v (split_on 124 f) else v = f).
      { destruct e; [apply yields_variant|apply yields_ret; auto]. }
      intros v Hv. eapply yields_bind; [apply Hrec|]. intros args Ha.
      eapply yields_bind; [apply IH|]. intros es He. apply yields_ret. constructor; auto.
    Qed.

    Lemma yields_slice : forall n t, match t with TFormatSlice | TFormatArray _ => True | _ => False end ->
      yields (decode_format_slice tbl rec n) (fun es => ok t (AFormatSlice es)).
    Proof.
      intros n t Ht. unfold decode_format_slice. eapply yields_bind; [apply yields_format|].
      intros f (i & e & L & ->). eapply yields_impl; [apply yields_elements|]. intros es H.
      cbn [arg_ok]. split; [exact Ht|]. split.
      - intros NV X. apply existsb_exists in X as (x & Hx & X). apply beq_true in X.
        rewrite Forall_forall in H. pose proof (H x Hx) as [Y _].
        destruct (has_bar (e_string e)) eqn:B.
        + exfalso. apply (NV i e L B). now rewrite <- X.
        + apply Forall_forall. intros y Hy. destruct (H y Hy) as [-> _]. congruence.
      - apply allp_forall. eapply Forall_impl; [|exact H]. cbn beta. intros x [H1 H2]. split; [|exact H2].
        right. exists i, e. split; auto. destruct (has_bar (e_string e)); auto.
    Qed.

    Lemma yields_sequence : forall n, yields (decode_sequence tbl rec n) (fun args => Forall (ok TFormat) args).
    Proof.
      induction n as [|n IH]; cbn [decode_sequence]; [intros b a r _ E; discriminate|].
      eapply yields_bind; [apply yields_u|]. intros i _. destruct (i =? 0); [apply yields_ret; constructor|].
      eapply yields_bind; [apply yields_lift|]. intros f E.
      eapply yields_bind; [apply Hrec|]. intros args Ha. eapply yields_bind; [apply IH|]. intros rest Hr.
      apply yields_ret. constructor; auto. cbn [arg_ok]. split; auto. split; [|exact Ha].
      unfold get_without_level, get_with_level in E.
      destruct (lookup_entry i (t_entries tbl)) as [e|] eqn:L; [|discriminate].
      destruct (tag_level (e_tag e)); [discriminate|]. injection E as <-. right. eauto.
    Qed.

    Lemma yields_ty : forall t, ty_valid t -> yields (decode_ty tbl rec sf t) (ok t).
    Proof.
      intros t V. destruct t; cbn [decode_ty].
      - destruct (bitfield_size lo hi); [|intros b a r _ E; discriminate].
        eapply yields_bind; [apply yields_u|]. intros x _. apply yields_ret. cbn. auto.
      - eapply yields_bind; [apply yields_u|]. intros x _.
        destruct (x =? 0); [apply yields_ret; reflexivity|]. destruct (x =? 1); [apply yields_ret; reflexivity|apply yields_fail].
      - eapply yields_bind; [apply yields_u|]. intros x _. destruct (is_scalar x) eqn:S; [|apply yields_fail].
        apply yields_ret. cbn. auto.
      - intros b a r Hb E. destruct (position _ b) as [e|]; [|discriminate]. cbv zeta in E.
        destruct (utf8_valid (firstn e b)); [|discriminate]. injection E as <- <-. split; [cbn; auto|].
        rewrite <- (firstn_skipn (S e) b) in Hb. apply Forall_app in Hb. apply Hb.
      - intros b a r Hb E. destruct (position _ b) as [e|]; [|discriminate]. cbv zeta in E.
        destruct (utf8_valid (firstn e b)); [|discriminate]. injection E as <- <-. split; [cbn; auto|].
        rewrite <- (firstn_skipn (S e) b) in Hb. apply Forall_app in Hb. apply Hb.
      - eapply yields_bind; [apply yields_sequence|]. intros args Ha. apply yields_ret. cbn [arg_ok].
        split; auto. apply allp_forall. auto.
      - eapply yields_bind; [apply yields_u|]. intros x _. apply yields_ret. reflexivity.
      - eapply yields_bind; [apply yields_u|]. intros x _. apply yields_ret. reflexivity.
      - eapply yields_bind; [apply yields_format|]. intros f (i & e & L & ->).
        apply yields_bind with (P := fun v => v = e_string e \/ In v (split_on 124 (e_string e))).
        { destruct (has_bar (e_string e)); [|apply yields_ret; auto].
          eapply yields_impl; [apply yields_variant|]. auto. }
        intros v Hv. eapply yields_bind; [apply Hrec|]. intros args Ha. apply yields_ret.
        cbn [arg_ok]. split; auto. split; [|exact Ha]. right. eauto.
      - eapply yields_bind; [apply (yields_slice _ (TFormatArray len)); exact I|]. intros es H. apply yields_ret. exact H.
      - eapply yields_bind; [apply yields_u|]. intros x _.
        eapply yields_bind; [apply (yields_slice _ TFormatSlice); exact I|]. intros es H. apply yields_ret. exact H.
      - eapply yields_bind; [apply yields_i|]. intros x _. apply yields_ret. cbn. auto.
      - eapply yields_bind; [apply yields_i|]. intros x _. apply yields_ret. cbn. auto.
      - eapply yields_bind; [apply yields_u|]. intros x _. eapply yields_bind; [apply yields_lift|]. intros s _.
        apply yields_ret. reflexivity.
      - eapply yields_bind; [apply yields_u|]. intros n Hn. cbn beta in Hn. eapply yields_bind; [apply yields_bytes; lia|]. intros s _.
        destruct (utf8_valid s); [apply yields_ret; reflexivity|apply yields_fail].
      - eapply yields_bind; [apply yields_u|]. intros x Hx. apply yields_ret. cbn beta in Hx. cbn [arg_ok]. rewrite pow_width in Hx. exact Hx.
      - eapply yields_bind; [apply yields_u|]. intros x _. apply yields_ret. cbn. auto.
      - eapply yields_bind; [apply yields_u|]. intros n Hn. cbn beta in Hn. eapply yields_bind; [apply yields_bytes; lia|]. intros s Hs.
        apply yields_ret. cbn. split; auto. apply Hs.
      - cbn [ty_valid] in V. eapply yields_bind; [apply yields_bytes; lia|]. intros s Hs.
        apply yields_ret. cbn. split; auto. apply Hs.
    Qed.

    Lemma yields_params : forall ps, Forall (fun p => ty_valid (p_ty p)) ps ->
      yields (decode_params tbl rec sf ps) (fun args => all2 ok (map p_ty ps) args).
    Proof.
      induction ps as [|p ps IH]; intros V; cbn [decode_params]; [apply yields_ret; exact I|].
      inversion V; subst. eapply yields_bind; [apply yields_ty; auto|]. intros a Ha.
      eapply yields_bind; [apply IH; auto|]. intros rest Hr. apply yields_ret. cbn [map all2]. auto.
    Qed.
  End Nested.

  Lemma prepare_valid_fc : forall f frags, parse f ForwardsCompatible = Ok frags ->
    Forall (fun p => ty_valid (p_ty p)) (prepare_params (params_of frags)).
  Proof. intros f frags H. eapply prepare_valid; eauto. Qed.

  Lemma yields_decode_format : forall fuel f, yields (decode_format tbl fuel f) (format_ok table_string no_u8_variant f).
  Proof.
    induction fuel as [|fuel IH]; intros f; cbn [decode_format]; [intros b a r _ E; discriminate|].
    destruct (parse f ForwardsCompatible) as [frags|e| |] eqn:E; [|apply yields_fail|intros b a r _ X; discriminate|intros b a r _ X; discriminate].
    eapply yields_impl; [apply yields_params; [exact IH|eapply prepare_valid_fc; eauto]|].
    intros args H. exists frags. auto.
  Qed.

  (** Every decoded frame is well-formed. *)
  Lemma decode_shape : forall b fr n, bytes_ok b -> decode tbl b = Ok (fr, n) ->
    table_string (f_format fr) /\ format_ok table_string no_u8_variant (f_format fr) (f_args fr) /\
    match f_timestamp_format fr with
    | Some f => table_string f /\ format_ok table_string no_u8_variant f (f_timestamp_args fr)
    | None => True
    end.
  Proof.
    intros b fr n Hb E. unfold decode in E.
    destruct (decode_fuel tbl (S (length b)) b) as [[fr' r]|e| |] eqn:D; try discriminate.
    injection E as -> _. revert D.
    assert (Y : yields (decode_fuel tbl (S (length b))) (fun fr =>
      table_string (f_format fr) /\ format_ok table_string no_u8_variant (f_format fr) (f_args fr) /\
      match f_timestamp_format fr with
      | Some f => table_string f /\ format_ok table_string no_u8_variant f (f_timestamp_args fr)
      | None => True
      end)).
    { unfold decode_fuel. eapply yields_bind; [apply yields_u|]. intros index _.
      apply yields_bind with (P := fun ts => match fst ts with
        | Some f => table_string f /\ format_ok table_string no_u8_variant f (snd ts) | None => True end).
      { destruct (t_timestamp tbl) as [e|] eqn:T; [|apply yields_ret; exact I].
        eapply yields_bind; [apply yields_decode_format|]. intros a Ha. apply yields_ret. cbn [fst snd].
        split; [left; eauto|exact Ha]. }
      intros [tf ta] Hts. cbn [fst snd] in *. eapply yields_bind; [apply yields_lift|]. intros [l f] L.
      eapply yields_bind; [apply yields_decode_format|]. intros args Ha. cbn [fst snd] in *. apply yields_ret. cbn.
      split; [|auto]. unfold get_with_level in L. destruct (lookup_entry index (t_entries tbl)) as [e|] eqn:LE; [|discriminate].
      injection L as _ <-. right. eauto. }
    intros D. destruct (Y _ _ _ Hb D). auto.
  Qed.
End Decoded.

(* ------------------------------------------------------------------ *)
(** * Displaying never panics (C38) *)

(** The parameter at an index has the argument's wire type, up to bit ranges. *)
Lemma wire_type_at : forall f frags p, parse f ForwardsCompatible = Ok frags -> In p (params_of frags) ->
  exists t, nth_error (wire_types frags) (Z.to_nat (p_index p)) = Some t /\ compatible t (p_ty p) /\ ty_valid (p_ty p).
Proof.
  intros f frags p E Hp. apply parse_parsed_ok in E as (n & H). rewrite params_of_frag in Hp.
  destruct (prepare_spec _ _ H) as [H1 H2]. pose proof (po_range _ _ H p Hp) as R.
  unfold wire_types. rewrite params_of_frag.
  set (qs := prepare_params (frag_params frags)) in *.
  assert (L : length qs = Z.to_nat n). { rewrite <- (map_length p_index qs), H1, map_length, seq_length. reflexivity. }
  destruct (nth_error qs (Z.to_nat (p_index p))) as [q|] eqn:N.
  2:{ apply nth_error_None in N. lia. }
  exists (p_ty q). split; [now apply map_nth_error|]. split; [|apply (po_valid _ _ H); auto].
  assert (I : p_index q = p_index p).
  { pose proof (map_nth_error p_index _ _ N) as N'. rewrite H1 in N'.
    rewrite (map_nth_error Z.of_nat (Z.to_nat (p_index p)) _ (d := Z.to_nat (p_index p))) in N'.
    - injection N' as N'. lia.
    - rewrite (nth_error_nth' _ O) by (rewrite seq_length; lia). now rewrite seq_nth by lia. }
  rewrite Forall_forall in H2. apply nth_error_In in N. specialize (H2 q N).
  destruct H2 as [(_ & p' & P1 & P2 & P3)|(lo & hi & P1 & (p' & hi' & P2 & P3 & P4) & _)].
  - rewrite <- P3. apply (po_types _ _ H); auto. congruence.
  - rewrite P1. pose proof (po_types _ _ H p' p P2 Hp ltac:(congruence)) as C.
    eapply compatible_trans; [|exact C]. rewrite P4. right. auto.
Qed.

Section Total.
  Context (X : externals) (tbl : table) (Q : bytes -> Prop) (NB : Prop) (NV : NB) (hex : bool).

  Definition hint_ok (h : option hint) : Prop :=
    match h with
    | Some (HIso8601 _) => False
    | Some (HHex _ _ _) => hex = true
    | _ => True
    end.

  Definition parameter_ok (p : parameter) : Prop :=
    hint_ok (p_hint p) /\ (p_ty p = TIsize -> hex = false).

  Definition string_ok (f : bytes) : Prop := forall frags, parse f ForwardsCompatible = Ok frags ->
    Forall parameter_ok (params_of frags).

  Context (HQ : forall f, Q f -> string_ok f).

  Definition shows_ok (a : arg) : Prop := forall t p parent, arg_ok Q NB t a -> compatible t (p_ty p) ->
    ty_valid (p_ty p) -> parameter_ok p -> hint_ok parent -> show_arg X tbl a p parent <> None.

  Lemma or_hint_ok : forall p parent, parameter_ok p -> hint_ok parent -> hint_ok (or_hint (p_hint p) parent).
  Proof. intros p parent [H _] H'. unfold or_hint. destruct (p_hint p); auto. Qed.

  Lemma params_of_in : forall p frags, In (FParam p) frags -> In p (params_of frags).
  Proof.
    induction frags as [|[s|q] fs IH]; cbn; intros H; auto.
    - destruct H as [H|H]; [discriminate|auto].
    - destruct H as [H|H]; [injection H as ->; auto|auto].
  Qed.

  Lemma show_format_ok : forall f args parent, string_ok f -> format_ok Q NB f args -> Forall shows_ok args -> hint_ok parent ->
    show_format f (map (show_arg X tbl) args) parent <> None.
  Proof.
    intros f args parent SO (frags & E & A) HA HP. unfold show_format. rewrite E. apply concat_text_total.
    apply Forall_map, Forall_forall. intros [s|p] Hp; cbn [show_fragment]; [discriminate|].
    apply params_of_in in Hp. destruct (wire_type_at _ _ _ E Hp) as (t & N & C & V).
    destruct (all2_nth _ _ _ _ _ _ _ A N) as (a & Na & Ha).
    rewrite (map_nth_error _ _ _ Na). rewrite Forall_forall in HA. specialize (SO frags E).
    rewrite Forall_forall in SO.
    apply (HA a (nth_error_In _ _ Na) t p parent); auto.
  Qed.

  Lemma select_bits_total : forall x lo hi, 0 <= lo -> lo < hi -> hi <= 128 -> select_bits x lo hi <> None.
  Proof.
    intros x lo hi H1 H2 H3. unfold select_bits.
    replace ((0 <=? 128 - hi) && (128 - hi <? 128) && (0 <=? 128 - hi + lo) && (128 - hi + lo <? 128)) with true; [discriminate|].
    symmetry. rewrite !andb_true_iff. lia.
  Qed.

  Lemma show_uxx_total : forall x p parent, ty_valid (p_ty p) -> parameter_ok p -> hint_ok parent ->
    show_uxx X tbl x p parent <> None.
  Proof.
    intros x p parent V HP Hh. unfold show_uxx. cbv zeta. pose proof (or_hint_ok p parent HP Hh) as O.
    destruct (p_ty p); cbn [ty_valid] in V;
      try (destruct (or_hint (p_hint p) parent) as [[]|]; try contradiction; discriminate).
    pose proof (select_bits_total x lo hi) as S. destruct (select_bits x lo hi); [|intuition].
    destruct (or_hint (p_hint p) parent) as [[]|]; discriminate.
  Qed.

  Lemma u8_format : forall args, format_ok Q NB u8_str args -> exists x, args = [AUxx x] /\ 0 <= x < 256.
  Proof.
    intros args (frags & E & A).
    assert (P : exists fs, parse u8_str ForwardsCompatible = Ok fs /\ wire_types fs = [TU W8]).
    { eexists. split; vm_compute; reflexivity. }
    destruct P as (fs & E' & W). rewrite E in E'. injection E' as ->. rewrite W in A.
    destruct args as [|a [|]]; cbn [all2] in A; try tauto.
    destruct A as [A _]. destruct a; cbn [arg_ok] in A;
      try (exfalso; intuition discriminate).
    exists x. split; auto.
  Qed.

  Lemma element_bytes_total : forall es, Forall (fun e => fst e = u8_str) es ->
    Forall (fun e => format_ok Q NB (fst e) (snd e)) es -> element_bytes es <> None.
  Proof.
    induction es as [|[f args] es IH]; intros H1 H2; cbn [element_bytes]; [discriminate|].
    inversion H1; inversion H2; subst. cbn [fst snd] in *. subst f.
    destruct (u8_format args) as (x & -> & B); auto.
    replace ((0 <=? x) && (x <? 256)) with true by (symmetry; rewrite andb_true_iff; lia).
    specialize (IH ltac:(assumption) ltac:(assumption)). destruct (element_bytes es); [discriminate|congruence].
  Qed.

  Definition display_parameter : parameter := MkParameter 0 TFormat None.

  Lemma sequence_string : parse (lit "{=?}") ForwardsCompatible = Ok [FParam display_parameter].
  Proof. vm_compute. reflexivity. Qed.

  Lemma show_total : forall a, shows_ok a.
  Proof.
    apply arg_induction.
    - intros a. destruct a; try exact I; intros t p parent A C V HP Hh; cbn [show_arg]; cbv zeta; try discriminate.
      + apply show_uxx_total; auto.
      + pose proof (or_hint_ok p parent HP Hh) as O. unfold format_i128.
        destruct (or_hint (p_hint p) parent) as [[]|]; try discriminate.
        cbn [arg_ok] in A. destruct C as [C|[C _]].
        * rewrite <- C. destruct t; try contradiction; try discriminate.
          destruct HP as [_ HP]. cbn in O. rewrite HP in O by auto. discriminate.
        * destruct t; try contradiction; discriminate.
    - intros f args HA t p parent (_ & Qf & A) C V HP Hh. cbn [show_arg]. cbv zeta.
      apply show_format_ok; auto. destruct (is_ascii_hint parent); auto. apply or_hint_ok; auto.
    - intros es HE t p parent A C V HP Hh. cbn [show_arg]. cbv zeta. cbn [arg_ok] in A.
      destruct A as (_ & A1 & A2). apply allp_forall in A2.
      pose proof (or_hint_ok p parent HP Hh) as O. set (h := or_hint (p_hint p) parent) in *.
      fold u8_str.
      destruct (is_ascii_hint h && existsb _ es) eqn:B.
      + apply andb_prop in B as [_ B].
        pose proof (element_bytes_total es (A1 NV B)) as T.
        destruct (element_bytes es); [discriminate|]. exfalso. apply T; auto.
        eapply Forall_impl; [|exact A2]. cbn beta. intros e [_ H]. exact H.
      + pose proof (join_texts_total (map (fun e => show_format (fst e) (map (show_arg X tbl) (snd e)) h) es)) as T.
        destruct (join_texts _); [discriminate|]. exfalso. apply T; auto.
        apply Forall_map, Forall_forall. intros e He. rewrite Forall_forall in HE, A2.
        destruct (A2 e He) as [Qf F]. apply show_format_ok; auto.
    - intros args HA t p parent A C V HP Hh. cbn [show_arg]. cbv zeta. cbn [arg_ok] in A.
      destruct A as [_ A]. apply allp_forall in A. apply concat_text_total, Forall_map, Forall_forall. intros a Ha.
      rewrite Forall_forall in HA, A. unfold show_format. rewrite sequence_string.
      apply concat_text_total. constructor; [|constructor]. cbn.
      apply (HA a Ha TFormat); auto.
      + left. reflexivity.
      + exact I.
      + split; [exact I|]. cbn. discriminate.
      + apply or_hint_ok; auto.
  Qed.
End Total.

(** A table is [displayable] when no parameter of its strings is a timestamp in ISO
    8601 form, and it does not use both hexadecimal hints and [isize] parameters. *)
Definition table_parameter (tbl : table) (p : parameter) : Prop :=
  exists f frags, table_string tbl f /\ parse f ForwardsCompatible = Ok frags /\ In (FParam p) frags.

Definition displayable (tbl : table) : Prop :=
  (forall p prec, table_parameter tbl p -> p_hint p <> Some (HIso8601 prec)) /\
  ((forall p alt up w, table_parameter tbl p -> p_hint p <> Some (HHex alt up w)) \/
   (forall p, table_parameter tbl p -> p_ty p <> TIsize)) /\
  no_u8_variant tbl.

Lemma in_params_of : forall p frags, In p (params_of frags) -> In (FParam p) frags.
Proof.
  induction frags as [|[s|q] fs IH]; cbn; intros H; auto.
  destruct H as [->|H]; auto.
Qed.

Lemma displayable_strings : forall tbl, displayable tbl -> exists hex, forall f, table_string tbl f -> string_ok hex f.
Proof.
  intros tbl (H1 & [H2|H2] & _); [exists false|exists true]; intros f Hf frags E; apply Forall_forall; intros p Hp;
    apply in_params_of in Hp; assert (T : table_parameter tbl p) by (exists f, frags; auto); split; auto.
  - specialize (H1 p). specialize (H2 p). destruct (p_hint p) as [[]|]; cbn; auto;
      [exfalso; eapply H2; eauto|eapply H1; eauto].
  - specialize (H1 p). destruct (p_hint p) as [[]|]; cbn; auto. eapply H1; eauto.
  - intros E'. exfalso. eapply H2; eauto.
Qed.

(** Every frame decoded with a displayable table can be displayed. *)
Theorem display_total : forall X tbl b fr n colored, displayable tbl -> bytes_ok b -> decode tbl b = Ok (fr, n) ->
  display_message X tbl fr <> None /\ display_timestamp X tbl fr <> Some None /\ display_frame X tbl colored fr <> None.
Proof.
  intros X tbl b fr n colored D Hb E. destruct (displayable_strings tbl D) as (hex & SO).
  destruct (decode_shape tbl b fr n Hb E) as (T & F & TS).
  assert (M : display_message X tbl fr <> None).
  { unfold display_message, format_args. eapply (show_format_ok X tbl (table_string tbl) (no_u8_variant tbl) hex); eauto; [|exact I].
    apply Forall_forall. intros a _. now apply (show_total X tbl _ _ (proj2 (proj2 D)) hex). }
  assert (S : display_timestamp X tbl fr <> Some None).
  { unfold display_timestamp. destruct (f_timestamp_format fr) as [f|]; [|discriminate]. destruct TS as [T' F'].
    intros Z. injection Z as Z. revert Z. unfold format_args.
    eapply (show_format_ok X tbl (table_string tbl) (no_u8_variant tbl) hex); eauto; [|exact I].
    apply Forall_forall. intros a _. now apply (show_total X tbl _ _ (proj2 (proj2 D)) hex). }
  repeat split; auto.
  unfold display_frame. cbv zeta. apply concat_text_total. repeat constructor; try discriminate; auto.
  unfold display_timestamp in S. destruct (f_timestamp_format fr); [|discriminate].
  destruct (format_args _ _ _ _ _); [discriminate|exfalso; apply S; reflexivity].
Qed.
