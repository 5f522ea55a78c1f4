(** Levels of frames and strings of nested values (C36); strings of the macros end to end. *)
From Verif Require Import Base Utf8 ParserModel DecoderModel DecoderProofs DecoderPanic Numerals DisplayModel EnvFilterModel EnvFilterSpec
  EnvFilterProofs SymbolModel SymbolProofs TableModel TableSpec TableProofs TableMain.
From Coq Require Import Permutation Sorting.Sorted.

(** * From the macro to the table *)

Lemma string_kind_tag : forall k g, string_kind k g -> tag_from_str (lit "defmt_" ++ k) = Some g /\ string_tag g /\ utf8_valid (lit "defmt_" ++ k) = true.
Proof. intros k g H. destruct H; (split; [reflexivity|split; [split; discriminate|reflexivity]]). Qed.

Lemma interned_visible : forall p n c k d, ~ other_name (interned p n c k d).
Proof. intros p n c k d. now apply seen_iff. Qed.

(** A string interned by a macro is found at its address, unchanged. *)
Theorem interned_found : forall check f sec data t, addresses_ok f ->
  parse_elf check f = Ok (Some t) -> elf_defmt f = Some (sec, data) -> distinct_addresses sec (elf_symbols f) ->
  forall y package disambiguator crate kind g text, In y (elf_symbols f) -> y_section y = Some sec ->
  utf8_valid package = true -> utf8_valid crate = true -> utf8_valid text = true -> 0 <= disambiguator ->
  string_kind kind g -> y_name y = Some (interned package disambiguator crate kind text) ->
  exists e, lookup_entry (y_address y) (t_entries t) = Some e /\ e_tag e = g /\ e_string e = text /\
    e_symbol e = interned package disambiguator crate kind text.
Proof.
  intros check f sec data t A P Hd DA y p n c k g d Iy Sy Up Uc Ud Hn K Ny.
  destruct (string_kind_tag k g K) as (T & S & Uk).
  exists (MkEntry g d (interned p n c k d)). split; [|auto].
  apply (table_strings check f sec data t A P Hd DA). exists y.
  assert (D := demangle_mangle (MkSymbol p n (lit "defmt_" ++ k) d c) ltac:(repeat split; cbn [s_package s_tag s_data s_crate s_disambiguator]; auto)).
  cbn [s_package s_tag s_data s_crate s_disambiguator] in D.
  eexists. split; [exact Iy|]. split; [split; [exact Ny|split; [apply interned_visible|split; [exact Sy|exact D]]]|].
  cbn [e_tag e_string d_tag d_data]. auto.
Qed.

(** * Levels of frames *)

Lemma decode_entry : forall t b fr n, decode t b = Ok (fr, n) ->
  exists e, lookup_entry (f_index fr) (t_entries t) = Some e /\ f_level fr = tag_level (e_tag e) /\ f_format fr = e_string e /\
    f_index fr = le_value (firstn 2 b) /\ (2 <= length b)%nat.
Proof.
  intros t b fr n E. unfold decode in E.
  destruct (decode_fuel t (S (length b)) b) as [[fr' r]|e| |] eqn:D; try discriminate. injection E as -> _.
  unfold decode_fuel in D. apply rbind_ok in D as (index & b1 & R & D).
  apply rbind_ok in D as (ts & b2 & _ & D). apply rbind_ok in D as ([l f] & b3 & L & D). cbn [fst snd] in D.
  apply rbind_ok in D as (args & b4 & _ & D). cbn in D. inversion D; subst. cbn [f_index f_level f_format].
  apply lift_ok in L as [L _]. unfold get_with_level in L. destruct (lookup_entry index (t_entries t)) as [e|] eqn:LE; [|discriminate].
  exists e. inversion L; subst. split; auto. split; auto. split; auto.
  unfold read_u in R. apply rbind_ok in R as (l & b5 & R & Q). cbn in Q. inversion Q; subst.
  unfold read_bytes in R. destruct (Z.of_nat 2 <=? Z.of_nat (length b)) eqn:Le; [|discriminate]. inversion R; subst. split; [reflexivity|lia].
Qed.

Theorem frame_level : forall check f sec data t, addresses_ok f ->
  parse_elf check f = Ok (Some t) -> elf_defmt f = Some (sec, data) -> distinct_addresses sec (elf_symbols f) ->
  forall y package disambiguator crate text kind level, In y (elf_symbols f) -> y_section y = Some sec ->
  utf8_valid package = true -> utf8_valid crate = true -> utf8_valid text = true -> 0 <= disambiguator ->
  y_name y = Some (interned package disambiguator crate kind text) ->
  (kind = lit "println" /\ level = None) \/ (exists l, kind = level_str l /\ level = Some l) ->
  forall b fr n, decode t b = Ok (fr, n) -> f_index fr = y_address y -> f_level fr = level /\ f_format fr = text.
Proof.
  intros check f sec data t A P Hd DA y p n0 c d k lv Iy Sy Up Uc Ud Hn Ny K b fr n D Ix.
  assert (KG : exists g, string_kind k g /\ tag_level g = lv).
  { destruct K as [[-> ->]|(l & -> & ->)]; [exists GPrintln; split; [constructor|reflexivity]|].
    destruct l; eexists; (split; [constructor|reflexivity]). }
  destruct KG as (g & K' & TL).
  destruct (interned_found check f sec data t A P Hd DA y p n0 c k g d Iy Sy Up Uc Ud Hn K' Ny) as (e & L & Tg & St & _).
  destruct (decode_entry t b fr n D) as (e' & L' & Lv & F & _). rewrite Ix in L'. rewrite L in L'. inversion L'; subst.
  split; congruence.
Qed.

(** The first two bytes of a message select its string. *)
Theorem frame_entry : forall t b fr n, decode t b = Ok (fr, n) ->
  f_index fr = le_value (firstn 2 b) /\ exists e, lookup_entry (f_index fr) (t_entries t) = Some e /\ f_format fr = e_string e /\
    match f_level fr with
    | Some l => tag_from_str (lit "defmt_" ++ level_str l) = Some (e_tag e)
    | None => ~ In (e_tag e) [GTrace; GDebug; GInfo; GWarn; GError]
    end.
Proof.
  intros t b fr n D. destruct (decode_entry t b fr n D) as (e & L & Lv & F & Ix & _). split; auto. exists e. split; auto. split; auto.
  rewrite Lv. destruct (e_tag e); cbn [tag_level]; try reflexivity; intros H; repeat (destruct H as [H|H]; [discriminate|]); destruct H.
Qed.

(** * Indices *)

Lemma in_lookup : forall es a (e : entry), NoDup (map fst es) -> In (a, e) es <-> lookup_entry a es = Some e.
Proof.
  induction es as [|[j g] es IH]; intros a e N; cbn [lookup_entry map fst In] in *; [split; [tauto|discriminate]|].
  inversion N as [|? ? N1 N2]; subst. destruct (a =? j) eqn:E.
  - assert (a = j) by lia. subst j. split; intros H.
    + destruct H as [H|H]; [congruence|]. exfalso. apply N1. now apply (in_map fst) in H.
    + left. congruence.
  - rewrite <- IH by auto. split; [intros [H|H]; [inversion H; subst; lia|auto]|auto].
Qed.

(** [indices] lists exactly the log statements. *)
Theorem indices_spec : forall t, NoDup (map fst (t_entries t)) -> forall i, In i (indices t) <->
  exists e, lookup_entry i (t_entries t) = Some e /\ In (e_tag e) [GPrintln; GTrace; GDebug; GInfo; GWarn; GError].
Proof.
  intros t N i. unfold indices. rewrite in_map_iff. split.
  - intros ([j e] & E & I). cbn in E. subst j. apply filter_In in I as [I L]. exists e. split; [now apply in_lookup|].
    cbn [snd] in L. destruct (e_tag e); cbn in L; try discriminate; cbn; tauto.
  - intros (e & L & T). exists (i, e). split; auto. apply filter_In. split; [now apply in_lookup|]. cbn [snd].
    repeat (destruct T as [T|T]; [rewrite <- T; reflexivity|]). destruct T.
Qed.

Lemma asorted_nodup : forall es, asorted es -> NoDup (map fst es).
Proof.
  intros es S. induction S as [|a e es S IH L]; cbn [map fst]; constructor; auto.
  intros I. apply in_map_iff in I as ([b g] & Q & I). cbn in Q. subst b. apply L in I. lia.
Qed.

Theorem table_nodup : forall check f t, addresses_ok f -> parse_elf check f = Ok (Some t) -> NoDup (map fst (t_entries t)).
Proof.
  intros check f t A P. apply parse_elf_some in P; auto. destruct P as (sec & data & v & e & xs & _ & _ & _ & _ & _ & _ & _ & Hm & _).
  rewrite Hm. apply asorted_nodup. apply (put_all_in (strings xs) [] as_nil).
Qed.

(** * Strings of nested values *)

Definition gives {A} (m : reader A) (P : A -> Prop) : Prop := forall b a r, m b = Ok (a, r) -> P a.

Lemma gives_bind : forall A B (m : reader A) (f : A -> reader B) P R,
  gives m P -> (forall a, P a -> gives (f a) R) -> gives (rbind m f) R.
Proof. intros A B m f P R M F b x r E. apply rbind_ok in E as (a & b' & E1 & E2). exact (F a (M _ _ _ E1) _ _ _ E2). Qed.

Lemma gives_ret : forall A (a : A) (P : A -> Prop), P a -> gives (ret a) P.
Proof. intros A a P H b x r E. cbn in E. inversion E; subst. exact H. Qed.

Lemma gives_any : forall A (m : reader A), gives m (fun _ => True).
Proof. intros A m b a r _. exact Logic.I. Qed.

Lemma gives_lift : forall A (o : option A), gives (lift_option o) (fun a => o = Some a).
Proof. intros A o b a r E. now apply lift_ok in E as [E _]. Qed.

Lemma gives_impl : forall A (m : reader A) (P R : A -> Prop), gives m P -> (forall a, P a -> R a) -> gives m R.
Proof. intros A m P R M H b a r E. apply H. eapply M; eauto. Qed.

Lemma gives_fail : forall A e (P : A -> Prop), gives (fail e) P.
Proof. intros A e P b a r E. discriminate. Qed.

Section Nested.
  Context (t : table).

  Definition all_nested (ss : list bytes) : Prop := Forall (nested_string t) ss.
  Definition whole (f : bytes) : Prop := exists i e, lookup_entry i (t_entries t) = Some e /\
    ~ In (e_tag e) [GTrace; GDebug; GInfo; GWarn; GError] /\ f = e_string e.

  Lemma whole_nested : forall f, whole f -> nested_string t f.
  Proof. intros f (i & e & L & T & ->). exists i, e. auto. Qed.
  Lemma variant_nested : forall f v, whole f -> In v (split_on 124 f) -> nested_string t v.
  Proof. intros f v (i & e & L & T & ->) I. exists i, e. auto. Qed.

  Lemma no_level_whole : forall i f, get_without_level t i = Some f -> whole f.
  Proof.
    intros i f H. unfold get_without_level, get_with_level in H.
    destruct (lookup_entry i (t_entries t)) as [e|] eqn:L; [|discriminate].
    destruct (tag_level (e_tag e)) eqn:T; [discriminate|]. inversion H; subst. exists i, e. split; auto. split; auto.
    intros X. repeat (destruct X as [X|X]; [rewrite <- X in T; discriminate|]). destruct X.
  Qed.

  Lemma gives_format : gives (get_format t) whole.
  Proof.
    unfold get_format. eapply gives_bind; [apply gives_any|]. intros i _. eapply gives_impl; [apply gives_lift|]. apply no_level_whole.
  Qed.

  Lemma gives_variant : forall f, gives (get_variant f) (fun v => In v (split_on 124 f)).
  Proof. intros f b v r E. eapply get_variant_in; eauto. Qed.

  Section Rec.
    Context (rec : bytes -> reader (list arg)) (sf : nat).
    Context (Hrec : forall f, gives (rec f) (fun args => all_nested (flat_map strings_of args))).

    Lemma gives_elements : forall n f e, whole f -> gives (decode_elements rec n f e)
      (fun es => all_nested (flat_map (fun e => fst e :: flat_map strings_of (snd e)) es)).
    Proof.
      induction n as [|n IH]; intros f e W; cbn [decode_elements]; [apply gives_ret; constructor|].
      apply gives_bind with (P := nested_string t).
      { destruct e; [|apply gives_ret; now apply whole_nested]. eapply gives_impl; [apply gives_variant|]. intros v. now apply variant_nested. }
      intros v Hv. eapply gives_bind; [apply Hrec|]. intros args Ha. eapply gives_bind; [apply IH; auto|]. intros es He.
      apply gives_ret. cbn [flat_map fst snd app]. constructor; auto. apply Forall_app; auto.
    Qed.

    Lemma gives_slice : forall n, gives (decode_format_slice t rec n)
      (fun es => all_nested (flat_map (fun e => fst e :: flat_map strings_of (snd e)) es)).
    Proof. intros n. unfold decode_format_slice. eapply gives_bind; [apply gives_format|]. intros f W. now apply gives_elements. Qed.

    Lemma gives_sequence : forall n, gives (decode_sequence t rec n) (fun args => all_nested (flat_map strings_of args)).
    Proof.
      induction n as [|n IH]; cbn [decode_sequence]; [intros b a r E; discriminate|].
      eapply gives_bind; [apply gives_any|]. intros i _. destruct (i =? 0); [apply gives_ret; constructor|].
      eapply gives_bind; [apply gives_lift|]. intros f E. eapply gives_bind; [apply Hrec|]. intros args Ha.
      eapply gives_bind; [apply IH|]. intros rest Hr. apply gives_ret. cbn [flat_map strings_of app]. constructor.
      - apply whole_nested. exact (no_level_whole _ _ E).
      - apply Forall_app; auto.
    Qed.

    Lemma gives_ty : forall x, gives (decode_ty t rec sf x) (fun a => all_nested (strings_of a)).
    Proof.
      intros x.
      assert (Leaf : forall A (m : reader A) (g : A -> arg), (forall a, strings_of (g a) = []) -> gives (rbind m (fun a => ret (g a))) (fun a => all_nested (strings_of a))).
      { intros A m g Hg. eapply gives_bind; [apply gives_any|]. intros a _. apply gives_ret. rewrite Hg. constructor. }
      destruct x; cbn [decode_ty]; try (apply Leaf; reflexivity).
      - destruct (bitfield_size lo hi); [apply Leaf; reflexivity|intros b a r E; discriminate].
      - eapply gives_bind; [apply gives_any|]. intros v _. destruct (v =? 0); [apply gives_ret; constructor|].
        destruct (v =? 1); [apply gives_ret; constructor|apply gives_fail].
      - eapply gives_bind; [apply gives_any|]. intros v _. destruct (is_scalar v); [apply gives_ret; constructor|apply gives_fail].
      - intros b a r E. destruct (position _ b); [|discriminate]. cbv zeta in E. destruct (utf8_valid _); [|discriminate]. inversion E; subst. constructor.
      - intros b a r E. destruct (position _ b); [|discriminate]. cbv zeta in E. destruct (utf8_valid _); [|discriminate]. inversion E; subst. constructor.
      - eapply gives_bind; [apply gives_sequence|]. intros args Ha. apply gives_ret. exact Ha.
      - eapply gives_bind; [apply gives_format|]. intros f W.
        apply gives_bind with (P := nested_string t).
        { destruct (has_bar f); [|apply gives_ret; now apply whole_nested]. eapply gives_impl; [apply gives_variant|]. intros v. now apply variant_nested. }
        intros v Hv. eapply gives_bind; [apply Hrec|]. intros args Ha. apply gives_ret. cbn [strings_of]. constructor; auto.
      - eapply gives_bind; [apply gives_slice|]. intros es H. apply gives_ret. exact H.
      - eapply gives_bind; [apply gives_any|]. intros n _. eapply gives_bind; [apply gives_slice|]. intros es H. apply gives_ret. exact H.
      - eapply gives_bind; [apply gives_any|]. intros i _. eapply gives_bind; [apply gives_lift|]. intros s E. apply gives_ret.
        constructor; [|constructor]. apply whole_nested. exact (no_level_whole _ _ E).
      - eapply gives_bind; [apply gives_any|]. intros n _. eapply gives_bind; [apply gives_any|]. intros s _.
        destruct (utf8_valid s); [apply gives_ret; constructor|apply gives_fail].
      - eapply gives_bind; [apply gives_any|]. intros n _. apply Leaf. reflexivity.
    Qed.

    Lemma gives_params : forall ps, gives (decode_params t rec sf ps) (fun args => all_nested (flat_map strings_of args)).
    Proof.
      induction ps as [|p ps IH]; cbn [decode_params]; [apply gives_ret; constructor|].
      eapply gives_bind; [apply gives_ty|]. intros a Ha. eapply gives_bind; [apply IH|]. intros rest Hr. apply gives_ret.
      cbn [flat_map]. apply Forall_app; auto.
    Qed.
  End Rec.

  Lemma gives_decode_format : forall fuel f, gives (decode_format t fuel f) (fun args => all_nested (flat_map strings_of args)).
  Proof.
    induction fuel as [|fuel IH]; intros f; cbn [decode_format]; [intros b a r E; discriminate|].
    destruct (parse f ForwardsCompatible); [|apply gives_fail|intros b a r X; discriminate|intros b a r X; discriminate].
    apply gives_params. exact IH.
  Qed.

  (** No string of a log statement with a level is used for a nested value. *)
  Theorem nested_unlevelled : forall b fr n, decode t b = Ok (fr, n) ->
    forall a s, In a (f_timestamp_args fr ++ f_args fr) -> In s (strings_of a) -> nested_string t s.
  Proof.
    intros b fr n E. unfold decode in E.
    destruct (decode_fuel t (S (length b)) b) as [[fr' r]|e| |] eqn:D; try discriminate. injection E as -> _.
    assert (Y : gives (decode_fuel t (S (length b))) (fun fr => all_nested (flat_map strings_of (f_timestamp_args fr ++ f_args fr)))).
    { unfold decode_fuel. eapply gives_bind; [apply gives_any|]. intros index _.
      apply gives_bind with (P := fun ts => all_nested (flat_map strings_of (snd ts))).
      { destruct (t_timestamp t); [|apply gives_ret; constructor]. eapply gives_bind; [apply gives_decode_format|]. intros a Ha. apply gives_ret. exact Ha. }
      intros ts Ht. eapply gives_bind; [apply gives_any|]. intros lf _. eapply gives_bind; [apply gives_decode_format|]. intros args Ha.
      apply gives_ret. cbn [f_timestamp_args f_args]. rewrite flat_map_app. apply Forall_app; auto. }
    pose proof (Y _ _ _ D) as H. intros a s Ia Is. unfold all_nested in H. rewrite Forall_forall in H. apply H. apply in_flat_map. eauto.
  Qed.
End Nested.
