(** Building the table from the symbols of the binary (C35). *)
From Verif Require Import Base Utf8 ParserModel DecoderModel Numerals DisplayModel EnvFilterModel EnvFilterSpec
  EnvFilterProofs SymbolModel SymbolProofs TableModel TableSpec.
From Coq Require Import Permutation Sorting.Sorted.

(* ------------------------------------------------------------------ *)
(** * First pass *)

Definition versions_of (ys : list elf_symbol) : list bytes :=
  flat_map (fun y => match y_name y with Some n => olist (version_of n) | None => [] end) ys.
Definition encodings_of (ys : list elf_symbol) : list bytes :=
  flat_map (fun y => match y_name y with Some n => olist (encoding_of n) | None => [] end) ys.

Lemma olist_two : forall {A} (x y : A) l o, x :: y :: l <> olist o.
Proof. intros A x y l [a|]; discriminate. Qed.

Lemma first_pass_ok : forall ys v e v' e', first_pass ys v e = Ok (v', e') <->
  olist v ++ versions_of ys = olist v' /\ olist e ++ encodings_of ys = olist e'.
Proof.
  induction ys as [|y ys IH]; intros v e v' e'; cbn [first_pass versions_of encodings_of flat_map].
  - rewrite !app_nil_r. split.
    + intros H. inversion H; subst. auto.
    + intros [H1 H2]. destruct v, v', e, e'; cbn in *; congruence.
  - fold (versions_of ys). fold (encodings_of ys). destruct (y_name y) as [n|]; [|apply IH].
    destruct (version_of n) as [w|]; destruct v as [u|]; cbn [olist app]; cbn [bind];
      try (split; [discriminate|intros [H _]; exfalso; exact (olist_two _ _ _ _ H)]);
      (destruct (encoding_of n) as [x|]; destruct e as [z|]; cbn [olist app]; cbn [bind];
       try (split; [discriminate|intros [_ H]; exfalso; exact (olist_two _ _ _ _ H)]); apply IH).
Qed.

Lemma first_pass_cases : forall ys v e,
  (exists r, first_pass ys v e = Ok r) \/ first_pass ys v e = Err ManyVersions \/ first_pass ys v e = Err ManyEncodings.
Proof.
  induction ys as [|y ys IH]; intros v e; cbn [first_pass]; [eauto|]. destruct (y_name y) as [n|]; auto.
  destruct (version_of n), v; cbn [bind]; auto; destruct (encoding_of n), e; cbn [bind]; auto.
Qed.

(* ------------------------------------------------------------------ *)
(** * Symbols *)

Lemma tag_timestamp : forall s, tag_from_str s = Some GTimestamp <-> s = lit "defmt_timestamp".
Proof.
  intros s. split; [|intros ->; reflexivity]. unfold tag_from_str.
  repeat match goal with |- context [beq s ?l] => destruct (beq s l) eqn:?; [intros H; try discriminate|] end;
    try discriminate. now apply beq_true.
Qed.

Lemma tag_flag : forall s, tag_from_str s = Some GBitflagsValue <-> s = lit "defmt_bitflags_value".
Proof.
  intros s. split; [|intros ->; reflexivity]. unfold tag_from_str.
  repeat match goal with |- context [beq s ?l] => destruct (beq s l) eqn:?; [intros H; try discriminate|] end;
    try discriminate. now apply beq_true.
Qed.

Lemma section_eqb_iff : forall s i, section_eqb s i = true <-> s = Some i.
Proof. intros [j|] i; cbn; split; intros H; try discriminate; [f_equal; lia|inversion H; lia]. Qed.

Lemma defmt_symbol_unique : forall sec y n d n' d', defmt_symbol sec y n d -> defmt_symbol sec y n' d' -> n = n' /\ d = d'.
Proof. intros sec y n d n' d' (A & _ & _ & B) (A' & _ & _ & B'). split; congruence. Qed.

Lemma starts_with_iff : forall p s, starts_with p s = true <-> exists r, s = p ++ r.
Proof.
  intros p s. unfold starts_with. destruct (strip_prefix p s) as [r|] eqn:E.
  - apply strip_prefix_some in E. split; eauto.
  - split; [discriminate|]. intros (r & ->). now rewrite strip_prefix_app in E.
Qed.

Lemma passed_over_iff : forall n, passed_over n = true <-> other_name n.
Proof.
  intros n. unfold passed_over. rewrite !orb_true_iff, !beq_true, !starts_with_iff. split.
  - intros [[[[->| ->]|(r & ->)]|(r & ->)]|(r & ->)]; constructor.
  - intros []; eauto 8.
Qed.

Lemma seen_iff : forall n, passed_over n = false <-> ~ other_name n.
Proof. intros n. rewrite <- passed_over_iff. destruct (passed_over n); split; congruence. Qed.

(** What one symbol contributes. *)
Inductive contributes (sec : Z) (data : option bytes) (y : elf_symbol) : item -> Prop :=
| K_string e d : defmt_symbol sec y (e_symbol e) d -> tag_from_str (d_tag d) = Some (e_tag e) -> string_tag (e_tag e) ->
    e_string e = d_data d -> contributes sec data y (IString (y_address y) e)
| K_timestamp e d : defmt_symbol sec y (e_symbol e) d -> tag_from_str (d_tag d) = Some GTimestamp ->
    e_tag e = GTimestamp -> e_string e = d_data d -> contributes sec data y (ITimestamp e)
| K_flag bs k n i v : data = Some bs -> flag_symbol sec bs y k n i v -> contributes sec data y (IFlag k n i v)
| K_skip : (forall name d, defmt_symbol sec y name d -> tag_from_str (d_tag d) = None) ->
    (forall name, y_name y = Some name -> ~ other_name name -> y_section y = Some sec -> exists d, demangle name = Ok d) ->
    contributes sec data y ISkip.

Lemma middle_unique : forall {A} (a b c a' b' c' : list A), a ++ b ++ c = a' ++ b' ++ c' -> length a = length a' -> length b = length b' -> b = b'.
Proof.
  intros A a b c a' b' c' E La Lb. revert a' E La. induction a as [|x a IH]; intros [|x' a'] E La; cbn in *; try lia.
  - assert (H : firstn (length b) (b ++ c) = firstn (length b) (b' ++ c')) by now rewrite E.
    rewrite firstn_app_exact in H. rewrite Lb, firstn_app_exact in H. exact H.
  - inversion E; subst. eapply IH; eauto.
Qed.

Lemma flag_item_iff : forall sec data y name d x, defmt_symbol sec y name d -> tag_from_str (d_tag d) = Some GBitflagsValue ->
  0 <= y_address y ->
  flag_item data y d = Ok x <-> exists bs k n i v, data = Some bs /\ flag_symbol sec bs y k n i v /\ x = IFlag k n i v.
Proof.
  intros sec data y name d x D T A. unfold flag_item. split.
  - destruct (y_size y =? 16) eqn:E1; cbn [negb]; [|discriminate]. destruct data as [bs|]; [|discriminate].
    destruct (usize_limit <=? y_address y + 16) eqn:E2; [discriminate|].
    destruct (Z.of_nat (length bs) <? y_address y + 16) eqn:E3; [discriminate|].
    destruct (split_path (d_data d)) as [|ident [|idx [|nm [|]]]] eqn:E4; try discriminate.
    destruct (parse_u128 idx) as [i|] eqn:E5; [|discriminate]. intros H.
    assert (H2 : x = IFlag (MkKey ident (d_package d) (d_disambiguator d) (d_crate d)) nm i
       (le_value (firstn 16 (skipn (Z.to_nat (y_address y)) bs)))) by congruence. subst x.
    exists bs. do 4 eexists. split; [reflexivity|]. split; [|reflexivity].
    exists name, d, idx. cbn [k_ident k_package k_disambig k_crate].
    split; [exact D|]. split; [exact T|]. split; [lia|]. split; [exact E4|]. split; [exact E5|]. do 3 (split; [reflexivity|]).
    split; [exact A|]. split; [lia|]. split; [unfold usize_limit in E2; lia|].
    exists (firstn (Z.to_nat (y_address y)) bs), (firstn 16 (skipn (Z.to_nat (y_address y)) bs)), (skipn 16 (skipn (Z.to_nat (y_address y)) bs)).
    rewrite firstn_skipn, firstn_skipn. split; [reflexivity|]. rewrite !firstn_length, skipn_length.
    split; [lia|]. split; [lia|]. reflexivity.
  - intros (bs & k & n & i & v & -> & (sym & d' & idx & D' & T' & S & Sp & Pi & K1 & K2 & K3 & B1 & B2 & B3 & before & bits & after & E & Lb & Li & V) & ->).
    destruct (defmt_symbol_unique _ _ _ _ _ _ D D') as [<- <-].
    replace (y_size y =? 16) with true by lia. cbn [negb].
    destruct (usize_limit <=? y_address y + 16) eqn:E2; [unfold usize_limit in E2; lia|].
    destruct (Z.of_nat (length bs) <? y_address y + 16) eqn:E3; [lia|].
    rewrite Sp, Pi. destruct k as [k1 k2 k3 k4]. cbn [k_ident k_package k_disambig k_crate] in *. subst k2 k3 k4. do 2 f_equal. rewrite V. f_equal.
    rewrite <- Li. replace (Z.to_nat (y_address y)) with (length before) by lia. rewrite E, skipn_app_exact. apply firstn_app_exact.
Qed.

Lemma classify_iff : forall sec data y x, 0 <= y_address y -> classify sec data y = Ok x <-> contributes sec data y x.
Proof.
  intros sec data y x A. unfold classify. split.
  - destruct (y_name y) as [name|] eqn:En.
    2: { intros H. inversion H; subst. apply K_skip; [intros ? ? (Q & _)|intros ? Q]; congruence. }
    destruct (passed_over name) eqn:Ep.
    { apply passed_over_iff in Ep. intros H. inversion H; subst.
      apply K_skip; [intros ? ? (Q & Q2 & _)|intros ? Q Q2]; exfalso; apply Q2; congruence. }
    apply seen_iff in Ep.
    destruct (section_eqb (y_section y) sec) eqn:Es.
    2: { intros H. inversion H; subst.
         assert (NS : y_section y <> Some sec) by (intros Q; apply section_eqb_iff in Q; congruence).
         apply K_skip; [intros ? ? (_ & _ & Q3 & _)|intros ? _ _ Q3]; congruence. }
    apply section_eqb_iff in Es. destruct (demangle name) as [d| | |] eqn:Ed; try discriminate.
    assert (D : defmt_symbol sec y name d) by (repeat split; auto).
    destruct (tag_from_str (d_tag d)) as [g|] eqn:Et.
    2: { intros H. inversion H; subst. apply K_skip.
         - intros n' d' D'. destruct (defmt_symbol_unique _ _ _ _ _ _ D D') as [<- <-]. exact Et.
         - intros n' Q _ _. exists d. congruence. }
    assert (St : string_tag g -> @Ok table_error item (IString (y_address y) (MkEntry g (d_data d) name)) = Ok x -> contributes sec data y x).
    { intros Hs H. assert (x = IString (y_address y) (MkEntry g (d_data d) name)) by congruence. subst x.
      apply K_string with d; cbn; auto. }
    destruct g; try (apply St; split; discriminate).
    + intros H. assert (x = ITimestamp (MkEntry GTimestamp (d_data d) name)) by congruence. subst x.
      apply K_timestamp with d; cbn; auto.
    + intros H. apply (flag_item_iff sec) with (name := name) in H; auto. destruct H as (bs & k & n & i & v & Hd & Hf & ->).
      eapply K_flag; eauto.
  - intros C. inversion C as [e d D T S E|e d D T G E|bs k n i v Hd Hf|H1 H2]; subst.
    + destruct D as (D1 & D2 & D3 & D4). apply seen_iff in D2. rewrite D1, D2. apply section_eqb_iff in D3. rewrite D3, D4, T.
      destruct e as [g s m]. cbn in *. subst s. destruct S as [S1 S2]. destruct g; try reflexivity; congruence.
    + destruct D as (D1 & D2 & D3 & D4). apply seen_iff in D2. rewrite D1, D2. apply section_eqb_iff in D3. rewrite D3, D4, T.
      destruct e as [g s m]. cbn in *. now subst.
    + pose proof Hf as (sym & d & idx & D & T & _). pose proof D as (D1 & D2 & D3 & D4). apply seen_iff in D2. rewrite D1, D2. apply section_eqb_iff in D3.
      rewrite D3, D4, T. apply (flag_item_iff sec (Some bs) y sym d); auto. exists bs, k, n, i, v. auto.
    + destruct (y_name y) as [name|] eqn:En; auto. destruct (passed_over name) eqn:Ep; auto. apply seen_iff in Ep.
      destruct (section_eqb (y_section y) sec) eqn:Es; auto. apply section_eqb_iff in Es.
      destruct (H2 name eq_refl Ep Es) as (d & Ed). rewrite Ed. rewrite (H1 name d); auto. repeat split; auto.
Qed.

Lemma classify_safe : forall sec data y, y_address y < 2 ^ 64 - 16 -> classify sec data y <> Panic /\ classify sec data y <> NoFuel.
Proof.
  intros sec data y A. unfold classify. destruct (y_name y) as [name|]; [|split; discriminate].
  destruct (passed_over name); [split; discriminate|]. destruct (section_eqb _ _); [|split; discriminate].
  destruct (demangle_total name) as [(d & ->)| ->]; [|split; discriminate].
  assert (F : flag_item data y d <> Panic /\ flag_item data y d <> NoFuel).
  { unfold flag_item. destruct (negb _); [split; discriminate|]. destruct data as [bs|]; [|split; discriminate].
    destruct (usize_limit <=? y_address y + 16) eqn:E; [unfold usize_limit in E; lia|].
    destruct (_ <? _); [split; discriminate|]. destruct (split_path _) as [|? [|? [|? [|]]]]; try (split; discriminate).
    destruct (parse_u128 _); split; discriminate. }
  destruct (tag_from_str (d_tag d)) as [[]|]; auto; split; discriminate.
Qed.

(* ------------------------------------------------------------------ *)
(** * Second pass *)

Fixpoint add_items (xs : list item) (b : building) : outcome table_error building :=
  match xs with
  | [] => Ok b
  | x :: xs' => b <- add_item b x ;; add_items xs' b
  end.

Lemma second_pass_ok : forall sec data ys b b', Forall (fun y => 0 <= y_address y) ys ->
  second_pass sec data ys b = Ok b' <-> exists xs, Forall2 (contributes sec data) ys xs /\ add_items xs b = Ok b'.
Proof.
  induction ys as [|y ys IH]; intros b b' A; cbn [second_pass].
  - split.
    + intros H. exists []. split; auto.
    + intros (xs & F & H). inversion F; subst. exact H.
  - inversion A as [|? ? A1 A2]; subst. split.
    + destruct (classify sec data y) as [x| | |] eqn:E; cbn [bind]; try discriminate. apply classify_iff in E; auto.
      destruct (add_item b x) as [b1| | |] eqn:E1; cbn [bind]; try discriminate. intros H. apply IH in H; auto.
      destruct H as (xs & F & H). exists (x :: xs). split; [constructor; auto|]. cbn [add_items]. now rewrite E1.
    + intros (xs & F & H). inversion F as [|? x ? xs' C F']; subst. apply classify_iff in C; auto. rewrite C. cbn [bind].
      cbn [add_items] in H. destruct (add_item b x) as [b1| | |]; cbn [bind] in *; try discriminate. apply IH; eauto.
Qed.

Definition strings (xs : list item) : list (Z * entry) :=
  flat_map (fun x => match x with IString a e => [(a, e)] | _ => [] end) xs.
Definition timestamps (xs : list item) : list entry :=
  flat_map (fun x => match x with ITimestamp e => [e] | _ => [] end) xs.
Definition flags (k : bitflags_key) (xs : list item) : list flag_value :=
  flat_map (fun x => match x with IFlag j n i v => if key_eqb k j then [(n, i, v)] else [] | _ => [] end) xs.

Definition put_all (l : list (Z * entry)) (m : list (Z * entry)) : list (Z * entry) :=
  fold_left (fun m e => put_entry (fst e) (snd e) m) l m.
Fixpoint push_all (xs : list item) (m : list (bitflags_key * list flag_value)) : list (bitflags_key * list flag_value) :=
  match xs with
  | [] => m
  | IFlag k n i v :: xs' => push_all xs' (push_flag k (n, i, v) m)
  | _ :: xs' => push_all xs' m
  end.

Lemma add_items_ok : forall xs b b', add_items xs b = Ok b' <->
  b_map b' = put_all (strings xs) (b_map b) /\ b_flags b' = push_all xs (b_flags b) /\
  olist (b_timestamp b) ++ timestamps xs = olist (b_timestamp b').
Proof.
  induction xs as [|x xs IH]; intros b b'; cbn [add_items strings timestamps flat_map push_all].
  - cbn. rewrite app_nil_r. destruct b as [m f t], b' as [m' f' t']. cbn. split.
    + intros H. inversion H; subst. auto.
    + intros (-> & -> & H). do 2 f_equal. destruct t, t'; cbn in H; congruence.
  - fold (strings xs). fold (timestamps xs). destruct x as [|e|k n i v|a e]; cbn [add_item bind app].
    + apply IH.
    + destruct (b_timestamp b) as [e'|] eqn:E; cbn [bind].
      * split; [discriminate|]. intros (_ & _ & H). exfalso. exact (olist_two _ _ _ _ H).
      * rewrite IH. cbn. reflexivity.
    + rewrite IH. cbn. reflexivity.
    + rewrite IH. cbn [b_map b_flags b_timestamp]. unfold put_all. cbn [fold_left fst snd]. reflexivity.
Qed.

(** * The map of strings *)

Inductive asorted : list (Z * entry) -> Prop :=
| as_nil : asorted []
| as_cons a e m : asorted m -> (forall b f, In (b, f) m -> a < b) -> asorted ((a, e) :: m).

Lemma put_entry_in : forall m a e b f, asorted m ->
  In (b, f) (put_entry a e m) <-> (b = a /\ f = e) \/ (b <> a /\ In (b, f) m).
Proof.
  induction m as [|[c g] m IH]; intros a e b f S; cbn [put_entry].
  - cbn. split; [intros [H|[]]; inversion H; auto|]. intros [[-> ->]|[_ []]]; auto.
  - inversion S as [|? ? ? S' L]; subst. destruct (a <? c) eqn:E1; [|destruct (a =? c) eqn:E2].
    + cbn [In]. split.
      * intros [H|[H|H]]; [inversion H; auto|inversion H; subst; right; split; [lia|auto]|].
        right. split; [apply L in H; lia|auto].
      * intros [[-> ->]|[_ [H|H]]]; auto.
    + assert (a = c) by lia. subst c. cbn [In]. split.
      * intros [H|H]; [inversion H; auto|]. right. split; [apply L in H; lia|auto].
      * intros [[-> ->]|[N [H|H]]]; auto. inversion H; subst. congruence.
    + cbn [In]. rewrite IH by auto. split.
      * intros [H|[H|[N H]]]; auto. inversion H; subst. right. split; [lia|auto].
      * intros [H|[N [H|H]]]; auto.
Qed.

Lemma put_entry_sorted : forall m a e, asorted m -> asorted (put_entry a e m).
Proof.
  induction m as [|[c g] m IH]; intros a e S; cbn [put_entry].
  - constructor; [constructor|intros ? ? []].
  - inversion S as [|? ? ? S' L]; subst. destruct (a <? c) eqn:E1; [|destruct (a =? c) eqn:E2].
    + constructor; auto. intros b f [H|H]; [inversion H; subst; lia|apply L in H; lia].
    + constructor; auto. intros b f H. apply L in H. lia.
    + constructor; auto. intros b f H. apply put_entry_in in H as [[-> ->]|[_ H]]; auto; [lia|]. eauto.
Qed.

Lemma put_all_in : forall l m, asorted m ->
  asorted (put_all l m) /\
  (forall a e, In (a, e) (put_all l m) -> In (a, e) l \/ In (a, e) m) /\
  (forall a e, In (a, e) l \/ In (a, e) m -> exists f, In (a, f) (put_all l m)).
Proof.
  induction l as [|[a e] l IH]; intros m S; unfold put_all; cbn [fold_left fst snd].
  - split; auto. split; [auto|]. intros a e [[]|H]. eauto.
  - fold (put_all l (put_entry a e m)). destruct (IH _ (put_entry_sorted m a e S)) as (I1 & I2 & I3). split; auto. split.
    + intros b f H. apply I2 in H as [H|H]; [left; now right|]. apply put_entry_in in H as [[-> ->]|[_ H]]; auto. left. now left.
    + intros b f H. destruct (Z.eq_dec b a) as [->|N].
      * apply (I3 a e). right. apply put_entry_in; auto.
      * apply (I3 b f). destruct H as [[H|H]|H]; auto; [inversion H; congruence|]. right. apply put_entry_in; auto.
Qed.

Lemma asorted_unique : forall m a e f, asorted m -> In (a, e) m -> In (a, f) m -> e = f.
Proof.
  intros m a e f S. induction S as [|b g m S IH L]; intros H1 H2; [destruct H1|].
  destruct H1 as [H1|H1], H2 as [H2|H2]; try congruence; auto.
  - inversion H1; subst. apply L in H2. lia.
  - inversion H2; subst. apply L in H1. lia.
Qed.

Lemma lookup_in : forall m a e, asorted m -> lookup_entry a m = Some e <-> In (a, e) m.
Proof.
  intros m a e S. induction S as [|b g m S IH L]; cbn [lookup_entry In]; [split; [discriminate|intros []]|].
  destruct (a =? b) eqn:E.
  - assert (a = b) by lia. subst b. split; [intros H; left; congruence|].
    intros [H|H]; [congruence|]. apply L in H. lia.
  - rewrite IH. split; auto. intros [H|H]; auto. inversion H; lia.
Qed.

Lemma asorted_ext : forall m n, asorted m -> asorted n -> (forall a e, In (a, e) m <-> In (a, e) n) -> m = n.
Proof.
  intros m n S. revert n. induction S as [|a e m S IH L]; intros n Sn H.
  - destruct n as [|[a e] n]; auto. exfalso. apply (H a e). now left.
  - destruct Sn as [|b f n Sn Ln]; [exfalso; apply (H a e); now left|].
    assert (a = b /\ e = f) as [<- <-].
    { destruct (proj1 (H a e) ltac:(now left)) as [E|I]; [inversion E; auto|].
      destruct (proj2 (H b f) ltac:(now left)) as [E|J]; [inversion E; auto|].
      apply Ln in I. apply L in J. lia. }
    f_equal. apply IH; auto. intros c g. specialize (H c g). cbn [In] in H. split; intros I.
    + destruct (proj1 H (or_intror I)) as [E|J]; auto. inversion E; subst. apply L in I. lia.
    + destruct (proj2 H (or_intror I)) as [E|J]; auto. inversion E; subst. apply Ln in I. lia.
Qed.

(** * Flags *)

Lemma key_eqb_iff : forall a b, key_eqb a b = true <-> a = b.
Proof.
  intros [a1 a2 a3 a4] [b1 b2 b3 b4]. unfold key_eqb. cbn. rewrite !Bool.andb_true_iff, !beq_true. split.
  - intros (((-> & ->) & ->) & H). f_equal. destruct a4, b4; try discriminate; auto. apply beq_true in H. congruence.
  - intros H. inversion H; subst. repeat split; auto. destruct b4; auto. apply beq_refl.
Qed.

Fixpoint lookup_values (k : bitflags_key) (m : list (bitflags_key * list flag_value)) : option (list flag_value) :=
  match m with
  | [] => None
  | (j, vs) :: m' => if key_eqb k j then Some vs else lookup_values k m'
  end.

Definition values (k : bitflags_key) (m : list (bitflags_key * list flag_value)) : list flag_value :=
  match lookup_values k m with Some vs => vs | None => [] end.

Definition nonempty_lists (m : list (bitflags_key * list flag_value)) : Prop := forall k, lookup_values k m <> Some [].

Lemma push_flag_values : forall k v m j, values j (push_flag k v m) = values j m ++ (if key_eqb j k then [v] else []).
Proof.
  intros k v m j. unfold values. induction m as [|[i vs] m IH]; cbn [push_flag lookup_values].
  - destruct (key_eqb j k); reflexivity.
  - destruct (key_eqb k i) eqn:E; cbn [lookup_values].
    + apply key_eqb_iff in E. subst i. destruct (key_eqb j k); auto. now rewrite app_nil_r.
    + destruct (key_eqb j i) eqn:E2; auto. apply key_eqb_iff in E2. subst i.
      assert (N : key_eqb j k = false). { destruct (key_eqb j k) eqn:Q; auto. apply key_eqb_iff in Q. subst. assert (key_eqb k k = true) by (now apply key_eqb_iff). congruence. }
      rewrite N. now rewrite app_nil_r.
Qed.

Lemma push_flag_nonempty : forall k v m, nonempty_lists m -> nonempty_lists (push_flag k v m).
Proof.
  intros k v m H j. specialize (H j). revert H. induction m as [|[i vs] m IH]; cbn [push_flag lookup_values].
  - destruct (key_eqb j k); discriminate.
  - destruct (key_eqb k i) eqn:E; cbn [lookup_values]; destruct (key_eqb j i); auto. intros _ Q. inversion Q as [Q']. destruct vs; discriminate.
Qed.

Lemma push_all_values : forall xs m k, values k (push_all xs m) = values k m ++ flags k xs.
Proof.
  induction xs as [|x xs IH]; intros m k; cbn [push_all flags flat_map]; [now rewrite app_nil_r|]. fold (flags k xs).
  destruct x as [|e|j n i v|a e]; rewrite IH; auto. rewrite push_flag_values, <- app_assoc. reflexivity.
Qed.

Lemma push_all_nonempty : forall xs m, nonempty_lists m -> nonempty_lists (push_all xs m).
Proof. induction xs as [|[] xs IH]; intros m H; cbn [push_all]; auto. apply IH. now apply push_flag_nonempty. Qed.

Lemma insert_perm : forall v l, Permutation (insert_value v l) (v :: l).
Proof.
  induction l as [|w l IH]; cbn; auto. destruct (_ <=? _); auto. rewrite IH. constructor.
Qed.

Lemma sort_perm : forall l, Permutation (sort_values l) l.
Proof. induction l as [|v l IH]; cbn; auto. rewrite insert_perm. now constructor. Qed.

Lemma insert_sorted : forall v l, StronglySorted by_index l -> StronglySorted by_index (insert_value v l).
Proof.
  induction l as [|w l IH]; intros S; cbn; [repeat constructor|]. inversion S as [|? ? S' F]; subst.
  destruct (snd (fst v) <=? snd (fst w)) eqn:E.
  - constructor; auto. constructor; [unfold by_index; lia|]. rewrite Forall_forall in *. intros x I. apply F in I. unfold by_index in *. lia.
  - constructor; auto. rewrite Forall_forall in *. intros x I. apply (Permutation_in _ (insert_perm v l)) in I as [<-|I]; auto.
    unfold by_index. lia.
Qed.

Lemma sort_sorted : forall l, StronglySorted by_index (sort_values l).
Proof. induction l as [|v l IH]; cbn; [constructor|now apply insert_sorted]. Qed.

Lemma sorted_perm_eq : forall l l', StronglySorted by_index l -> StronglySorted by_index l' -> Permutation l l' ->
  NoDup (map (fun v => snd (fst v)) l) -> l = l'.
Proof.
  induction l as [|v l IH]; intros l' S S' P ND.
  - apply Permutation_nil in P. auto.
  - destruct l' as [|w l']; [apply Permutation_sym, Permutation_nil in P; discriminate|].
    inversion S as [|? ? S1 F1]; inversion S' as [|? ? S2 F2]; subst. inversion ND as [|? ? N1 N2]; subst.
    assert (v = w).
    { destruct (Permutation_in w (Permutation_sym P) ltac:(now left)) as [|Iw]; auto.
      destruct (Permutation_in v P ltac:(now left)) as [|Iv]; auto.
      rewrite Forall_forall in F1, F2. apply F1 in Iw as L1. apply F2 in Iv as L2. unfold by_index in *.
      exfalso. apply N1. apply in_map_iff. exists w. split; auto. lia. }
    subst w. f_equal. apply IH; auto. eapply Permutation_cons_inv; eauto.
Qed.

Definition strip_index (l : list flag_value) : list (bytes * Z) := map (fun v => (fst (fst v), snd v)) l.

Lemma finish_lookup : forall m k, nonempty_lists m ->
  lookup_flags k (finish_flags m) =
    match values k m with [] => None | _ => Some (strip_index (sort_values (values k m))) end.
Proof.
  intros m k N. unfold values. specialize (N k). revert N. unfold finish_flags. induction m as [|[j vs] m IH]; cbn; auto.
  intros N. destruct (key_eqb k j); auto. destruct vs; [congruence|reflexivity].
Qed.

(* ------------------------------------------------------------------ *)
(** * Announcements *)

Lemma trim_none : forall n p s, (forall r, s <> p ++ r) -> trim_start n p s = s.
Proof.
  intros [|n] p s H; cbn [trim_start]; auto. destruct (strip_prefix p s) as [r|] eqn:E; auto.
  apply strip_prefix_some in E. now destruct (H r).
Qed.

Lemma trim_once : forall n p s, (0 < n)%nat -> (forall r, s <> p ++ r) -> trim_start n p (p ++ s) = s.
Proof.
  intros [|n] p s L H; [lia|]. cbn [trim_start]. rewrite strip_prefix_app. now apply trim_none.
Qed.

Lemma drop_none : forall s, ~ In 34 s -> drop_quotes s = s.
Proof.
  intros [|c s] H; cbn [drop_quotes]; auto. destruct (c =? 34) eqn:E; auto. exfalso. apply H. left. lia.
Qed.

Lemma trim_quotes : forall v, ~ In 34 v -> trim_end_quotes v = v /\ trim_end_quotes (v ++ [34]) = v.
Proof.
  intros v H. assert (~ In 34 (rev v)) by (now rewrite <- in_rev). unfold trim_end_quotes. split.
  - rewrite drop_none; auto. apply rev_involutive.
  - rewrite rev_app_distr. cbn [rev app drop_quotes]. change (34 =? 34) with true. cbv iota. rewrite drop_none; auto. apply rev_involutive.
Qed.

Lemma version_name : forall v, ~ In 34 v -> (forall r, v <> version_prefix ++ r) ->
  version_of (version_prefix ++ v) = Some v /\ version_of (34 :: version_prefix ++ v ++ [34]) = Some v.
Proof.
  intros v Q H. destruct (trim_quotes v Q) as [T1 T2]. unfold version_of. split.
  - assert (E : starts_with (34 :: version_prefix) (version_prefix ++ v) = false) by reflexivity.
    assert (E' : starts_with version_prefix (version_prefix ++ v) = true) by (apply starts_with_iff; eauto).
    rewrite E, E'. cbn [orb]. cbv zeta. rewrite (trim_none _ (34 :: version_prefix)) by discriminate.
    rewrite trim_once; auto; [now rewrite T1|]. rewrite app_length. cbn. lia.
  - change (34 :: version_prefix ++ v ++ [34]) with ((34 :: version_prefix) ++ v ++ [34]).
    assert (E : starts_with (34 :: version_prefix) ((34 :: version_prefix) ++ v ++ [34]) = true) by (apply starts_with_iff; eauto).
    assert (N : forall p, ~ In 34 p -> (forall r, v <> p ++ r) -> forall r, v ++ [34] <> p ++ r).
    { intros p Np Hp r C. destruct r as [|x r] using rev_ind.
      - rewrite app_nil_r in C. apply Np. rewrite <- C. apply in_or_app. right. now left.
      - rewrite app_assoc in C. apply app_inj_tail in C as [C _]. now apply (Hp r). }
    rewrite E. cbn [orb]. cbv zeta. rewrite trim_once.
    + rewrite trim_none; [now rewrite T2|]. apply N; auto. cbn. intuition discriminate.
    + rewrite app_length. cbn. lia.
    + intros r C. destruct v as [|c v]; [discriminate|]. apply Q. left. now inversion C.
Qed.

Lemma version_none : forall n, (forall r, n <> version_prefix ++ r) -> (forall r, n <> 34 :: version_prefix ++ r) -> version_of n = None.
Proof.
  intros n H1 H2. unfold version_of.
  destruct (starts_with (34 :: version_prefix) n) eqn:E1; [apply starts_with_iff in E1 as (r & ->); now destruct (H2 r)|].
  destruct (starts_with version_prefix n) eqn:E2; [apply starts_with_iff in E2 as (r & ->); now destruct (H1 r)|]. reflexivity.
Qed.

Theorem announcements : forall y ys s,
  (forall v, plain_version v ->
    y_name y = Some (lit "_defmt_version_ = " ++ v) \/ y_name y = Some (lit """_defmt_version_ = " ++ v ++ lit """") ->
    versions (MkElf (y :: ys) s) = v :: versions (MkElf ys s)) /\
  ((forall n r, y_name y = Some n -> n <> lit "_defmt_version_ = " ++ r /\ n <> lit """_defmt_version_ = " ++ r) ->
    versions (MkElf (y :: ys) s) = versions (MkElf ys s)) /\
  (forall e, y_name y = Some (lit "_defmt_encoding_ = " ++ e) -> encodings (MkElf (y :: ys) s) = e :: encodings (MkElf ys s)) /\
  ((forall e, y_name y <> Some (lit "_defmt_encoding_ = " ++ e)) -> encodings (MkElf (y :: ys) s) = encodings (MkElf ys s)).
Proof.
  intros y ys s. unfold versions, encodings. cbn [elf_symbols flat_map]. split; [|split; [|split]].
  - intros v [Q H] Hn. destruct (version_name v Q H) as [A B].
    destruct Hn as [-> | ->]; [change (lit "_defmt_version_ = ") with version_prefix; rewrite A|
      change (lit """_defmt_version_ = " ++ v ++ lit """") with (34 :: version_prefix ++ v ++ [34]); rewrite B]; reflexivity.
  - intros H. destruct (y_name y) as [n|]; [|reflexivity]. rewrite version_none; [reflexivity| |]; intros r C; destruct (H n r eq_refl) as [H1 H2];
      [now apply H1|now apply H2].
  - intros e ->. unfold encoding_of. now rewrite strip_prefix_app.
  - intros H. destruct (y_name y) as [n|]; [|reflexivity]. unfold encoding_of. destruct (strip_prefix _ n) as [r|] eqn:E; [|reflexivity].
    apply strip_prefix_some in E. subst n. now destruct (H r).
Qed.
