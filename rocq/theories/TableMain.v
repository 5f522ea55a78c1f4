(** The table of a binary: contents, acceptance, independence of the order (C35, C36). *)
From Verif Require Import Base Utf8 ParserModel DecoderModel DecoderProofs Numerals DisplayModel EnvFilterModel EnvFilterSpec
  EnvFilterProofs SymbolModel SymbolProofs TableModel TableSpec TableProofs.
From Coq Require Import Permutation Sorting.Sorted.

Lemma parse_elf_some : forall check f t, addresses_ok f ->
  parse_elf check f = Ok (Some t) <->
  exists sec data v e xs, elf_defmt f = Some (sec, data) /\ versions f = [v] /\ (check = true -> version_ok v = true) /\
    encodings f = [e] /\ encoding_from_str e = Some (t_encoding t) /\
    Forall2 (contributes sec data) (elf_symbols f) xs /\ timestamps xs = olist (t_timestamp t) /\
    t_entries t = put_all (strings xs) [] /\ t_bitflags t = finish_flags (push_all xs []).
Proof.
  intros check f t A.
  assert (A0 : Forall (fun y => 0 <= y_address y) (elf_symbols f)).
  { eapply Forall_impl; [|exact A]. cbn. intros; lia. }
  unfold parse_elf. split.
  - destruct (first_pass (elf_symbols f) None None) as [[v e]| | |] eqn:E; cbn [bind]; try discriminate.
    apply first_pass_ok in E as [E1 E2]. cbn [olist app fst snd] in *.
    destruct (elf_defmt f) as [[sec data]|]; destruct v as [v|]; try discriminate.
    destruct (check && negb (version_ok v)) eqn:Ev; try discriminate.
    destruct e as [e|]; cbn [bind]; try discriminate. destruct (encoding_from_str e) as [enc|] eqn:Ee; cbn [bind]; try discriminate.
    destruct (second_pass sec data (elf_symbols f) (MkBuilding [] [] None)) as [b| | |] eqn:E3; cbn [bind]; try discriminate.
    apply second_pass_ok in E3 as (xs & F & H); auto. apply add_items_ok in H as (H1 & H2 & H3). cbn in H1, H2, H3.
    intros H. inversion H; subst t. clear H. cbn. exists sec, data, v, e, xs. repeat split; auto; try congruence.
    intros ->. cbn in Ev. now apply negb_false_iff in Ev.
  - intros (sec & data & v & e & xs & Hd & Hv & Hc & He & Henc & F & Ht & Hm & Hf).
    assert (E : first_pass (elf_symbols f) None None = Ok (Some v, Some e)) by (apply first_pass_ok; auto).
    rewrite E. cbn [bind fst snd]. rewrite Hd.
    replace (check && negb (version_ok v)) with false.
    2: { destruct check; auto. rewrite Hc; auto. }
    rewrite Henc. cbn [bind].
    assert (S : second_pass sec data (elf_symbols f) (MkBuilding [] [] None) =
      Ok (MkBuilding (put_all (strings xs) []) (push_all xs []) (t_timestamp t))).
    { apply second_pass_ok; auto. exists xs. split; auto. apply add_items_ok. cbn. auto. }
    rewrite S. cbn [bind b_map b_flags b_timestamp]. rewrite <- Hm, <- Hf. destruct t; reflexivity.
Qed.

Lemma contributes_unique : forall sec data y x x', 0 <= y_address y -> contributes sec data y x -> contributes sec data y x' -> x = x'.
Proof. intros sec data y x x' A C C'. apply classify_iff in C, C'; auto. congruence. Qed.

Lemma forall2_in : forall {A B} (R : A -> B -> Prop) l m b, Forall2 R l m -> In b m -> exists a, In a l /\ R a b.
Proof. intros A B R l m b F. induction F as [|x y l m H F IH]; intros I; [destruct I|]. destruct I as [->|I]; [exists x; split; auto; now left|].
  destruct (IH I) as (a & I1 & I2). exists a. split; auto. now right. Qed.

Lemma forall2_in' : forall {A B} (R : A -> B -> Prop) l m a, Forall2 R l m -> In a l -> exists b, In b m /\ R a b.
Proof. intros A B R l m a F. induction F as [|x y l m H F IH]; intros I; [destruct I|]. destruct I as [->|I]; [exists y; split; auto; now left|].
  destruct (IH I) as (b & I1 & I2). exists b. split; auto. now right. Qed.

Lemma strings_in : forall xs a e, In (a, e) (strings xs) <-> In (IString a e) xs.
Proof.
  intros xs a e. unfold strings. rewrite in_flat_map. split.
  - intros (x & I & H). destruct x; cbn in H; try contradiction. destruct H as [H|[]]. inversion H; subst. exact I.
  - intros I. exists (IString a e). split; auto. now left.
Qed.

Lemma timestamps_in : forall xs e, In e (timestamps xs) <-> In (ITimestamp e) xs.
Proof.
  intros xs e. unfold timestamps. rewrite in_flat_map. split.
  - intros (x & I & H). destruct x; cbn in H; try contradiction. destruct H as [H|[]]. subst. exact I.
  - intros I. exists (ITimestamp e). split; auto. now left.
Qed.

Lemma strings_spec : forall sec data ys xs a e, Forall (fun y => 0 <= y_address y) ys -> Forall2 (contributes sec data) ys xs ->
  In (a, e) (strings xs) <-> has_string sec ys a e.
Proof.
  intros sec data ys xs a e A F. rewrite strings_in. split.
  - intros I. destruct (forall2_in _ _ _ _ F I) as (y & Iy & C). inversion C as [e' d D T S E|?|?|?]; subst.
    exists y, d. auto 8.
  - intros (y & d & Iy & D & <- & T & S & E).
    destruct (forall2_in' _ _ _ _ F Iy) as (x & Ix & C).
    assert (C' : contributes sec data y (IString (y_address y) e)) by (eapply K_string; eauto).
    rewrite Forall_forall in A. now rewrite <- (contributes_unique _ _ _ _ _ (A y Iy) C C').
Qed.

(** The strings of the table are the strings of the binary. *)
Theorem table_strings : forall check f sec data t, addresses_ok f ->
  parse_elf check f = Ok (Some t) -> elf_defmt f = Some (sec, data) ->
  distinct_addresses sec (elf_symbols f) ->
  forall a e, lookup_entry a (t_entries t) = Some e <-> has_string sec (elf_symbols f) a e.
Proof.
  intros check f sec data t A P Hd DA a e. apply parse_elf_some in P; auto.
  destruct P as (sec' & data' & v & en & xs & Hd' & _ & _ & _ & _ & F & _ & Hm & _).
  rewrite Hd in Hd'. inversion Hd'; subst sec' data'.
  assert (A0 : Forall (fun y => 0 <= y_address y) (elf_symbols f)) by (eapply Forall_impl; [|exact A]; cbn; intros; lia).
  destruct (put_all_in (strings xs) [] as_nil) as (S & I1 & I2). rewrite Hm. rewrite lookup_in by auto. split.
  - intros I. apply I1 in I as [I|[]]. eapply strings_spec in I; eauto.
  - intros H. assert (I : In (a, e) (strings xs)) by (eapply strings_spec; eauto).
    destruct (I2 a e (or_introl I)) as (f' & I'). pose proof I' as J. apply I1 in J as [J|[]].
    eapply strings_spec in J; eauto. now rewrite (DA a e f' H J).
Qed.

(** Without that condition, every entry still comes from a string of the binary. *)
Theorem table_strings_sound : forall check f sec data t, addresses_ok f ->
  parse_elf check f = Ok (Some t) -> elf_defmt f = Some (sec, data) ->
  forall a e, lookup_entry a (t_entries t) = Some e -> has_string sec (elf_symbols f) a e.
Proof.
  intros check f sec data t A P Hd a e. apply parse_elf_some in P; auto.
  destruct P as (sec' & data' & v & en & xs & Hd' & _ & _ & _ & _ & F & _ & Hm & _).
  rewrite Hd in Hd'. inversion Hd'; subst sec' data'.
  assert (A0 : Forall (fun y => 0 <= y_address y) (elf_symbols f)) by (eapply Forall_impl; [|exact A]; cbn; intros; lia).
  destruct (put_all_in (strings xs) [] as_nil) as (S & I1 & I2). rewrite Hm. rewrite lookup_in by auto.
  intros I. apply I1 in I as [I|[]]. eapply strings_spec in I; eauto.
Qed.

Theorem table_timestamp : forall check f sec data t, addresses_ok f ->
  parse_elf check f = Ok (Some t) -> elf_defmt f = Some (sec, data) ->
  forall e, t_timestamp t = Some e <-> has_timestamp sec (elf_symbols f) e.
Proof.
  intros check f sec data t A P Hd e. apply parse_elf_some in P; auto.
  destruct P as (sec' & data' & v & en & xs & Hd' & _ & _ & _ & _ & F & Ht & _ & _).
  rewrite Hd in Hd'. inversion Hd'; subst sec' data'.
  assert (A0 : Forall (fun y => 0 <= y_address y) (elf_symbols f)) by (eapply Forall_impl; [|exact A]; cbn; intros; lia).
  assert (T : t_timestamp t = Some e <-> In (ITimestamp e) xs).
  { rewrite <- timestamps_in, Ht. destruct (t_timestamp t); cbn; split; try discriminate; try tauto; [intros H|intros [H|[]]]; try congruence.
    left. congruence. }
  rewrite T. split.
  - intros I. destruct (forall2_in _ _ _ _ F I) as (y & Iy & C). inversion C as [?|e' d D Tg G E|?|?]; subst. exists y, d. auto 8.
  - intros (y & d & Iy & D & Tg & G & E). destruct (forall2_in' _ _ _ _ F Iy) as (x & Ix & C).
    assert (C' : contributes sec data y (ITimestamp e)) by (eapply K_timestamp; eauto).
    rewrite Forall_forall in A0. now rewrite <- (contributes_unique _ _ _ _ _ (A0 y Iy) C C').
Qed.

Lemma flags_spec : forall sec data k ys xs, Forall (fun y => 0 <= y_address y) ys -> Forall2 (contributes sec data) ys xs ->
  flags_in sec (section_bytes data) k ys (flags k xs).
Proof.
  intros sec data k ys xs A F. induction F as [|y x ys xs C F IH]; [constructor|]. inversion A as [|? ? A1 A2]; subst.
  cbn [flags flat_map]. fold (flags k xs).
  assert (K : forall n i v, flag_symbol sec (section_bytes data) y k n i v -> x = IFlag k n i v).
  { intros n i v Hf. destruct data as [bs|].
    - assert (C' : contributes sec (Some bs) y (IFlag k n i v)) by (eapply K_flag; eauto).
      exact (contributes_unique _ _ _ _ _ A1 C C').
    - exfalso. destruct Hf as (? & ? & ? & _ & _ & _ & _ & _ & _ & _ & _ & B1 & B2 & _). cbn in B2. lia. }
  destruct x as [|e|j n i v|a e]; try (apply FI_skip; [|apply IH; auto]; intros n' i' v' Hf; apply K in Hf; discriminate).
  destruct (key_eqb k j) eqn:E.
  - apply key_eqb_iff in E. subst j. cbn [app]. apply FI_take; auto. inversion C as [?|?|bs ? ? ? ? Hd Hf|?]; subst. exact Hf.
  - cbn [app]. apply FI_skip; auto. intros n' i' v' Hf. apply K in Hf. inversion Hf; subst.
    assert (key_eqb k k = true) by (now apply key_eqb_iff). congruence.
Qed.

Lemma flags_in_unique : forall sec bs k ys vs vs', flags_in sec bs k ys vs -> flags_in sec bs k ys vs' -> vs = vs'.
Proof.
  intros sec bs k ys vs vs' F. revert vs'. induction F as [|y ys vs N F IH|y ys vs n i v H F IH]; intros vs' F'; inversion F'; subst; auto.
  - exfalso. eapply N; eauto.
  - exfalso. eapply H2; eauto.
  - f_equal; auto. 
    match goal with | X : flag_symbol _ _ y k n i v, Y : flag_symbol _ _ y k _ _ _ |- _ =>
      destruct X as (s1 & d1 & x1 & D1 & T1 & _ & Sp1 & P1 & _ & _ & _ & _ & _ & _ & b1 & w1 & a1 & E1 & L1 & M1 & V1);
      destruct Y as (s2 & d2 & x2 & D2 & T2 & _ & Sp2 & P2 & _ & _ & _ & _ & _ & _ & b2 & w2 & a2 & E2 & L2 & M2 & V2) end.
    destruct (defmt_symbol_unique _ _ _ _ _ _ D1 D2) as [<- <-]. rewrite Sp1 in Sp2. injection Sp2 as Qx Qn. rewrite <- Qx in P2.
    assert (Qw : w1 = w2).
    { rewrite E1 in E2. apply (middle_unique b1 w1 a1 b2 w2 a2); auto; lia. }
    congruence.
Qed.

(** The flags of a bitflags type, in the order of their definition. *)
Theorem table_flags : forall check f sec data t, addresses_ok f ->
  parse_elf check f = Ok (Some t) -> elf_defmt f = Some (sec, data) ->
  forall k, exists found sorted, flags_in sec (section_bytes data) k (elf_symbols f) found /\
    Permutation found sorted /\ StronglySorted by_index sorted /\
    lookup_flags k (t_bitflags t) = match sorted with [] => None | _ => Some (map (fun v => (fst (fst v), snd v)) sorted) end.
Proof.
  intros check f sec data t A P Hd k. apply parse_elf_some in P; auto.
  destruct P as (sec' & data' & v & en & xs & Hd' & _ & _ & _ & _ & F & _ & _ & Hf).
  rewrite Hd in Hd'. inversion Hd'; subst sec' data'.
  assert (A0 : Forall (fun y => 0 <= y_address y) (elf_symbols f)) by (eapply Forall_impl; [|exact A]; cbn; intros; lia).
  exists (flags k xs), (sort_values (flags k xs)). split; [now apply flags_spec|].
  split; [apply Permutation_sym, sort_perm|]. split; [apply sort_sorted|].
  rewrite Hf, finish_lookup by (apply push_all_nonempty; intros j; cbn; discriminate).
  rewrite push_all_values. change (values k []) with (@nil flag_value). cbn [app].
  pose proof (sort_perm (flags k xs)) as Sp. destruct (flags k xs) as [|w l].
  - reflexivity.
  - destruct (sort_values (w :: l)) eqn:Q; [apply Permutation_nil in Sp; discriminate|]. reflexivity.
Qed.

(** * Which binaries are accepted *)

Lemma encoding_iff : forall e, (exists x, encoding_from_str e = Some x) <-> (e = lit "raw" \/ e = lit "rzcobs").
Proof.
  intros e. unfold encoding_from_str. destruct (beq e (lit "raw")) eqn:E1; [apply beq_true in E1; split; eauto|].
  destruct (beq e (lit "rzcobs")) eqn:E2; [apply beq_true in E2; split; eauto|]. apply beq_false in E1, E2.
  split; [intros (x & H); discriminate|tauto].
Qed.

Lemma version_ok_iff : forall v, version_ok v = true <-> (v = lit "3" \/ v = lit "4").
Proof.
  intros v. unfold version_ok, defmt_versions. cbn [existsb]. rewrite !Bool.orb_true_iff, !beq_true.
  split; [intros [H|[H|H]]; auto; discriminate|tauto].
Qed.

Lemma contributes_readable : forall sec data ys, Forall (fun y => 0 <= y_address y) ys ->
  readable sec data ys <-> exists xs, Forall2 (contributes sec data) ys xs.
Proof.
  intros sec data ys A. split.
  - intros R. induction ys as [|y ys IH]; [exists []; constructor|]. inversion A as [|? ? A1 A2]; subst.
    destruct IH as (xs & F); auto. { intros z n I. apply R. now right. }
    assert (C : exists x, contributes sec data y x).
    { destruct (y_name y) as [name|] eqn:En.
      2: { exists ISkip. apply K_skip; [intros ? ? (Q & _)|intros ? Q]; congruence. }
      destruct (passed_over name) eqn:Ep.
      { apply passed_over_iff in Ep. exists ISkip.
        apply K_skip; [intros ? ? (Q & Q2 & _)|intros ? Q Q2]; exfalso; apply Q2; congruence. }
      apply seen_iff in Ep.
      destruct (section_eqb (y_section y) sec) eqn:Es.
      2: { exists ISkip. assert (NS : y_section y <> Some sec) by (intros Q; apply section_eqb_iff in Q; congruence).
           apply K_skip; [intros ? ? (_ & _ & Q3 & _)|intros ? _ _ Q3]; congruence. }
      apply section_eqb_iff in Es. destruct (R y name ltac:(now left) En Ep Es) as (d & Ed & Hf).
      assert (D : defmt_symbol sec y name d) by (repeat split; auto).
      destruct (tag_from_str (d_tag d)) as [g|] eqn:Et.
      2: { exists ISkip. apply K_skip.
           - intros n' d' D'. destruct (defmt_symbol_unique _ _ _ _ _ _ D D') as [<- <-]. exact Et.
           - intros n' Q _ _. exists d. congruence. }
      assert (St : string_tag g -> exists x, contributes sec data y x).
      { intros S. eexists. apply (K_string sec data y (MkEntry g (d_data d) name) d); auto. }
      destruct g; try (apply St; split; discriminate).
      - eexists. apply (K_timestamp sec data y (MkEntry GTimestamp (d_data d) name) d); auto.
      - apply tag_flag in Et. destruct (Hf Et) as (k & n & i & v & H). exists (IFlag k n i v).
        destruct data as [bs|]; [eapply K_flag; eauto|].
        exfalso. destruct H as (? & ? & ? & _ & _ & _ & _ & _ & _ & _ & _ & B1 & B2 & _). cbn in B2. lia. }
    destruct C as (x & C). exists (x :: xs). constructor; auto.
  - intros (xs & F) y name I En Ep Es. destruct (forall2_in' _ _ _ _ F I) as (x & _ & C).
    assert (D : exists d, demangle name = Ok d).
    { inversion C as [e d (D1 & _ & _ & D4) _ _ _|e d (D1 & _ & _ & D4) _ _ _|bs k n i v _ (s & d & ? & (D1 & _ & _ & D4) & _)|H1 H2]; subst.
      - exists d. congruence.
      - exists d. congruence.
      - exists d. congruence.
      - auto. }
    destruct D as (d & Ed). exists d. split; auto. intros Et. apply tag_flag in Et.
    assert (D : defmt_symbol sec y name d) by (repeat split; auto).
    inversion C as [e d' D' T S _|e d' D' T _ _|bs k n i v Hd Hf|H1 H2]; subst.
    + destruct (defmt_symbol_unique _ _ _ _ _ _ D D') as [_ <-]. rewrite Et in T. inversion T as [T']. destruct S as [_ S]. congruence.
    + destruct (defmt_symbol_unique _ _ _ _ _ _ D D') as [_ <-]. congruence.
    + exists k, n, i, v. exact Hf.
    + rewrite (H1 _ _ D) in Et. discriminate.
Qed.

Lemma is_timestamp_item : forall sec data y x, contributes sec data y x -> is_timestamp sec y <-> exists e, x = ITimestamp e.
Proof.
  intros sec data y x C. split.
  - intros (name & d & D & T). apply tag_timestamp in T. inversion C as [e d' D' T' S _|e d' D' T' _ _|bs k n i v Hd Hf|H1 H2]; subst; eauto.
    + destruct (defmt_symbol_unique _ _ _ _ _ _ D D') as [_ <-]. rewrite T in T'. inversion T' as [Q]. destruct S as [S _]. congruence.
    + destruct Hf as (s & d' & ? & D' & T' & _). destruct (defmt_symbol_unique _ _ _ _ _ _ D D') as [_ <-]. congruence.
    + rewrite (H1 _ _ D) in T. discriminate.
  - intros (e & ->). inversion C as [?|e' d' D' T' _ _|?|?]; subst. exists (e_symbol e), d'. split; auto. now apply tag_timestamp.
Qed.

Lemma two_timestamps_items : forall sec data ys xs, Forall2 (contributes sec data) ys xs ->
  two_timestamps sec ys <-> (2 <= length (timestamps xs))%nat.
Proof.
  intros sec data ys xs F. induction F as [|y x ys xs C F IH].
  - cbn. split; [|lia]. intros (a & y & b & y' & c & E & _). destruct a; discriminate.
  - assert (One : (1 <= length (timestamps xs))%nat <-> exists y', In y' ys /\ is_timestamp sec y').
    { split.
      - intros L. destruct (timestamps xs) as [|e l] eqn:Q; [cbn in L; lia|].
        assert (I : In (ITimestamp e) xs) by (apply timestamps_in; rewrite Q; now left).
        destruct (forall2_in _ _ _ _ F I) as (y' & I' & C'). exists y'. split; auto. eapply is_timestamp_item; eauto.
      - intros (y' & I' & T'). destruct (forall2_in' _ _ _ _ F I') as (x' & Ix & C').
        destruct (proj1 (is_timestamp_item _ _ _ _ C') T') as (e & Qe). rewrite Qe in Ix. apply timestamps_in in Ix.
        destruct (timestamps xs); [destruct Ix|cbn; lia]. }
    assert (Hd : (2 <= length (timestamps (x :: xs)))%nat <->
       ((exists e, x = ITimestamp e) /\ (1 <= length (timestamps xs))%nat) \/ (2 <= length (timestamps xs))%nat).
    { cbn [timestamps flat_map]. fold (timestamps xs). destruct x as [|e|j n i v|ad e]; cbn [app length]; split;
        try (intros H; right; exact H); try (intros [[(e' & Q) _]|H]; [discriminate|exact H]).
      - intros H. destruct (Nat.le_gt_cases 2 (length (timestamps xs))); [right; auto|left; split; [eauto|lia]].
      - intros [[_ H]|H]; lia. }
    rewrite Hd, One, <- IH, <- (is_timestamp_item _ _ _ _ C). split.
    + intros (a & u & b & u' & c & E & T & T'). destruct a as [|z a]; inversion E; subst.
      * left. split; auto. exists u'. split; auto. apply in_or_app. right. now left.
      * right. exists a, u, b, u', c. auto.
    + intros [(T & u' & I & T')|(a & u & b & u' & c & -> & T & T')].
      * apply in_split in I as (b & c & ->). exists [], y, b, u', c. auto.
      * exists (y :: a), u, b, u', c. auto.
Qed.

(** A binary is accepted exactly when it announces one supported version and one known
    encoding, has the section, its symbols can be read and it has at most one timestamp. *)
Theorem table_accepted : forall check f, addresses_ok f ->
  (exists t, parse_elf check f = Ok (Some t)) <->
  exists sec data v e, elf_defmt f = Some (sec, data) /\ versions f = [v] /\
    (check = true -> v = lit "3" \/ v = lit "4") /\ encodings f = [e] /\ (e = lit "raw" \/ e = lit "rzcobs") /\
    readable sec data (elf_symbols f) /\ ~ two_timestamps sec (elf_symbols f).
Proof.
  intros check f A.
  assert (A0 : Forall (fun y => 0 <= y_address y) (elf_symbols f)) by (eapply Forall_impl; [|exact A]; cbn; intros; lia).
  split.
  - intros (t & P). apply parse_elf_some in P; auto. destruct P as (sec & data & v & e & xs & Hd & Hv & Hc & He & Henc & F & Ht & _).
    exists sec, data, v, e. repeat split; auto.
    + intros C. apply version_ok_iff. auto.
    + apply encoding_iff. eauto.
    + apply contributes_readable; eauto.
    + rewrite (two_timestamps_items _ _ _ _ F), Ht. destruct (t_timestamp t); cbn; lia.
  - intros (sec & data & v & e & Hd & Hv & Hc & He & Henc & R & T). apply contributes_readable in R as (xs & F); auto.
    rewrite (two_timestamps_items _ _ _ _ F) in T. apply encoding_iff in Henc as (enc & Henc).
    exists (MkTable (hd_error (timestamps xs)) (put_all (strings xs) []) (finish_flags (push_all xs [])) enc).
    apply parse_elf_some; auto. exists sec, data, v, e, xs. cbn. repeat split; auto.
    + intros C. apply version_ok_iff. auto.
    + destruct (timestamps xs) as [|a [|b l]]; cbn in *; auto. lia.
Qed.

(** There is no table exactly when the binary has neither the section nor a version. *)
Theorem table_none : forall check f, parse_elf check f = Ok None <->
  elf_defmt f = None /\ versions f = [] /\ (length (encodings f) <= 1)%nat.
Proof.
  intros check f. unfold parse_elf. split.
  - destruct (first_pass (elf_symbols f) None None) as [[v e]| | |] eqn:E; cbn [bind]; try discriminate.
    apply first_pass_ok in E as [E1 E2]. cbn [olist app fst snd] in *.
    destruct (elf_defmt f) as [[sec data]|]; destruct v as [v|]; try discriminate.
    + destruct (check && _); try discriminate. destruct (match e with Some _ => _ | None => _ end) as [enc| | |]; cbn [bind]; try discriminate.
      destruct (second_pass _ _ _ _); cbn [bind]; discriminate.
    + intros _. split; auto. split; auto. unfold encodings. fold (encodings_of (elf_symbols f)). rewrite E2. destruct e; cbn; lia.
  - intros (Hd & Hv & He). rewrite Hd.
    assert (E : first_pass (elf_symbols f) None None = Ok (None, hd_error (encodings f))).
    { apply first_pass_ok. split; auto. cbn [olist app]. fold (encodings f).
      change (encodings_of (elf_symbols f)) with (encodings f). destruct (encodings f) as [|a [|b l]]; cbn in *; auto. lia. }
    rewrite E. reflexivity.
Qed.

(** No panic, unless a symbol lies at the very end of the address space. *)
Theorem table_safe : forall check f, Forall (fun y => y_address y < 2 ^ 64 - 16) (elf_symbols f) ->
  parse_elf check f <> Panic /\ parse_elf check f <> NoFuel.
Proof.
  intros check f A. unfold parse_elf.
  destruct (first_pass_cases (elf_symbols f) None None) as [((v & e) & ->)|[-> | ->]]; cbn [bind]; try (split; discriminate).
  cbn [fst snd]. destruct (elf_defmt f) as [[sec data]|]; destruct v as [v|]; try (split; discriminate).
  destruct (check && _); try (split; discriminate).
  destruct e as [e|]; cbn [bind]; try (split; discriminate). destruct (encoding_from_str e); cbn [bind]; try (split; discriminate).
  assert (S : forall ys b, Forall (fun y => y_address y < 2 ^ 64 - 16) ys -> second_pass sec data ys b <> Panic /\ second_pass sec data ys b <> NoFuel).
  { clear. induction ys as [|y ys IH]; intros b A; cbn [second_pass]; [split; discriminate|]. inversion A as [|? ? A1 A2]; subst.
    destruct (classify_safe sec data y A1) as [N1 N2]. destruct (classify sec data y) as [x| | |]; cbn [bind]; try (split; congruence).
    destruct (add_item b x) as [b'| | |] eqn:E; cbn [bind]; try (split; congruence).
    - now apply IH.
    - exfalso. destruct x; cbn in E; try discriminate. destruct (b_timestamp b); discriminate.
    - exfalso. destruct x; cbn in E; try discriminate. destruct (b_timestamp b); discriminate. }
  destruct (S (elf_symbols f) (MkBuilding [] [] None) A) as [N1 N2].
  destruct (second_pass sec data (elf_symbols f) (MkBuilding [] [] None)); cbn [bind]; split; congruence.
Qed.

(** * Order of the symbols *)

Lemma flat_map_perm : forall {A B} (f : A -> list B) l l', Permutation l l' -> Permutation (flat_map f l) (flat_map f l').
Proof.
  intros A B f l l' P. induction P as [|x l l' P IH|x y l|l l' l'' P1 IH1 P2 IH2]; cbn; auto.
  - now apply Permutation_app_head.
  - rewrite !app_assoc. apply Permutation_app_tail. apply Permutation_app_comm.
  - now transitivity (flat_map f l').
Qed.

Lemma forall2_perm : forall {A B} (R : A -> B -> Prop) l l' m, Permutation l l' -> Forall2 R l m ->
  exists m', Permutation m m' /\ Forall2 R l' m'.
Proof.
  intros A B R l l' m P. revert m. induction P as [|x l l' P IH|x y l|l l' l'' P1 IH1 P2 IH2]; intros m F.
  - inversion F; subst. exists []. auto.
  - inversion F as [|? b ? m' H F']; subst. destruct (IH _ F') as (m2 & P2 & F2). exists (b :: m2). auto.
  - inversion F as [|? b ? m' H F']; subst. inversion F' as [|? c ? m2 H2 F2]; subst. exists (c :: b :: m2). split; [constructor|]. auto.
  - destruct (IH1 _ F) as (m1 & Q1 & G1). destruct (IH2 _ G1) as (m2 & Q2 & G2). exists m2. split; auto. now transitivity m1.
Qed.

Lemma perm_single : forall {A} (a : A) l, Permutation [a] l -> l = [a].
Proof. intros A a l P. apply Permutation_length_1_inv in P. auto. Qed.

(** The order of the symbols is irrelevant. *)
Theorem table_order : forall check f f' sec data t, addresses_ok f ->
  elf_defmt f = Some (sec, data) -> elf_defmt f' = Some (sec, data) -> Permutation (elf_symbols f) (elf_symbols f') ->
  distinct_addresses sec (elf_symbols f) -> distinct_flags sec data (elf_symbols f) ->
  parse_elf check f = Ok (Some t) ->
  exists t', parse_elf check f' = Ok (Some t') /\
    t_entries t' = t_entries t /\ t_timestamp t' = t_timestamp t /\ t_encoding t' = t_encoding t /\
    forall k, lookup_flags k (t_bitflags t') = lookup_flags k (t_bitflags t).
Proof.
  intros check f f' sec data t A Hd Hd' Pm DA DF P.
  assert (A' : addresses_ok f').
  { unfold addresses_ok in *. rewrite Forall_forall in *. intros y I. apply A. eapply Permutation_in; [apply Permutation_sym|]; eauto. }
  assert (A0 : Forall (fun y => 0 <= y_address y) (elf_symbols f)) by (eapply Forall_impl; [|exact A]; cbn; intros; lia).
  assert (A0' : Forall (fun y => 0 <= y_address y) (elf_symbols f')) by (eapply Forall_impl; [|exact A']; cbn; intros; lia).
  pose proof P as P0. apply parse_elf_some in P; auto.
  destruct P as (sec' & data' & v & e & xs & Hd2 & Hv & Hc & He & Henc & F & Ht & Hm & Hf).
  rewrite Hd in Hd2. inversion Hd2; subst sec' data'.
  destruct (forall2_perm _ _ _ _ Pm F) as (xs' & Px & F').
  assert (Hv' : versions f' = [v]). { apply perm_single. rewrite <- Hv. now apply flat_map_perm. }
  assert (He' : encodings f' = [e]). { apply perm_single. rewrite <- He. now apply flat_map_perm. }
  assert (Ht' : timestamps xs' = olist (t_timestamp t)).
  { rewrite <- Ht. pose proof (flat_map_perm (fun x => match x with ITimestamp e => [e] | _ => [] end) _ _ Px) as Q.
    fold (timestamps xs) (timestamps xs') in Q. rewrite Ht in Q |- *. destruct (t_timestamp t); cbn in *; [now apply perm_single|now apply Permutation_nil]. }
  exists (MkTable (t_timestamp t) (put_all (strings xs') []) (finish_flags (push_all xs' [])) (t_encoding t)). split; [|cbn; split; [|split; [auto|split; [auto|]]]].
  - apply parse_elf_some; auto. exists sec, data, v, e, xs'. cbn. auto 10.
  - rewrite Hm. destruct (put_all_in (strings xs) [] as_nil) as (S1 & I1 & I2). destruct (put_all_in (strings xs') [] as_nil) as (S2 & J1 & J2).
    assert (Same : forall a g, In (a, g) (strings xs) <-> In (a, g) (strings xs')).
    { intros a g. rewrite !strings_in. split; apply Permutation_in; auto. now apply Permutation_sym. }
    assert (Fn : forall a g h, In (a, g) (strings xs) -> In (a, h) (strings xs) -> g = h).
    { intros a g h H1 H2. apply (DA a); eapply strings_spec; eauto. }
    apply asorted_ext; auto. intros a g. split; intros I.
    + apply J1 in I as [I|[]]. apply Same in I. destruct (I2 a g (or_introl I)) as (h & H). pose proof H as H'. apply I1 in H' as [H'|[]].
      now rewrite (Fn a g h I H').
    + apply I1 in I as [I|[]]. pose proof (proj1 (Same a g) I) as I'. destruct (J2 a g (or_introl I')) as (h & H). pose proof H as H'. apply J1 in H' as [H'|[]].
      apply Same in H'. now rewrite (Fn a g h I H').
  - intros k. rewrite Hf. rewrite !finish_lookup by (apply push_all_nonempty; intros j; cbn; discriminate).
    rewrite !push_all_values. change (values k []) with (@nil flag_value). cbn [app].
    pose proof (flat_map_perm (fun x => match x with IFlag j n i v => if key_eqb k j then [(n, i, v)] else [] | _ => [] end) _ _ Px) as Q.
    fold (flags k xs) (flags k xs') in Q.
    assert (E : sort_values (flags k xs) = sort_values (flags k xs')).
    { apply sorted_perm_eq; try apply sort_sorted.
      - rewrite !sort_perm. exact Q.
      - eapply Permutation_NoDup; [apply Permutation_map, Permutation_sym, sort_perm|]. apply (DF k). now apply flags_spec. }
    rewrite E. destruct (flags k xs) as [|w l], (flags k xs') as [|w' l']; auto;
      exfalso; [apply Permutation_nil in Q|apply Permutation_sym, Permutation_nil in Q]; discriminate.
Qed.

Theorem table_encoding : forall check f t, addresses_ok f -> parse_elf check f = Ok (Some t) ->
  encodings f = [match t_encoding t with EncRaw => lit "raw" | EncRzcobs => lit "rzcobs" end].
Proof.
  intros check f t A P. apply parse_elf_some in P; auto. destruct P as (sec & data & v & e & xs & _ & _ & _ & He & Henc & _).
  rewrite He. f_equal. unfold encoding_from_str in Henc. destruct (beq e (lit "raw")) eqn:E1; [apply beq_true in E1; inversion Henc; auto|].
  destruct (beq e (lit "rzcobs")) eqn:E2; [apply beq_true in E2; inversion Henc; auto|discriminate].
Qed.
