(** From [bitflags!] to the printed names of flags (C52). *)
From Verif Require Import Base Utf8 ParserModel DecoderModel Numerals EncodeModel EncodeSpec DeriveProofs DisplayModel DisplayProofs
  EnvFilterModel EnvFilterProofs SymbolModel SymbolProofs TableModel TableSpec TableProofs TableMain LevelProofs PanicProofs
  TextSpec TextProofs TextMain FlagsModel FlagsSpec.
From Coq Require Import Permutation Sorting.Sorted.

Lemma valid_app : forall a b, utf8_valid a = true -> utf8_valid b = true -> utf8_valid (a ++ b) = true.
Proof.
  intros a b A B. destruct (chars_valid a A) as [Fa <-]. destruct (chars_valid b B) as [Fb <-].
  unfold utf8_text. rewrite <- concat_app, <- map_app. apply utf8_text_valid. apply Forall_app. auto.
Qed.

Lemma valid_digits : forall s, Forall (fun c => is_digit c = true) s -> utf8_valid s = true.
Proof.
  induction 1 as [|c s D _ IH]; [reflexivity|]. change (c :: s) with ([c] ++ s). apply valid_app; auto.
  unfold is_digit in D. assert (R : 48 <= c <= 57) by lia. clear - R.
  assert (forallb (fun c => utf8_valid [c]) [48;49;50;51;52;53;54;55;56;57] = true) as H by (vm_compute; reflexivity).
  rewrite forallb_forall in H. apply H. cbn [In]. lia.
Qed.

Section Flags.
  Context (b : bitflags) (OK : bitflags_ok b).

  Definition static_data (i : Z) (fl : flag) : bytes := bf_ident b ++ lit "::" ++ dec_str i ++ lit "::" ++ fl_name fl.

  Lemma dec_no_colon : forall i, 0 <= i -> ~ In 58 (dec_str i).
  Proof.
    intros i H I. pose proof (dec_str_digits i H) as D. rewrite Forall_forall in D. apply D in I. discriminate.
  Qed.

  Lemma static_symbol_ok : forall i fl, 0 <= i -> utf8_valid (fl_name fl) = true ->
    symbol_ok (MkSymbol (bf_package b) (bf_disambiguator b) (lit "defmt_bitflags_value") (static_data i fl) (bf_crate b)).
  Proof using OK.
    intros i fl Hi V. destruct OK as (N & _ & _ & D & _). rewrite !Forall_cons_iff in N.
    destruct N as ((_ & N1) & (_ & N2) & (_ & N3) & _).
    repeat split; cbn [s_package s_tag s_data s_crate s_disambiguator]; auto.
    unfold static_data. repeat apply valid_app; auto. apply valid_digits, dec_str_digits, Hi.
  Qed.

  Lemma static_demangled : forall i fl, 0 <= i -> utf8_valid (fl_name fl) = true ->
    demangle (static_name b i fl) =
      Ok (MkDSymbol (bf_package b) (dec_str (bf_disambiguator b)) (lit "defmt_bitflags_value") (static_data i fl) (Some (bf_crate b))).
  Proof using OK. intros i fl Hi V. exact (demangle_mangle _ (static_symbol_ok i fl Hi V)). Qed.

  Lemma static_path : forall i fl, 0 <= i -> ~ In 58 (fl_name fl) ->
    split_path (static_data i fl) = [bf_ident b; dec_str i; fl_name fl].
  Proof using OK.
    intros i fl Hi N. destruct OK as (_ & C & _). unfold static_data.
    rewrite split_path_app by exact C. rewrite split_path_app by (apply dec_no_colon; exact Hi). rewrite split_path_single by exact N.
    reflexivity.
  Qed.

  Lemma parse_index : forall i, 0 <= i < 2 ^ 128 -> parse_u128 (dec_str i) = Some i.
  Proof.
    intros i H. unfold parse_u128. pose proof (dec_str_digits i ltac:(lia)) as D. pose proof (dec_str_ne i ltac:(lia)) as NE.
    assert (E : match dec_str i with [] => [] | c :: t => if c =? 43 then t else dec_str i end = dec_str i).
    { destruct (dec_str i) as [|c s]; [congruence|]. inversion D; subst. destruct (Z.eqb_spec c 43); [subst; discriminate|reflexivity]. }
    rewrite E. assert (F : forallb is_digit (dec_str i) = true) by (apply forallb_forall, Forall_forall, D). rewrite F.
    apply parse_digits_dec_str. lia.
  Qed.

  Lemma statics_in : forall st, In st (flag_statics b) <->
    exists n fl, nth_error (bf_flags b) n = Some fl /\ fl_enabled fl = true /\
      st = (static_name b (Z.of_nat n) fl, le_bytes 16 (fl_value fl)).
  Proof.
    intros st. unfold flag_statics. rewrite in_concat. split.
    - intros (l & I & H). apply in_mapi in I as (n & fl & N & <-). exists n, fl. split; [exact N|].
      rewrite Z.add_0_l in H. destruct (fl_enabled fl); [destruct H as [<-|[]]; auto|contradiction].
    - intros (n & fl & N & E & ->). eexists. split; [apply in_mapi; exists n, fl; split; [exact N|reflexivity]|].
      rewrite Z.add_0_l, E. left. reflexivity.
  Qed.

  Lemma flag_ok : forall n fl, nth_error (bf_flags b) n = Some fl ->
    utf8_valid (fl_name fl) = true /\ ~ In 58 (fl_name fl) /\ 0 <= fl_value fl < 2 ^ 128 /\ 0 <= Z.of_nat n < 2 ^ 128.
  Proof using OK.
    intros n fl N. destruct OK as (_ & _ & F & _ & L). pose proof (nth_error_In _ _ N) as I. rewrite Forall_forall in F.
    destruct (F _ I) as (A & B & C). split; [exact A|]. split; [exact B|]. split.
    - split; [apply C|]. eapply Z.lt_le_trans; [apply C|]. apply Z.pow_le_mono_r; [lia|]. destruct (bf_width b); cbn; lia.
    - assert (n < length (bf_flags b))%nat by (apply nth_error_Some; congruence). lia.
  Qed.

  (** The flags with their numbers. *)
  Fixpoint numbered (i : Z) (fls : list flag) : list flag_value :=
    match fls with
    | [] => []
    | fl :: r => (if fl_enabled fl then [(fl_name fl, i, fl_value fl)] else []) ++ numbered (i + 1) r
    end.

  Lemma numbered_in : forall fls i name j v, In (name, j, v) (numbered i fls) <->
    exists n fl, nth_error fls n = Some fl /\ fl_enabled fl = true /\ name = fl_name fl /\ v = fl_value fl /\ j = i + Z.of_nat n.
  Proof.
    induction fls as [|fl fls IH]; intros i name j v; cbn [numbered].
    - split; [intros []|]. intros (n & fl & N & _). destruct n; discriminate.
    - rewrite in_app_iff, IH. split.
      + intros [H|(n & g & N & E & A & B & C)].
        * exists 0%nat, fl. destruct (fl_enabled fl) eqn:E; [|contradiction]. destruct H as [H|[]]. injection H as <- <- <-.
          repeat split; auto. lia.
        * exists (S n), g. repeat split; auto. lia.
      + intros ([|n] & g & N & E & A & B & C); cbn [nth_error] in N.
        * left. injection N as ->. rewrite E. left. subst. f_equal. f_equal. lia.
        * right. exists n, g. repeat split; auto. lia.
  Qed.

  Lemma numbered_bound : forall fls i v, In v (numbered i fls) -> i <= snd (fst v).
  Proof. intros fls i [[name j] v] H. apply numbered_in in H as (n & fl & _ & _ & _ & _ & ->). cbn. lia. Qed.

  Lemma numbered_sorted : forall fls i, StronglySorted by_index (numbered i fls) /\ NoDup (map (fun v => snd (fst v)) (numbered i fls)).
  Proof.
    induction fls as [|fl fls IH]; intros i; cbn [numbered]; [split; constructor|]. destruct (IH (i + 1)) as [S N].
    assert (B : Forall (fun v => i + 1 <= snd (fst v)) (numbered (i + 1) fls))
      by (apply Forall_forall; intros v; apply numbered_bound).
    destruct (fl_enabled fl); cbn [app map fst snd]; auto. split; constructor; auto.
    - eapply Forall_impl; [|exact B]. intros v. unfold by_index. cbn. lia.
    - rewrite in_map_iff. intros (v & E & H). rewrite Forall_forall in B. apply B in H. lia.
  Qed.

  Lemma numbered_enabled : forall fls i, map (fun v : flag_value => (fst (fst v), snd v)) (numbered i fls) =
    map (fun fl => (fl_name fl, fl_value fl)) (filter fl_enabled fls).
  Proof.
    induction fls as [|fl fls IH]; intros i; cbn [numbered filter]; auto. rewrite map_app, IH.
    destruct (fl_enabled fl); reflexivity.
  Qed.

  Definition flags_key : bitflags_key := MkKey (bf_ident b) (bf_package b) (dec_str (bf_disambiguator b)) (Some (bf_crate b)).

  Section Binary.
    Context (sec : Z) (data : bytes) (ys : list elf_symbol).
    Context (AD : Forall (fun y => 0 <= y_address y < 2 ^ 64 - 16) ys) (CF : contains_flags sec data ys b).

    (** A flag found in the binary is the static of that number and name. *)
    Lemma found_static : forall y name i v, In y ys -> flag_symbol sec data y flags_key name i v ->
      exists n fl, nth_error (bf_flags b) n = Some fl /\ fl_enabled fl = true /\ i = Z.of_nat n /\ name = fl_name fl /\
        v = fl_value fl /\ y_name y = Some (static_name b (Z.of_nat n) fl).
    Proof using OK CF.
      intros y name i v Iy (sym & d & idx & D & T & Sz & P & Pi & K1 & K2 & K3 & _ & _ & _ & before & bits & after & Ed & Lb & L16 & ->).
      destruct CF as (C1 & C2 & C3). unfold flags_key in *. cbn [k_ident k_package k_disambig k_crate] in *.
      apply tag_flag in T.
      assert (I : In sym (map fst (flag_statics b))).
      { eapply C3; eauto. rewrite P. reflexivity. }
      apply in_map_iff in I as (st & Es & I). pose proof I as I'. apply statics_in in I as (n & fl & N & E & ->).
      destruct (flag_ok n fl N) as (V & NC & B & Bn). cbn [fst] in Es.
      destruct D as (Ny & _ & Sy & D). subst sym.
      rewrite (static_demangled (Z.of_nat n) fl) in D by (auto; lia). injection D as <-.
      cbn [d_data] in P. rewrite static_path in P by (auto; lia). injection P as <- <-.
      rewrite parse_index in Pi by auto. injection Pi as <-.
      exists n, fl. repeat split; auto.
      destruct (C1 _ I') as (y0 & Iy0 & Ny0 & _ & _ & before0 & after0 & Ed0 & Lb0). cbn [fst snd] in *.
      assert (y0 = y).
      { destruct (ForallOrdPairs_In C2 y0 y Iy0 Iy) as [H|[H|H]]; auto; exfalso; eapply H; eauto. }
      subst y0. rewrite Ed in Ed0. apply middle_unique in Ed0; [|lia|rewrite le_bytes_length; lia]. subst bits.
      apply le_value_bytes. change (256 ^ Z.of_nat 16) with (2 ^ 128). exact B.
    Qed.

    Lemma static_found : forall n fl, nth_error (bf_flags b) n = Some fl -> fl_enabled fl = true ->
      exists y, In y ys /\ flag_symbol sec data y flags_key (fl_name fl) (Z.of_nat n) (fl_value fl).
    Proof using OK CF AD.
      intros n fl N E. destruct CF as (C1 & _ & _).
      destruct (C1 _ (proj2 (statics_in _) (ex_intro _ n (ex_intro _ fl (conj N (conj E eq_refl)))))) as (y & Iy & Ny & Sy & Zy & before & after & Ed & Lb).
      cbn [fst snd] in *. rewrite le_bytes_length in Zy.
      destruct (flag_ok n fl N) as (V & NC & B & Bn). exists y. split; [exact Iy|].
      rewrite Forall_forall in AD. specialize (AD y Iy).
      exists (static_name b (Z.of_nat n) fl). eexists. exists (dec_str (Z.of_nat n)).
      split; [split; [exact Ny|split; [apply interned_visible|split; [exact Sy|apply static_demangled; auto; lia]]]|].
      split; [reflexivity|]. split; [exact Zy|]. split; [apply static_path; auto; lia|]. split; [apply parse_index; auto|].
      repeat (split; [reflexivity|]). split; [lia|]. split; [|split; [lia|]].
      - rewrite Ed, !app_length, le_bytes_length. lia.
      - exists before, (le_bytes 16 (fl_value fl)), after. repeat split; auto. symmetry. apply le_value_bytes.
        change (256 ^ Z.of_nat 16) with (2 ^ 128). exact B.
    Qed.

    Lemma flags_in_elements : forall zs vs, flags_in sec data flags_key zs vs -> forall name i v,
      In (name, i, v) vs <-> exists y, In y zs /\ flag_symbol sec data y flags_key name i v.
    Proof.
      induction 1 as [|y zs vs H _ IH|y zs vs n0 i0 v0 H F IH]; intros name i v.
      - split; [intros []|intros (y & [] & _)].
      - rewrite IH. split; intros (z & I & Fz); [exists z; split; [right|]; auto|].
        destruct I as [<-|I]; [exfalso; eapply H; eauto|exists z; auto].
      - cbn [In]. rewrite IH. split.
        + intros [Q|(z & I & Fz)]; [injection Q as <- <- <-; exists y; auto|exists z; auto].
        + intros (z & [<-|I] & Fz); [left|right; exists z; auto].
          assert (U : flags_in sec data flags_key (y :: zs) ((name, i, v) :: vs)) by (now apply FI_take).
          assert (U' : flags_in sec data flags_key (y :: zs) ((n0, i0, v0) :: vs)) by (now apply FI_take).
          pose proof (flags_in_unique _ _ _ _ _ _ U U') as Q. congruence.
    Qed.

    Lemma found_nodup : forall zs vs, incl zs ys ->
      ForallOrdPairs (fun y y' => forall st, In st (flag_statics b) -> y_name y = Some (fst st) -> y_name y' <> Some (fst st)) zs ->
      flags_in sec data flags_key zs vs -> NoDup vs.
    Proof using OK CF.
      intros zs vs Inc P F. induction F as [|y zs vs H F IH|y zs vs n i v H F IH]; [constructor| |];
        inversion P as [|? ? P1 P2]; subst.
      - apply IH; auto. intros z Hz. apply Inc. now right.
      - constructor; [|apply IH; auto; intros z Hz; apply Inc; now right].
        intros I. apply (flags_in_elements _ _ F) in I as (z & Iz & Hz).
        destruct (found_static y n i v (Inc _ (or_introl eq_refl)) H) as (m & fl & N & E & Em & _ & _ & Ny).
        destruct (found_static z n i v (Inc _ (or_intror Iz)) Hz) as (m' & fl' & N' & E' & Em' & _ & _ & Nz).
        assert (m' = m) by lia. subst m'. assert (fl' = fl) by congruence. subst fl'.
        rewrite Forall_forall in P1. refine (P1 z Iz (static_name b (Z.of_nat m) fl, le_bytes 16 (fl_value fl)) _ Ny Nz).
        apply statics_in. exists m, fl. auto.
    Qed.

    Lemma found_numbered : forall vs, flags_in sec data flags_key ys vs -> Permutation vs (numbered 0 (bf_flags b)).
    Proof using OK CF AD.
      intros vs F. apply NoDup_Permutation.
      - apply (found_nodup ys); auto; [intros z Hz; exact Hz|]. destruct CF as (_ & C & _). exact C.
      - destruct (numbered_sorted (bf_flags b) 0) as [_ N]. apply NoDup_map_inv in N. exact N.
      - intros [[name i] v]. rewrite (flags_in_elements _ _ F), numbered_in. split.
        + intros (y & Iy & Hy). destruct (found_static y name i v Iy Hy) as (n & fl & N & E & -> & -> & -> & _).
          exists n, fl. repeat split; auto.
        + intros (n & fl & N & E & -> & -> & ->). rewrite Z.add_0_l. apply static_found; auto.
    Qed.
  End Binary.
End Flags.

(** The table has the enabled flags in the order of the declaration. *)
Theorem flags_table : forall check f sec data t b,
  Forall (fun y => 0 <= y_address y < 2 ^ 64 - 16) (elf_symbols f) ->
  parse_elf check f = Ok (Some t) -> elf_defmt f = Some (sec, data) ->
  bitflags_ok b -> contains_flags sec (section_bytes data) (elf_symbols f) b ->
  lookup_flags (MkKey (bf_ident b) (bf_package b) (dec_str (bf_disambiguator b)) (Some (bf_crate b))) (t_bitflags t) =
    match enabled b with [] => None | fs => Some fs end.
Proof.
  intros check f sec data t b A P Hd OK C.
  assert (A' : addresses_ok f) by (eapply Forall_impl; [|exact A]; cbn; intros; lia).
  destruct (table_flags check f sec data t A' P Hd (flags_key b)) as (found & sorted & F & Pm & S & Lk).
  unfold flags_key in Lk. rewrite Lk. clear Lk.
  pose proof (found_numbered b OK sec (section_bytes data) (elf_symbols f) A C found F) as Pn.
  destruct (numbered_sorted (bf_flags b) 0) as [Sn Nn].
  assert (E : numbered 0 (bf_flags b) = sorted).
  { apply sorted_perm_eq; auto. apply Permutation_sym in Pn. eapply Permutation_trans; eauto. }
  unfold enabled. rewrite <- (numbered_enabled (bf_flags b) 0), E. destruct sorted; reflexivity.
Qed.

Lemma dec_name_ok : forall n, 0 <= n -> flags_name_ok (dec_str n).
Proof.
  intros n H. pose proof (dec_str_digits n H) as D. rewrite Forall_forall in D.
  repeat split; intros I; apply D in I; discriminate.
Qed.

(** A logged value is shown as the names of its flags. *)
Theorem flags_printed : forall X addr check f sec data t b h x names,
  Forall (fun y => 0 <= y_address y < 2 ^ 64 - 16) (elf_symbols f) ->
  parse_elf check f = Ok (Some t) -> elf_defmt f = Some (sec, data) ->
  bitflags_ok b -> contains_flags sec (section_bytes data) (elf_symbols f) b ->
  linked addr t (format_tag (flags_type b)) ->
  0 <= x < 2 ^ (8 * Z.of_nat (width_bytes (bf_width b))) -> flags_of x (enabled b) names ->
  prints X addr t h (flags_type b) (VNum x) (match enabled b with [] => dec_str x | _ => flags_text names end).
Proof.
  intros X addr check f sec data t b h x names A P Hd OK C L R F.
  pose proof (flags_table check f sec data t b A P Hd OK C) as T. destruct OK as (N & _ & _ & D & _).
  apply printable_prints. split; [exact L|]. split.
  - do 2 eexists. apply M_flags; [|exact R]. rewrite !Forall_cons_iff in N. destruct N as ((N1 & _) & (N2 & _) & (N3 & _) & _).
    pose proof (dec_name_ok _ D) as N4. auto 6.
  - unfold flags_type. destruct (enabled b) as [|fs0 fs] eqn:E.
    + now constructor.
    + econstructor; [exact T|exact F].
Qed.

(** The string of the type is in the table if the macro's other static is in the binary. *)
Theorem flags_linked : forall addr check f sec data t b,
  addresses_ok f -> parse_elf check f = Ok (Some t) -> elf_defmt f = Some (sec, data) -> distinct_addresses sec (elf_symbols f) ->
  bitflags_ok b ->
  (exists y, In y (elf_symbols f) /\ y_section y = Some sec /\ y_address y = addr (format_tag (flags_type b)) /\
     y_name y = Some (interned (bf_package b) (bf_disambiguator b) (bf_crate b) (lit "bitflags") (format_tag (flags_type b)))) ->
  0 < addr (format_tag (flags_type b)) < 65536 ->
  linked addr t (format_tag (flags_type b)).
Proof.
  intros addr check f sec data t b A P Hd DA OK (y & Iy & Sy & Ay & Ny) R. destruct OK as (N & _ & _ & D & _).
  rewrite !Forall_cons_iff in N. destruct N as ((_ & N1) & (_ & N2) & (_ & N3) & _).
  assert (V : utf8_valid (format_tag (flags_type b)) = true).
  { unfold flags_type. change (format_tag _) with (flags_str (bf_width b) (bf_ident b) (bf_package b) (dec_str (bf_disambiguator b)) (bf_crate b)).
    unfold flags_str. repeat apply valid_app; auto; try (destruct (bf_width b); reflexivity). apply valid_digits, dec_str_digits, D. }
  destruct (interned_found check f sec data t A P Hd DA y _ _ _ _ _ _ Iy Sy N2 N3 V D SK_bitflags Ny) as (e & L & T & S & _).
  split; [exact R|]. unfold get_without_level, get_with_level. rewrite <- Ay, L, T. cbn. now rewrite S.
Qed.
