(** The table of a linked program (C61). *)
From Verif Require Import Base Utf8 ParserModel DecoderModel EncodeModel EncodeSpec Numerals DisplayModel EnvFilterModel EnvFilterSpec
  SymbolModel SymbolProofs TableModel TableSpec TableProofs TableMain LevelProofs FlagsModel FlagsSpec FlagsProofs LinkModel LinkSpec LinkProofs LinkMain.
From Coq Require Import Permutation Sorting.Sorted.

Lemma flat_map_none : forall {A B} (g : A -> list B) l, Forall (fun x => g x = []) l -> flat_map g l = [].
Proof. intros A B g l F. induction F as [|x l H F IH]; cbn [flat_map]; [reflexivity|]. now rewrite H, IH. Qed.

Lemma flat_map_map : forall {A B C} (g : B -> list C) (h : A -> B) l, flat_map g (map h l) = flat_map (fun x => g (h x)) l.
Proof. intros A B C g h l. induction l as [|x l IH]; cbn [map flat_map]; [reflexivity|]. now rewrite IH. Qed.

(** Names of the macros announce nothing. *)
Lemma brace_silent : forall n, (exists r, n = 123 :: r) \/ n = timestamp_marker -> version_of n = None /\ encoding_of n = None.
Proof. intros n [(r & ->)| ->]; split; reflexivity. Qed.

Lemma macro_names : forall p st, In st (flat_map (statics_of (p_align p)) (p_uses p)) -> (exists r, st_name st = 123 :: r) \/ st_name st = timestamp_marker.
Proof.
  intros p st I. apply in_flat_map in I as (u & _ & I). unfold statics_of in I. rewrite in_app_iff in I. destruct I as [I|I].
  - destruct (string_of u) as [[[kind prefix] s]|]; [|destruct I]. destruct I as [<-|[]]. left. apply mangled_brace.
  - destruct (u_macro u) as [l t|t|t|t|t|t|ident w fls|t| |]; try (destruct I; fail).
    + apply in_map_iff in I as (x & <- & I). apply statics_in in I as (n & fl & _ & _ & ->). left. cbn [st_name fst].
      exact (mangled_brace (MkInvocation _ _ _) _ _).
    + destruct I as [<-|[<-|[]]]; [left; apply mangled_brace|now right].
Qed.

Section Table.
  Context (p : program) (k : image) (OK : program_ok p) (L : link p = Ok k) (sec : Z) (f : elf) (B : binary p k sec f).

  Lemma announced : forall (g : bytes -> option bytes),
    (forall n, (exists r, n = 123 :: r) \/ n = timestamp_marker -> g n = None) ->
    (forall y n, other_symbol p sec y -> y_name y = Some n -> g n = None) ->
    Permutation (flat_map (fun y => match y_name y with Some n => olist (g n) | None => [] end) (elf_symbols f))
      (flat_map (fun st => olist (g (st_name st))) (defmt_statics (p_features p))).
  Proof using OK L B.
    intros g G1 G2. destruct B as (_ & others & P & O).
    rewrite (flat_map_perm _ _ _ P), flat_map_app.
    rewrite (flat_map_none _ others).
    2: { eapply Forall_impl; [|exact O]. intros y Hy. destruct (y_name y) as [n|] eqn:E; [|reflexivity]. now rewrite (G2 y n Hy E). }
    rewrite app_nil_r, flat_map_map. cbn [static_symbol y_name].
    destruct (p_facts p k OK L) as (_ & _ & _ & _ & -> & _).
    rewrite <- (flat_map_map (fun st => olist (g (st_name st))) fst).
    rewrite (flat_map_perm _ _ _ (layout_perm (used p) (used_ok p (proj1 OK)))).
    unfold used, statics. rewrite filter_app, flat_map_app. rewrite flat_map_none.
    - cbn [app]. reflexivity.
    - apply Forall_forall. intros st I. apply filter_In in I as [I _]. apply macro_names in I. now rewrite (G1 _ I).
  Qed.

  Lemma one_version : versions f = [lit "4"].
  Proof using OK L B.
    pose proof (announced version_of) as H. apply perm_single, Permutation_sym. unfold versions.
    etransitivity; [apply H|].
    - intros n Hn. now apply brace_silent.
    - intros y n (_ & _ & O) E. rewrite E in O. destruct O as [_ O]. apply version_none; intros r; [apply (O r)|].
      intros Q. now apply (proj1 (proj2 (O r))).
    - cbn [defmt_statics flat_map st_name]. destruct (feat_raw (p_features p)); reflexivity.
  Qed.

  Definition encoding_name (e : encoding) : bytes := match e with EncRaw => lit "raw" | EncRzcobs => lit "rzcobs" end.

  Lemma one_encoding : exists e, chosen_encoding (p_features p) = Some e /\ encodings f = [encoding_name e].
  Proof using OK L B.
    pose proof (announced encoding_of) as H. destruct (p_facts p k OK L) as (E & _).
    exists (if feat_raw (p_features p) then EncRaw else EncRzcobs). split.
    - unfold chosen_encoding in *. destruct (feat_raw (p_features p) && feat_rzcobs (p_features p)); [congruence|]. destruct (feat_raw (p_features p)); reflexivity.
    - apply perm_single, Permutation_sym. unfold encodings. etransitivity; [apply H|].
      + intros n Hn. now apply brace_silent.
      + intros y n (_ & _ & O) Q. rewrite Q in O. destruct O as [_ O]. unfold encoding_of.
        destruct (strip_prefix (lit "_defmt_encoding_ = ") n) as [r|] eqn:S; [|reflexivity]. apply Base.strip_prefix_some in S.
        exfalso. now apply (proj2 (proj2 (O r))).
      + cbn [defmt_statics flat_map st_name]. destruct (feat_raw (p_features p)); reflexivity.
  Qed.

  Lemma flag_known : forall st a u ident w fls n fl, In (st, a) (im_placed k) -> In u (p_uses p) -> u_macro u = UBitflags ident w fls ->
    nth_error fls n = Some fl -> fl_enabled fl = true ->
    st_name st = static_name (flags_at (u_at u) ident w fls) (Z.of_nat n) fl -> st_data st = le_bytes 16 (fl_value fl) ->
    flag_symbol sec (im_data k) (static_symbol sec (st, a)) (flags_key (flags_at (u_at u) ident w fls)) (fl_name fl) (Z.of_nat n) (fl_value fl).
  Proof using OK L.
    intros st a u ident w fls n fl I Iu M N En Nm Dt. pose proof (use_in_ok p OK u Iu) as (_ & _ & _ & T). rewrite M in T.
    destruct (flag_ok _ T n fl N) as (V & NC & Bv & Bn).
    exists (st_name st). eexists. exists (dec_str (Z.of_nat n)).
    split; [split; [reflexivity|split; [rewrite Nm; apply interned_visible|split; [reflexivity|rewrite Nm; exact (static_demangled _ T (Z.of_nat n) fl ltac:(lia) V)]]]|].
    split; [reflexivity|]. split; [cbn [static_symbol y_size fst]; rewrite Dt, le_bytes_length; reflexivity|].
    split; [exact (static_path _ T (Z.of_nat n) fl ltac:(lia) NC)|]. split; [apply parse_index; lia|].
    repeat (split; [reflexivity|]). cbn [static_symbol y_address snd].
    pose proof (placed_range p k OK L st a I) as R. destruct (section_data p k OK L st a I) as (before & after & Ed & Lb).
    unfold size in R. rewrite Dt, le_bytes_length in R.
    split; [lia|]. split; [|split; [lia|]].
    - rewrite Ed, !app_length, Dt, le_bytes_length. lia.
    - exists before, (le_bytes 16 (fl_value fl)), after. split; [now rewrite Ed, Dt|]. split; [exact Lb|]. split; [apply le_bytes_length|].
      symmetry. apply le_value_bytes. change (256 ^ Z.of_nat 16) with (2 ^ 128). exact Bv.
  Qed.

  Lemma all_readable : readable sec (Some (im_data k)) (elf_symbols f).
  Proof using OK L B.
    intros y name I Ny NO Sy. apply (symbols p k sec f B) in I as [(st & a & I & ->)|[_ (O & _)]].
    - cbn [static_symbol y_name fst] in Ny. injection Ny as <-.
      destruct (placed_known p k OK L st a I) as [O|(d & D & K)]; [contradiction|]. exists d. split; [exact D|]. intros T.
      destruct K as [u kind g s _ _ G _ -> Tg St|u ident w fls n fl Iu M N En Nm Dt Dd|u s _ M _ ->].
      + exfalso. apply (proj2 (tag_flag _)) in T. destruct St as [_ St]. congruence.
      + do 4 eexists. cbn [section_bytes]. exact (flag_known st a u ident w fls n fl I Iu M N En Nm Dt).
      + discriminate.
    - exfalso. destruct O as [O|(r & O)]; [congruence|]. rewrite O in Ny. injection Ny as <-. apply NO.
      change (lit "__DEFMT_MARKER_" ++ r) with (lit "__DEFMT_MARKER" ++ lit "_" ++ r). constructor.
  Qed.

  (** Symbols with one name in the section. *)
  Definition named (n : bytes) (y : elf_symbol) : bool :=
    match y_name y with Some m => beq m n | None => false end.

  Lemma filter_perm : forall {A} (g : A -> bool) l l', Permutation l l' -> length (filter g l) = length (filter g l').
  Proof.
    intros A g l l' P. induction P as [|x l l' P IH|x y l|l l' l'' P1 IH1 P2 IH2]; cbn [filter]; auto.
    - destruct (g x); cbn [length]; lia.
    - destruct (g x), (g y); reflexivity.
    - lia.
  Qed.

  Lemma once : forall n, In n (map st_name (statics p)) -> (length (filter (named n) (elf_symbols f)) <= 1)%nat.
  Proof using OK L B.
    intros n In_. destruct B as (_ & others & P & O). rewrite (filter_perm _ _ _ P), filter_app, app_length.
    assert (E : filter (named n) others = []).
    { clear P. induction O as [|y others Hy O IH]; cbn [filter]; [reflexivity|].
      assert (named n y = false) as ->; [|exact IH]. unfold named. destruct Hy as (_ & _ & Hy). destruct (y_name y) as [m|]; [|reflexivity].
      destruct (beq m n) eqn:Q; [|reflexivity]. apply beq_true in Q. subst. destruct Hy as [Hy _]. contradiction. }
    rewrite E. cbn [length]. rewrite Nat.add_0_r. pose proof (placed_nodup p k OK L) as N. clear - N.
    induction (im_placed k) as [|[st a] pl IH]; cbn [map filter length]; [lia|]. cbn [map] in N. inversion N as [|? ? J N']; subst.
    specialize (IH N'). unfold named at 1. cbn [static_symbol y_name fst]. destruct (beq (st_name st) n) eqn:Q; [|exact IH].
    apply beq_true in Q. cbn [length]. assert (filter (named n) (map (static_symbol sec) pl) = []) as ->; [|cbn; lia].
    cbn [fst] in J. rewrite Q in J. clear - J. induction pl as [|[st a] pl IH]; cbn [map filter]; [reflexivity|].
    cbn [map fst] in J. unfold named at 1. cbn [static_symbol y_name fst]. destruct (beq (st_name st) n) eqn:E.
    - apply beq_true in E. exfalso. apply J. now left.
    - apply IH. intros H. apply J. now right.
  Qed.

  Lemma pair_named : forall n ys1 y ys2 y' ys3, elf_symbols f = ys1 ++ y :: ys2 ++ y' :: ys3 -> In n (map st_name (statics p)) ->
    y_name y = Some n -> y_name y' = Some n -> False.
  Proof using OK L B.
    intros n ys1 y ys2 y' ys3 E I Y Y'. pose proof (once n I) as H. rewrite E in H.
    assert (named n y = true /\ named n y' = true) as [N N'] by (unfold named; rewrite Y, Y', !beq_refl; auto).
    rewrite filter_app in H. cbn [filter] in H. rewrite N, filter_app in H. cbn [filter] in H. rewrite N' in H.
    rewrite app_length in H. cbn [length] in H. rewrite app_length in H. cbn [length] in H. lia.
  Qed.

  Lemma one_timestamp_use : forall u v s t, In u (p_uses p) -> In v (p_uses p) -> u_macro u = UTimestamp s -> u_macro v = UTimestamp t -> u = v.
  Proof using OK L.
    intros u v s t Iu Iv M M'. apply (nodup_flat_map functions_of (p_uses p) u v (lit "_defmt_timestamp") (functions_nodup p k OK L)); auto;
      unfold functions_of; rewrite ?M, ?M'; now left.
  Qed.

  Lemma timestamp_static : forall y, In y (elf_symbols f) -> is_timestamp sec y ->
    exists u s st a, In u (p_uses p) /\ u_macro u = UTimestamp s /\ In (st, a) (im_placed k) /\ y = static_symbol sec (st, a) /\
      st_name st = mangled (u_at u) (lit "timestamp") s.
  Proof using OK L B.
    intros y I (name & d & D & T). destruct (defmt_known p k OK L sec f B y name d I D) as (st & a & J & -> & -> & K).
    destruct K as [u kind g s _ _ G _ -> Tg St|u ident w fls n fl Iu M N En Nm Dt ->|u s Iu M Nm ->].
    - exfalso. apply (proj2 (tag_timestamp _)) in T. destruct St as [St _]. congruence.
    - discriminate.
    - exists u, s, st, a. auto.
  Qed.

  Lemma no_two_timestamps : ~ two_timestamps sec (elf_symbols f).
  Proof using OK L B.
    intros (ys1 & y & ys2 & y' & ys3 & E & T & T').
    assert (I : In y (elf_symbols f)) by (rewrite E; apply in_app_iff; right; now left).
    assert (I' : In y' (elf_symbols f)) by (rewrite E; apply in_app_iff; right; right; apply in_app_iff; right; now left).
    destruct (timestamp_static y I T) as (u & s & st & a & Iu & M & J & -> & Nm).
    destruct (timestamp_static y' I' T') as (v & t & st' & a' & Iv & M' & J' & -> & Nm').
    pose proof (one_timestamp_use u v s t Iu Iv M M'). subst v. rewrite M in M'. injection M' as <-.
    eapply (pair_named (st_name st)); [exact E| |reflexivity|cbn [static_symbol y_name fst]; congruence].
    apply in_map. apply (proj1 (placed_iff p k OK L st)). eauto.
  Qed.

  Lemma distinct : distinct_addresses sec (elf_symbols f).
  Proof using OK L B.
    intros a e e' (y & d & I & D & A & T & _ & S) (y' & d' & I' & D' & A' & T' & _ & S').
    destruct (defmt_static p k OK L sec f B y _ d I D) as (st & b & J & -> & E & Dm & _).
    destruct (defmt_static p k OK L sec f B y' _ d' I' D') as (st' & b' & J' & -> & E' & Dm' & _).
    cbn [static_symbol y_address snd] in A, A'. subst b b'. pose proof (placed_unique p k OK L st st' a J J'). subst st'.
    rewrite Dm in Dm'. injection Dm' as <-. destruct e, e'. cbn in *. congruence.
  Qed.

  (** The host accepts the program, with the encoding of the device. *)
  Theorem accepted : exists t, parse_elf true f = Ok (Some t) /\ chosen_encoding (p_features p) = Some (t_encoding t).
  Proof using OK L B.
    destruct one_encoding as (e & E & Ec).
    assert (H : exists t, parse_elf true f = Ok (Some t)).
    { apply table_accepted; [exact (addresses_fine p k OK L sec f B)|]. exists sec, (Some (im_data k)), (lit "4"), (encoding_name e).
      split; [apply B|]. split; [exact one_version|]. split; [now right|]. split; [exact Ec|]. split; [destruct e; cbn; tauto|].
      split; [exact all_readable|exact no_two_timestamps]. }
    destruct H as (t & P). exists t. split; [exact P|]. rewrite E. f_equal.
    pose proof (table_encoding true f t (addresses_fine p k OK L sec f B) P) as Q. rewrite Ec in Q. destruct e, (t_encoding t); try reflexivity; discriminate.
  Qed.

  Context (check : bool) (t : table) (P : parse_elf check f = Ok (Some t)).

  Lemma in_file : elf_defmt f = Some (sec, Some (im_data k)).
  Proof using B. apply B. Qed.

  (** A used string is in the table, at its index. *)
  Theorem string_found : forall u kind g s, In u (p_uses p) -> u_live u = true -> interns u kind g s ->
    exists a, at_address k (mangled (u_at u) kind s) a /\ 0 < a < 65534 /\
      exists e, lookup_entry a (t_entries t) = Some e /\ e_tag e = g /\ e_string e = s.
  Proof using OK L B P.
    intros u kind g s Iu V G. destruct (string_placed p k OK L u kind g s Iu V G) as (st & a & I & Nm). exists a.
    split; [exists st; auto|]. pose proof (placed_range p k OK L st a I) as R. split; [lia|].
    pose proof (use_in_ok p OK u Iu) as O. destruct (string_symbol_ok u kind g s O G) as (_ & SK & Vs). destruct O as (Vp & Vc & Dn & _).
    destruct (interned_found check f sec (Some (im_data k)) t (addresses_fine p k OK L sec f B) P in_file distinct
      (static_symbol sec (st, a)) (i_package (u_at u)) (i_disambiguator (u_at u)) (i_crate (u_at u)) kind g s) as (e & E & T & S & _); auto.
    - apply (symbols p k sec f B). left. exists st, a. auto.
    - cbn [static_symbol y_name fst]. rewrite Nm. reflexivity.
    - exists e. auto.
  Qed.

  (** Everything in the table is a used string. *)
  Theorem string_known : forall a e, lookup_entry a (t_entries t) = Some e ->
    exists u kind, In u (p_uses p) /\ u_live u = true /\ interns u kind (e_tag e) (e_string e) /\ at_address k (mangled (u_at u) kind (e_string e)) a.
  Proof using OK L B P.
    intros a e E. apply (table_strings_sound check f sec (Some (im_data k)) t (addresses_fine p k OK L sec f B) P in_file) in E.
    destruct E as (y & d & I & D & A & T & St & S). destruct (defmt_known p k OK L sec f B y _ d I D) as (st & b & J & -> & Es & K).
    cbn [static_symbol y_address snd] in A. subst b.
    destruct K as [u kind g s Iu V G Nm -> Tg Sg|u ident w fls n fl Iu M N En Nm Dt ->|u s Iu M Nm ->].
    - rewrite Tg in T. injection T as ->. cbn [d_data dsymbol_of] in S. subst s. exists u, kind. repeat split; auto. exists st. auto.
    - exfalso. destruct St as [_ St]. cbn in T. congruence.
    - exfalso. destruct St as [St _]. cbn in T. congruence.
  Qed.

  Theorem timestamp_iff : forall s, (exists e, t_timestamp t = Some e /\ e_string e = s) <-> uses_timestamp p s.
  Proof using OK L B P.
    intros s. split.
    - intros (e & E & S). apply (table_timestamp check f sec (Some (im_data k)) t (addresses_fine p k OK L sec f B) P in_file) in E.
      destruct E as (y & d & I & D & T & _ & Es). destruct (defmt_known p k OK L sec f B y _ d I D) as (st & b & J & -> & _ & K).
      destruct K as [u kind g s' Iu V G Nm -> Tg [Sg _]|u ident w fls n fl Iu M N En Nm Dt ->|u s' Iu M Nm ->].
      + congruence.
      + discriminate.
      + cbn [d_data dsymbol_of] in Es. exists u. split; [exact Iu|]. congruence.
    - intros (u & Iu & M).
      assert (H : In (static_variable (u_at u) (lit "timestamp") None s true) (statics p) /\ kept (static_variable (u_at u) (lit "timestamp") None s true) = true).
      { split; [apply statics_origin; now apply (OTime p u s)|reflexivity]. }
      apply (placed_iff p k OK L) in H as (a & I). exists (MkEntry GTimestamp s (mangled (u_at u) (lit "timestamp") s)). split; [|reflexivity].
      apply (table_timestamp check f sec (Some (im_data k)) t (addresses_fine p k OK L sec f B) P in_file).
      eexists. eexists. split; [apply (symbols p k sec f B); left; do 2 eexists; split; [exact I|reflexivity]|].
      split; [split; [reflexivity|split; [apply interned_visible|split; [reflexivity|apply (time_demangled u s (use_in_ok p OK u Iu) M)]]]|].
      cbn. auto.
  Qed.

  (** * Bitflags *)

  Context (W : forall u v ident w fls w' fls', In u (p_uses p) -> In v (p_uses p) -> u_macro u = UBitflags ident w fls ->
    u_macro v = UBitflags ident w' fls' -> u_at u = u_at v -> w = w').

  Lemma at_eq : forall u v, i_package (u_at u) = i_package (u_at v) -> i_disambiguator (u_at u) = i_disambiguator (u_at v) ->
    i_crate (u_at u) = i_crate (u_at v) -> u_at u = u_at v.
  Proof. intros u v. destruct (u_at u), (u_at v). cbn. congruence. Qed.

  Lemma flags_contained : forall u ident w fls, In u (p_uses p) -> u_macro u = UBitflags ident w fls ->
    contains_flags sec (im_data k) (elf_symbols f) (flags_at (u_at u) ident w fls).
  Proof using OK L B W.
    intros u ident w fls Iu M. set (b := flags_at (u_at u) ident w fls).
    assert (Names : forall st, In st (flag_statics b) -> In (fst st) (map st_name (statics p))).
    { intros x Ix. apply in_map_iff. eexists. split; [|apply statics_origin, (OFlag p u ident w fls x Iu M Ix)]. reflexivity. }
    split; [|split].
    - intros x Ix.
      assert (H : In (MkStatic (lit ".defmt.end") (fst x) (p_align p) (snd x) false) (statics p) /\ kept (MkStatic (lit ".defmt.end") (fst x) (p_align p) (snd x) false) = true).
      { split; [apply statics_origin, (OFlag p u ident w fls x Iu M Ix)|reflexivity]. }
      apply (placed_iff p k OK L) in H as (a & I). eexists. split; [apply (symbols p k sec f B); left; do 2 eexists; split; [exact I|reflexivity]|].
      split; [reflexivity|]. split; [reflexivity|]. split; [reflexivity|]. exact (section_data p k OK L _ a I).
    - assert (Q : forall l0 l, elf_symbols f = l0 ++ l ->
        ForallOrdPairs (fun y y' => forall st, In st (flag_statics b) -> y_name y = Some (fst st) -> y_name y' <> Some (fst st)) l).
      { intros l0 l. revert l0. induction l as [|y l IH]; intros l0 E; constructor.
        - apply Forall_forall. intros y' I' st Ist Y Y'. apply in_split in I' as (l1 & l2 & ->).
          eapply (pair_named (fst st)); eauto.
        - apply (IH (l0 ++ [y])). rewrite <- app_assoc. exact E. }
      exact (Q [] _ eq_refl).
    - intros y name d I D T Ep Ed Ec Hd. destruct (defmt_known p k OK L sec f B y name d I D) as (st & a & J & -> & -> & K).
      destruct K as [v kind g s Iv V G Nm -> Tg [_ Sg]|v ident' w' fls' n fl Iv M' N En Nm Dt ->|v s Iv M' Nm ->].
      + apply (proj2 (tag_flag _)) in T. congruence.
      + pose proof (use_in_ok p OK v Iv) as (_ & _ & Dv & Tv). rewrite M' in Tv. pose proof (use_in_ok p OK u Iu) as (_ & _ & Du & _).
        cbn [dsymbol_of d_package d_disambiguator d_crate d_data bf_package bf_disambiguator bf_crate b flags_at] in *.
        destruct (flag_ok _ Tv n fl N) as (_ & NC & _ & _).
        rewrite (static_path _ Tv (Z.of_nat n) fl ltac:(lia) NC) in Hd. cbn [hd_error bf_ident flags_at] in Hd. injection Hd as ->.
        assert (At : u_at u = u_at v).
        { apply at_eq; [congruence| |congruence]. symmetry.
          pose proof (parse_digits_dec_str (i_disambiguator (u_at u) + i_disambiguator (u_at v)) (i_disambiguator (u_at u)) ltac:(lia)) as Q1.
          pose proof (parse_digits_dec_str (i_disambiguator (u_at u) + i_disambiguator (u_at v)) (i_disambiguator (u_at v)) ltac:(lia)) as Q2.
          rewrite Ed in Q2. congruence. }
        pose proof (W u v ident w fls w' fls' Iu Iv M M' At). subst w'.
        assert (E : u = v).
        { eapply (same_use p k OK L u v); [exact Iu|exact Iv|exact (IN_flags u ident w fls M)|exact (IN_flags v ident w fls' M')|]. rewrite At. reflexivity. }
        subst v. rewrite M in M'. injection M' as <-. apply in_map_iff. rewrite Nm. eexists. split; [|apply statics_in; exists n, fl; eauto]. reflexivity.
      + discriminate.
  Qed.
End Table.
