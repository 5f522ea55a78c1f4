(** A linked program and the table that the host makes of it (C61). *)
From Verif Require Import Base Utf8 ParserModel DecoderModel EncodeModel EncodeSpec Numerals DisplayModel EnvFilterModel EnvFilterSpec
  SymbolModel SymbolProofs TableModel TableSpec TableProofs TableMain LevelProofs FlagsModel FlagsSpec FlagsProofs LinkModel LinkSpec LinkProofs.
From Coq Require Import Permutation Sorting.Sorted.

Lemma nodupb_iff : forall l, nodupb l = true <-> NoDup l.
Proof.
  induction l as [|x l IH]; cbn [nodupb]; [split; [constructor|reflexivity]|]. rewrite andb_true_iff, negb_true_iff, IH. split.
  - intros [E N]. constructor; [|exact N]. intros I. assert (existsb (beq x) l = true) by (apply existsb_exists; exists x; split; [exact I|apply beq_refl]). congruence.
  - intros H. inversion H as [|? ? I N]; subst. split; [|exact N]. destruct (existsb (beq x) l) eqn:E; [|reflexivity].
    apply existsb_exists in E as (y & J & E). apply beq_true in E. subst. contradiction.
Qed.

Lemma nodup_app : forall {A} (l m : list A), NoDup (l ++ m) -> NoDup l /\ NoDup m /\ forall x, In x l -> ~ In x m.
Proof.
  intros A l m. induction l as [|x l IH]; cbn [app]; intros N; [repeat split; [constructor|exact N|intros x []]|].
  inversion N as [|? ? I N']; subst. destruct (IH N') as (N1 & N2 & D). rewrite in_app_iff in I. split; [constructor; tauto|].
  split; [exact N2|]. intros y [<-|J]; [tauto|now apply D].
Qed.

(** Two elements that contribute the same name are one. *)
Lemma nodup_flat_map : forall {A B} (f : A -> list B) l x y n, NoDup (flat_map f l) -> In x l -> In y l -> In n (f x) -> In n (f y) -> x = y.
Proof.
  intros A B f l x y n. induction l as [|z l IH]; cbn [flat_map]; intros N Ix Iy Fx Fy; [destruct Ix|].
  apply nodup_app in N as (_ & N & D).
  destruct Ix as [->|Ix], Iy as [->|Iy]; auto; exfalso.
  - apply (D n Fx). apply in_flat_map. eauto.
  - apply (D n Fy). apply in_flat_map. eauto.
Qed.

Lemma nodup_map_filter : forall {A B} (g : A -> B) (f : A -> bool) l, NoDup (map g l) -> NoDup (map g (filter f l)).
Proof.
  intros A B g f l. induction l as [|x l IH]; cbn [map filter]; intros N; [constructor|]. inversion N as [|? ? I N']; subst.
  destruct (f x); [|auto]. cbn [map]. constructor; [|auto]. intros J. apply I. apply in_map_iff in J as (y & E & J). apply filter_In in J as [J _].
  apply in_map_iff. eauto.
Qed.

Definition used (p : program) : list static := filter kept (statics p).

Definition the_markers (todo : list static) : list (bytes * Z) :=
   [(level_start LTrace, stop_of todo 0); (level_end LTrace, stop_of todo 1); (level_start LDebug, stop_of todo 1); (level_end LDebug, stop_of todo 2);
    (level_start LInfo, stop_of todo 2); (level_end LInfo, stop_of todo 3); (level_start LWarn, stop_of todo 3); (level_end LWarn, stop_of todo 4);
    (level_start LError, stop_of todo 4); (level_end LError, stop_of todo 5); (end_marker, stop_of todo 6)].

Lemma used_ok : forall p, 0 < p_align p -> Forall static_ok (used p).
Proof. intros p A. apply Forall_forall. intros st I. apply filter_In in I as [I _]. pose proof (statics_ok p A) as F. rewrite Forall_forall in F. auto. Qed.

Lemma link_iff : forall p k, 0 < p_align p -> link p = Ok k <->
  chosen_encoding (p_features p) <> None /\ NoDup (defined p) /\ resolve_all p (p_calls p) = Some (im_calls k) /\
  stop_of (used p) 6 < 65534 /\ im_placed k = laid_out (used p) /\ im_markers k = the_markers (used p) /\ im_data k = contents 0 (laid_out (used p)).
Proof.
  intros p k A. unfold link. fold (used p). rewrite (script_run (used p)), (part_last (used p) (used_ok p A)), app_nil_r.
  fold (laid_out (used p)). fold (the_markers (used p)). change (marker end_marker (the_markers (used p))) with (stop_of (used p) 6).
  destruct (chosen_encoding (p_features p)) as [e|]; [|split; [discriminate|intros [H _]; congruence]].
  destruct (nodupb (defined p)) eqn:N; cbn [negb].
  2: { split; [discriminate|]. intros (_ & H & _). apply nodupb_iff in H. congruence. }
  apply nodupb_iff in N.
  destruct (resolve_all p (p_calls p)) as [calls|]; [|split; [discriminate|intros (_ & _ & H & _); discriminate]].
  destruct (Z.ltb_spec (stop_of (used p) 6) 65534) as [E|E].
  - split.
    + intros H. inversion H; subst. cbn. repeat split; auto. discriminate.
    + intros (_ & _ & C & _ & P & M & D). destruct k as [pl ms dt cs]. cbn in *. subst. inversion C; subst. reflexivity.
  - split; [discriminate|]. intros (_ & _ & _ & H & _). lia.
Qed.

(** * Where the statics come from *)

Inductive origin (p : program) : static -> Prop :=
| OString u kind g prefix s : In u (p_uses p) -> interns u kind g s -> string_of u = Some (kind, prefix, s) ->
    origin p (static_variable (u_at u) kind prefix s (u_live u))
| OFlag u ident w fls x : In u (p_uses p) -> u_macro u = UBitflags ident w fls -> In x (flag_statics (flags_at (u_at u) ident w fls)) ->
    origin p (MkStatic (lit ".defmt.end") (fst x) (p_align p) (snd x) false)
| OTime u s : In u (p_uses p) -> u_macro u = UTimestamp s -> origin p (static_variable (u_at u) (lit "timestamp") None s true)
| OMarker u s : In u (p_uses p) -> u_macro u = UTimestamp s ->
    origin p (MkStatic (lit ".defmt.end.timestamp") timestamp_marker 4 [0; 0; 0; 0] true)
| OVersion : origin p (MkStatic (lit ".defmt.end") (lit "_defmt_version_ = 4") 1 [0] true)
| OEncoding : origin p (MkStatic (lit ".defmt.end") (if feat_raw (p_features p) then lit "_defmt_encoding_ = raw" else lit "_defmt_encoding_ = rzcobs") 1 [0] true).

Lemma interns_string : forall u kind s, (exists g, interns u kind g s) <-> exists prefix, string_of u = Some (kind, prefix, s).
Proof.
  intros u kind s. split.
  - intros (g & H). unfold string_of. destruct H as [s E|s E|s E|s E|s E|s E|s E|s E|s E|s E|ident w fls E]; rewrite E; eexists; reflexivity.
  - intros (prefix & E). unfold string_of in E. destruct (u_macro u) as [l t|t|t|t|t|t|ident w fls|t| |] eqn:M; inversion E; subst.
    + destruct l; eexists; constructor; exact M.
    + eexists; now constructor.
    + eexists; now constructor.
    + eexists; now constructor.
    + eexists; now constructor.
    + eexists; now constructor.
    + eexists; now constructor.
Qed.

Lemma statics_origin : forall p st, In st (statics p) <-> origin p st.
Proof.
  intros p st. unfold statics. rewrite in_app_iff, in_flat_map. split.
  - intros [(u & Iu & I)|I].
    + unfold statics_of in I. rewrite in_app_iff in I. destruct I as [I|I].
      * destruct (string_of u) as [[[kind prefix] s]|] eqn:E; [|destruct I]. destruct I as [<-|[]].
        destruct (proj2 (interns_string u kind s)) as (g & G); [eauto|]. now apply (OString p u kind g prefix s).
      * destruct (u_macro u) as [l t|t|t|t|t|t|ident w fls|t| |] eqn:M; try (destruct I; fail).
        -- apply in_map_iff in I as (x & <- & I). now apply (OFlag p u ident w fls x).
        -- destruct I as [<-|[<-|[]]]; [now apply (OTime p u t)|now apply (OMarker p u t)].
    + destruct I as [<-|[<-|[]]]; constructor.
  - intros H. destruct H as [u kind g prefix s Iu G E|u ident w fls x Iu M I|u s Iu M|u s Iu M| |].
    + left. exists u. split; [exact Iu|]. unfold statics_of. rewrite E. now left.
    + left. exists u. split; [exact Iu|]. unfold statics_of. rewrite in_app_iff, M. right. apply in_map_iff. exists x. auto.
    + left. exists u. split; [exact Iu|]. unfold statics_of. rewrite in_app_iff, M. right. now left.
    + left. exists u. split; [exact Iu|]. unfold statics_of. rewrite in_app_iff, M. right. right. now left.
    + right. now left.
    + right. right. now left.
Qed.

(** A string is kept if it is used. *)
Lemma variable_kept : forall u kind prefix s live, string_of u = Some (kind, prefix, s) ->
  kept (static_variable (u_at u) kind prefix s live) = live.
Proof.
  intros u kind prefix s live E. unfold kept, static_variable. cbn [st_live st_section].
  assert (N : always_kept (linker_section prefix (mangled (u_at u) kind s)) = false).
  { destruct (mangled_brace (u_at u) kind s) as [r ->]. unfold string_of in E.
    destruct (u_macro u) as [l t|t|t|t|t|t|ident w fls|t| |]; inversion E; subst; try reflexivity. destruct l; reflexivity. }
  rewrite N. apply orb_false_r.
Qed.

(** * Names *)

Lemma string_symbol_ok : forall u kind g s, use_ok u -> interns u kind g s ->
  symbol_ok (MkSymbol (i_package (u_at u)) (i_disambiguator (u_at u)) (lit "defmt_" ++ kind) s (i_crate (u_at u))) /\ string_kind kind g /\ utf8_valid s = true.
Proof.
  intros u kind g s (P & C & D & T) H.
  assert (K : string_kind kind g) by (destruct H; constructor).
  assert (V : utf8_valid s = true).
  { destruct H as [s E|s E|s E|s E|s E|s E|s E|s E|s E|s E|ident w fls E]; rewrite E in T; auto.
    destruct T as (N & _ & _ & D' & _). rewrite !Forall_cons_iff in N. destruct N as ((_ & N1) & (_ & N2) & (_ & N3) & _).
    unfold flags_type. change (format_tag _) with (flags_str w ident (i_package (u_at u)) (dec_str (i_disambiguator (u_at u))) (i_crate (u_at u))).
    unfold flags_str. repeat apply valid_app; auto; try (destruct w; reflexivity). apply valid_digits, dec_str_digits, D. }
  destruct (string_kind_tag kind g K) as (_ & _ & Uk). repeat split; cbn [s_package s_tag s_data s_crate s_disambiguator]; auto.
Qed.

Definition dsymbol_of (u : use) (kind s : bytes) : dsymbol :=
  MkDSymbol (i_package (u_at u)) (dec_str (i_disambiguator (u_at u))) (lit "defmt_" ++ kind) s (Some (i_crate (u_at u))).

Lemma string_demangled : forall u kind g s, use_ok u -> interns u kind g s ->
  demangle (mangled (u_at u) kind s) = Ok (dsymbol_of u kind s).
Proof. intros u kind g s O H. destruct (string_symbol_ok u kind g s O H) as (S & _). exact (demangle_mangle _ S). Qed.

Lemma time_demangled : forall u s, use_ok u -> u_macro u = UTimestamp s ->
  demangle (mangled (u_at u) (lit "timestamp") s) = Ok (dsymbol_of u (lit "timestamp") s).
Proof.
  intros u s (P & C & D & T) M. rewrite M in T.
  refine (demangle_mangle (MkSymbol _ _ (lit "defmt_" ++ lit "timestamp") s _) _). repeat split; auto.
Qed.

Section Linked.
  Context (p : program) (k : image) (OK : program_ok p) (L : link p = Ok k).
  Notation todo := (used p).

  Lemma p_facts : chosen_encoding (p_features p) <> None /\ NoDup (defined p) /\ resolve_all p (p_calls p) = Some (im_calls k) /\
    stop_of todo 6 < 65534 /\ im_placed k = laid_out todo /\ im_markers k = the_markers todo /\ im_data k = contents 0 (laid_out todo).
  Proof using OK L. apply link_iff; [apply OK|exact L]. Qed.

  Lemma names_nodup : NoDup (map st_name (statics p)).
  Proof using OK L.
    destruct p_facts as (_ & N & _). unfold defined in N. apply nodup_app in N as (_ & N & _). apply nodup_app in N as (_ & N & _).
    now apply nodup_app in N as (N & _).
  Qed.

  Lemma functions_nodup : NoDup (flat_map functions_of (p_uses p)).
  Proof using OK L. destruct p_facts as (_ & N & _). unfold defined in N. now apply nodup_app in N as (N & _). Qed.

  Lemma placed_nodup : NoDup (map st_name (map fst (im_placed k))).
  Proof using OK L.
    destruct p_facts as (_ & _ & _ & _ & -> & _). eapply Permutation_NoDup.
    - apply Permutation_map, Permutation_sym, layout_perm, used_ok, OK.
    - apply nodup_map_filter, names_nodup.
  Qed.

  Lemma placed_iff : forall st, (exists a, In (st, a) (im_placed k)) <-> In st (statics p) /\ kept st = true.
  Proof using OK L.
    intros st. destruct p_facts as (_ & _ & _ & _ & -> & _). rewrite <- (layout_in todo (used_ok p (proj1 OK))). unfold used. now rewrite filter_In.
  Qed.

  Lemma placed_range : forall st a, In (st, a) (im_placed k) -> 0 < a /\ a + size st <= stop_of todo 6 /\ a < 65534 /\ a + size st < 65534.
  Proof using OK L.
    intros st a I. destruct p_facts as (_ & _ & _ & E & P & _). rewrite P in I.
    pose proof (spaced_in _ _ _ _ _ (layout_spaced todo (used_ok p (proj1 OK))) I) as R. unfold size in *. lia.
  Qed.

  Lemma placed_data : Forall (fun x => st_data (fst x) <> []) (im_placed k).
  Proof using OK L.
    apply Forall_forall. intros [st a] I. assert (J : In st (statics p)) by (apply placed_iff; eauto).
    pose proof (statics_ok p (proj1 OK)) as F. rewrite Forall_forall in F. now destruct (F st J) as (_ & D & _).
  Qed.

  (** One address, one static; one name, one static and address. *)
  Lemma placed_unique : forall st st' a, In (st, a) (im_placed k) -> In (st', a) (im_placed k) -> st = st'.
  Proof using OK L.
    intros st st' a I I'. pose proof placed_data as D. destruct p_facts as (_ & _ & _ & _ & P & _). rewrite P in *.
    eapply spaced_unique; eauto. apply (layout_spaced todo (used_ok p (proj1 OK))).
  Qed.

  Lemma placed_named : forall st st' a a', In (st, a) (im_placed k) -> In (st', a') (im_placed k) -> st_name st = st_name st' -> (st, a) = (st', a').
  Proof using OK L.
    pose proof placed_nodup as N. revert N. generalize (im_placed k) as pl. induction pl as [|x pl IH]; intros N st st' a a' I I' E; [destruct I|].
    cbn [map] in N. inversion N as [|? ? J N']; subst.
    destruct I as [->|I], I' as [H|I'].
    - congruence.
    - exfalso. apply J. cbn [fst]. rewrite E. rewrite map_map. apply in_map_iff. exists (st', a'). auto.
    - subst. exfalso. apply J. cbn [fst]. rewrite <- E. rewrite map_map. apply in_map_iff. exists (st, a). auto.
    - eapply IH; eauto.
  Qed.

  Lemma section_data : forall st a, In (st, a) (im_placed k) ->
    exists before after, im_data k = before ++ st_data st ++ after /\ Z.of_nat (length before) = a.
  Proof using OK L.
    intros st a I. destruct p_facts as (_ & _ & _ & _ & P & _ & D). rewrite P in I. rewrite D.
    assert (S : spaced 0 (laid_out todo) (stop_of todo 6)).
    { pose proof (layout_spaced todo (used_ok p (proj1 OK))) as S. destruct (laid_out todo) as [|[st0 a0] r]; cbn [spaced] in *; [lia|]. split; [lia|apply S]. }
    destruct (contents_at _ _ _ _ _ S I) as (b & c & E & Z). exists b, c. split; [exact E|lia].
  Qed.

  (** A used string has an address. *)
  Lemma string_placed : forall u kind g s, In u (p_uses p) -> u_live u = true -> interns u kind g s ->
    exists st a, In (st, a) (im_placed k) /\ st_name st = mangled (u_at u) kind s.
  Proof using OK L.
    intros u kind g s Iu V G. destruct (proj1 (interns_string u kind s)) as (prefix & E); [eauto|].
    assert (In (static_variable (u_at u) kind prefix s (u_live u)) (statics p) /\ kept (static_variable (u_at u) kind prefix s (u_live u)) = true) as H.
    { split; [apply statics_origin; now apply (OString p u kind g prefix s)|]. rewrite (variable_kept u) by exact E. exact V. }
    apply placed_iff in H as (a & I). exists (static_variable (u_at u) kind prefix s (u_live u)), a. auto.
  Qed.

  Lemma use_in_ok : forall u, In u (p_uses p) -> use_ok u.
  Proof using OK. intros u I. destruct OK as [_ F]. rewrite Forall_forall in F. auto. Qed.

  (** Distinct invocations have distinct names. *)
  Lemma same_use : forall u v kind g s kind' g' s', In u (p_uses p) -> In v (p_uses p) -> interns u kind g s -> interns v kind' g' s' ->
    mangled (u_at u) kind s = mangled (u_at v) kind' s' -> u = v.
  Proof using OK L.
    intros u v kind g s kind' g' s' Iu Iv G G' E.
    assert (X : forall w kd g0 t, interns w kd g0 t -> In (mangled (u_at w) kd t) (map st_name (statics_of (p_align p) w))).
    { intros w kd g0 t H. destruct (proj1 (interns_string w kd t)) as (prefix & Q); [eauto|]. unfold statics_of. rewrite Q. now left. }
    pose proof names_nodup as N. unfold statics in N. rewrite map_app in N. apply nodup_app in N as (N & _).
    replace (map st_name (flat_map (statics_of (p_align p)) (p_uses p))) with (flat_map (fun w => map st_name (statics_of (p_align p) w)) (p_uses p)) in N.
    2: { clear. induction (p_uses p) as [|w l IH]; cbn [flat_map map]; [reflexivity|]. now rewrite map_app, IH. }
    eapply (nodup_flat_map _ _ u v (mangled (u_at u) kind s) N); auto.
    - apply (X u kind g s G).
    - rewrite E. apply (X v kind' g' s' G').
  Qed.

  Section File.
    Context (sec : Z) (f : elf) (B : binary p k sec f).

    Lemma symbols : forall y, In y (elf_symbols f) <->
      (exists st a, In (st, a) (im_placed k) /\ y = static_symbol sec (st, a)) \/
      (In y (elf_symbols f) /\ other_symbol p sec y).
    Proof using B.
      intros y. destruct B as (_ & others & P & O). rewrite Forall_forall in O. split.
      - intros I. pose proof (Permutation_in _ P I) as J. apply in_app_iff in J as [J|J]; [|right; auto].
        apply in_map_iff in J as ([st a] & <- & J). left. exists st, a. auto.
      - intros [(st & a & I & ->)|[I _]]; [|exact I]. apply (Permutation_in _ (Permutation_sym P)). apply in_app_iff. left.
        apply in_map_iff. exists (st, a). auto.
    Qed.

    Lemma addresses : Forall (fun y => 0 <= y_address y < 2 ^ 64 - 16) (elf_symbols f).
    Proof using OK L B.
      apply Forall_forall. intros y I. apply symbols in I as [(st & a & I & ->)|[_ (_ & R & _)]]; [|exact R].
      apply placed_range in I. cbn [y_address static_symbol snd]. lia.
    Qed.

    Lemma addresses_fine : addresses_ok f.
    Proof using OK L B. eapply Forall_impl; [|exact addresses]. cbn. intros. lia. Qed.

    (** Symbols of defmt are statics. *)
    Lemma defmt_static : forall y name d, In y (elf_symbols f) -> defmt_symbol sec y name d ->
      exists st a, In (st, a) (im_placed k) /\ y = static_symbol sec (st, a) /\ name = st_name st /\ demangle (st_name st) = Ok d /\ ~ other_name (st_name st).
    Proof using OK L B.
      intros y name d I (Ny & NO & Sy & D). apply symbols in I as [(st & a & I & ->)|[_ (O & _)]].
      - cbn [static_symbol y_name fst] in Ny. injection Ny as <-. exists st, a. auto.
      - exfalso. destruct O as [O|(r & O)]; [congruence|]. rewrite O in Ny. injection Ny as <-. apply NO.
        change (lit "__DEFMT_MARKER_" ++ r) with (lit "__DEFMT_MARKER" ++ lit "_" ++ r). constructor.
    Qed.

    (** The three kinds of symbols that the host reads. *)
    Inductive known (st : static) (d : dsymbol) : Prop :=
    | KString u kind g s : In u (p_uses p) -> u_live u = true -> interns u kind g s -> st_name st = mangled (u_at u) kind s ->
        d = dsymbol_of u kind s -> tag_from_str (d_tag d) = Some g -> string_tag g -> known st d
    | KFlag u ident w fls n fl : In u (p_uses p) -> u_macro u = UBitflags ident w fls ->
        nth_error fls n = Some fl -> fl_enabled fl = true ->
        st_name st = static_name (flags_at (u_at u) ident w fls) (Z.of_nat n) fl -> st_data st = le_bytes 16 (fl_value fl) ->
        d = dsymbol_of u (lit "bitflags_value") (static_data (flags_at (u_at u) ident w fls) (Z.of_nat n) fl) -> known st d
    | KTime u s : In u (p_uses p) -> u_macro u = UTimestamp s -> st_name st = mangled (u_at u) (lit "timestamp") s ->
        d = dsymbol_of u (lit "timestamp") s -> known st d.

    Lemma placed_known : forall st a, In (st, a) (im_placed k) -> other_name (st_name st) \/ exists d, demangle (st_name st) = Ok d /\ known st d.
    Proof using OK L.
      intros st a I. assert (H : In st (statics p) /\ kept st = true) by (apply placed_iff; eauto). destruct H as [H K].
      apply statics_origin in H. destruct H as [u kind g prefix s Iu G E|u ident w fls x Iu M Ix|u s Iu M|u s Iu M| |].
      - right. exists (dsymbol_of u kind s). split; [eapply string_demangled; eauto using use_in_ok|].
        destruct (string_symbol_ok u kind g s (use_in_ok u Iu) G) as (_ & SK & _). destruct (string_kind_tag kind g SK) as (T & ST & _).
        rewrite (variable_kept u) in K by exact E. apply (KString _ _ u kind g s); auto.
      - right. apply statics_in in Ix as (n & fl & N & En & ->). cbn [fst snd].
        pose proof (use_in_ok u Iu) as (_ & _ & _ & T). rewrite M in T.
        destruct (flag_ok _ T n fl N) as (V & _). exists (dsymbol_of u (lit "bitflags_value") (static_data (flags_at (u_at u) ident w fls) (Z.of_nat n) fl)).
        split; [exact (static_demangled _ T (Z.of_nat n) fl ltac:(lia) V)|]. apply (KFlag _ _ u ident w fls n fl); auto.
      - right. exists (dsymbol_of u (lit "timestamp") s). split; [apply time_demangled; auto using use_in_ok|]. now apply (KTime _ _ u s).
      - left. apply (ON_marker (lit "_TIMESTAMP_WAS_DEFINED")).
      - left. apply (ON_script (lit "_version_ = 4")).
      - left. cbn [st_name]. destruct (feat_raw (p_features p)); [apply (ON_script (lit "_encoding_ = raw"))|apply (ON_script (lit "_encoding_ = rzcobs"))].
    Qed.

    Lemma defmt_known : forall y name d, In y (elf_symbols f) -> defmt_symbol sec y name d ->
      exists st a, In (st, a) (im_placed k) /\ y = static_symbol sec (st, a) /\ name = st_name st /\ known st d.
    Proof using OK L B.
      intros y name d I D. destruct (defmt_static y name d I D) as (st & a & J & -> & -> & Dm & NO). exists st, a.
      destruct (placed_known st a J) as [O|(d' & D' & K)]; [contradiction|]. rewrite Dm in D'. injection D' as <-. auto.
    Qed.
  End File.
End Linked.
