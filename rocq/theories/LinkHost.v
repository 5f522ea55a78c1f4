(** What the host knows of a linked program (C61). *)
From Verif Require Import Base Utf8 ParserModel DecoderModel EncodeModel EncodeSpec EncodeTop Numerals DisplayModel TextSpec TextMain EnvFilterModel EnvFilterSpec
  SymbolModel SymbolProofs TableModel TableSpec TableProofs TableMain LevelProofs FlagsModel FlagsSpec FlagsProofs LinkModel LinkSpec LinkProofs LinkMain LinkTable LinkLevels.

Section Host.
  Context (p : program) (k : image) (OK : program_ok p) (L : link p = Ok k) (sec : Z) (f : elf) (B : binary p k sec f)
    (check : bool) (t : table) (P : parse_elf check f = Ok (Some t)).

  (** The index of a used string means this string to the host. *)
  Theorem string_read : forall u kind g s i, In u (p_uses p) -> u_live u = true -> interns u kind g s -> index_of k u kind s i ->
    0 < i < 65534 /\ get_with_level t i = Some (tag_level g, s).
  Proof using OK L B P.
    intros u kind g s i Iu V G (a & A & ->). destruct (string_found p k OK L sec f B check t P u kind g s Iu V G) as (a' & A' & R & e & E & T & S).
    pose proof (same_address p k OK L _ a a' A A'). subst a'. rewrite Z.mod_small by lia. split; [exact R|].
    unfold get_with_level. now rewrite E, T, S.
  Qed.

  Theorem index_exists : forall u kind g s, In u (p_uses p) -> u_live u = true -> interns u kind g s -> exists i, index_of k u kind s i.
  Proof using OK L. intros u kind g s Iu V G. destruct (string_placed p k OK L u kind g s Iu V G) as (st & a & I & Nm). exists (a mod 65536), a. split; [exists st; auto|reflexivity]. Qed.

  (** Addresses of strings that are not log statements, as C13, C14 and C46 ask for. *)
  Theorem strings_linked : forall addr s, (exists u kind g, In u (p_uses p) /\ u_live u = true /\ interns u kind g s /\ tag_level g = None /\ index_of k u kind s (addr s)) ->
    linked addr t s.
  Proof using OK L B P.
    intros addr s (u & kind & g & Iu & V & G & T & X). destruct (string_read u kind g s _ Iu V G X) as [R E]. split; [lia|].
    unfold get_without_level. now rewrite E, T.
  Qed.

  Definition timestamp_is (ts : option bytes) : Prop :=
    match ts with Some s => uses_timestamp p s | None => ~ has_timestamp p end.

  Lemma timestamp_known : forall ts, timestamp_is ts -> option_map e_string (t_timestamp t) = ts.
  Proof using OK L B P.
    intros ts H. pose proof (timestamp_iff p k OK L sec f B check t P) as T. destruct ts as [s|]; cbn [timestamp_is] in H.
    - apply T in H as (e & -> & <-). reflexivity.
    - destruct (t_timestamp t) as [e|] eqn:E; [|reflexivity]. exfalso. apply H. exists (e_string e). apply T. exists e. auto.
  Qed.

  (** A statement that is executed: what the macro sends is read as the statement. *)
  Theorem statement_read : forall u kind g s i ts addr tys ttys args rargs targs rtargs rest,
    In u (p_uses p) -> u_live u = true -> interns u kind g s -> index_of k u kind s i -> timestamp_is ts ->
    arg_types s Strict tys -> means_args addr t tys args rargs ->
    match ts with Some x => arg_types x Strict ttys /\ means_args addr t ttys targs rtargs | None => rtargs = [] end ->
    let b := encode_frame addr i ts targs s args in
    decode t (b ++ rest) = Ok (MkFrame (tag_level g) i ts rtargs s rargs, length b).
  Proof using OK L B P.
    intros u kind g s i ts addr tys ttys args rargs targs rtargs rest Iu V G X T A M Ts b.
    destruct (string_read u kind g s i Iu V G X) as [R E]. pose proof (timestamp_known ts T) as TE.
    assert (F : frame_means addr t i targs args (MkFrame (tag_level g) i ts rtargs s rargs)).
    { split; [lia|]. split; [reflexivity|]. split; [exact E|]. split; [exists tys; auto|]. cbn [f_timestamp_format f_timestamp_args].
      destruct (t_timestamp t) as [e|]; cbn [option_map] in TE; subst ts; [|auto]. split; [reflexivity|]. exists ttys. exact Ts. }
    pose proof (decode_frame addr t i targs args _ rest F) as D. rewrite TE in D. exact D.
  Qed.

  (** Values of the bitflags types of the program are shown with the names of their flags. *)
  Theorem flags_shown : forall X u ident w fls addr h x names,
    (forall u v ident w fls w' fls', In u (p_uses p) -> In v (p_uses p) -> u_macro u = UBitflags ident w fls ->
      u_macro v = UBitflags ident w' fls' -> u_at u = u_at v -> w = w') ->
    let b := flags_at (u_at u) ident w fls in
    In u (p_uses p) -> u_live u = true -> u_macro u = UBitflags ident w fls -> index_of k u (lit "bitflags") (format_tag (flags_type b)) (addr (format_tag (flags_type b))) ->
    0 <= x < 2 ^ (8 * Z.of_nat (width_bytes w)) -> flags_of x (enabled b) names ->
    prints X addr t h (flags_type b) (VNum x) (match enabled b with [] => dec_str x | _ => flags_text names end).
  Proof using OK L B P.
    intros X u ident w fls addr h x names W b Iu V M A R F.
    apply (flags_printed X addr check f sec (Some (im_data k)) t b h x names); auto.
    - exact (addresses p k OK L sec f B).
    - apply B.
    - pose proof (use_in_ok p OK u Iu) as (_ & _ & _ & T). rewrite M in T. exact T.
    - exact (flags_contained p k OK L sec f B W u ident w fls Iu M).
    - apply strings_linked. exists u, (lit "bitflags"), GBitflags. repeat split; auto. apply (IN_flags u ident w fls M).
  Qed.
End Host.
