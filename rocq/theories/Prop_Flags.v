(** Property C52: values of [bitflags!] types are shown by the names of their flags. *)
From Verif Require Import Base Utf8 ParserModel DecoderModel Numerals EncodeModel EncodeSpec DisplayModel DisplayProofs DisplayExamples
  EnvFilterModel SymbolModel TableModel TableSpec TextSpec TextMain FlagsModel FlagsSpec FlagsProofs FlagsExamples.

(** C52.  The table built from the binary has the enabled flags of the type in the order of
    their declaration, whatever the order of the symbols. *)
Theorem C52_table : forall check f sec data t b,
  Forall (fun y => 0 <= y_address y < 2 ^ 64 - 16) (elf_symbols f) ->
  parse_elf check f = Ok (Some t) -> elf_defmt f = Some (sec, data) ->
  bitflags_ok b -> contains_flags sec (section_bytes data) (elf_symbols f) b ->
  lookup_flags (MkKey (bf_ident b) (bf_package b) (dec_str (bf_disambiguator b)) (Some (bf_crate b))) (t_bitflags t) =
    match enabled b with [] => None | fs => Some fs end.
Proof. exact flags_table. Qed.
Print Assumptions C52_table.

(** A logged value is printed as the names of the enabled flags that it contains, in the
    order of their declaration; as a number if the type has no enabled flags. *)
Theorem C52_printed : forall X addr check f sec data t b h x names,
  Forall (fun y => 0 <= y_address y < 2 ^ 64 - 16) (elf_symbols f) ->
  parse_elf check f = Ok (Some t) -> elf_defmt f = Some (sec, data) ->
  bitflags_ok b -> contains_flags sec (section_bytes data) (elf_symbols f) b ->
  linked addr t (format_tag (flags_type b)) ->
  0 <= x < 2 ^ (8 * Z.of_nat (width_bytes (bf_width b))) -> flags_of x (enabled b) names ->
  prints X addr t h (flags_type b) (VNum x) (match enabled b with [] => dec_str x | _ => flags_text names end).
Proof. exact flags_printed. Qed.
Print Assumptions C52_printed.

(** The format string of the type is linked if its symbol is in the binary. *)
Theorem C52_linked : forall addr check f sec data t b,
  addresses_ok f -> parse_elf check f = Ok (Some t) -> elf_defmt f = Some (sec, data) -> distinct_addresses sec (elf_symbols f) ->
  bitflags_ok b ->
  (exists y, In y (elf_symbols f) /\ y_section y = Some sec /\ y_address y = addr (format_tag (flags_type b)) /\
     y_name y = Some (interned (bf_package b) (bf_disambiguator b) (bf_crate b) (lit "bitflags") (format_tag (flags_type b)))) ->
  0 < addr (format_tag (flags_type b)) < 65536 ->
  linked addr t (format_tag (flags_type b)).
Proof. exact flags_linked. Qed.
Print Assumptions C52_linked.

(** Every value has exactly one list of names. *)
Theorem C52_names : forall x fs, exists! names, flags_of x fs names.
Proof.
  intros x fs. exists (TextProofs.flag_names x fs). split; [apply TextProofs.flags_of_named|].
  intros names H. symmetry. now apply TextProofs.flags_of_unique.
Qed.
Print Assumptions C52_names.

Example C52_ex_binary : bitflags_ok mode_flags /\ contains_flags 5 mode_data mode_symbols mode_flags /\
  parse_elf true mode_elf = Ok (Some mode_table).
Proof. exact (conj mode_ok (conj mode_contained mode_parses)). Qed.
Example C52_ex_printed : map mode_shown [0; 3; 5; 6; 8; 129] = map (fun s => Some (Some (lit s)))
  ["mode NONE"; "mode READ | WRITE | BOTH"; "mode READ | EXEC"; "mode WRITE | EXEC"; "mode (empty)"; "mode READ"]%string.
Proof. exact mode_printed. Qed.
Example C52_ex_bare : forall tbl, t_bitflags tbl = t_bitflags mode_table ->
  says X0 tbl None (flags_type bare_flags) (VNum 1) (lit "1").
Proof. exact bare_shown. Qed.
