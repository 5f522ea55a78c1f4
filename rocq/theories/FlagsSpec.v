(** What the binary must contain for the flags of a [bitflags!] type to be shown. *)
From Verif Require Import Base Utf8 ParserModel EncodeModel EncodeSpec Numerals DecoderModel DisplayModel EnvFilterModel SymbolModel TableModel TableSpec FlagsModel.

(** The enabled flags, in the order of the declaration. *)
Definition enabled (b : bitflags) : list (bytes * Z) :=
  map (fun fl => (fl_name fl, fl_value fl)) (filter fl_enabled (bf_flags b)).

(** Names of Rust identifiers and packages: no [:], [@], braces or bars. *)
Definition bitflags_ok (b : bitflags) : Prop :=
  Forall (fun s => flags_name_ok s /\ utf8_valid s = true) [bf_ident b; bf_package b; bf_crate b] /\
  ~ In 58 (bf_ident b) /\
  Forall (fun fl => utf8_valid (fl_name fl) = true /\ ~ In 58 (fl_name fl) /\
    0 <= fl_value fl < 2 ^ (8 * Z.of_nat (width_bytes (bf_width b)))) (bf_flags b) /\
  0 <= bf_disambiguator b /\ Z.of_nat (length (bf_flags b)) < 2 ^ 128.

(** Symbol [y] is the static with name and contents [st]. *)
Definition placed (section : Z) (data : bytes) (y : elf_symbol) (st : bytes * bytes) : Prop :=
  y_name y = Some (fst st) /\ y_section y = Some section /\ y_size y = Z.of_nat (length (snd st)) /\
  exists before after, data = before ++ snd st ++ after /\ Z.of_nat (length before) = y_address y.

(** The statics are in the binary under their names, once; and the macro invocation is the
    only one with its package, crate, disambiguator and type name. *)
Definition contains_flags (section : Z) (data : bytes) (ys : list elf_symbol) (b : bitflags) : Prop :=
  (forall st, In st (flag_statics b) -> exists y, In y ys /\ placed section data y st) /\
  ForallOrdPairs (fun y y' => forall st, In st (flag_statics b) -> y_name y = Some (fst st) -> y_name y' <> Some (fst st)) ys /\
  (forall y name d, In y ys -> defmt_symbol section y name d -> d_tag d = lit "defmt_bitflags_value" ->
     d_package d = bf_package b -> d_disambiguator d = dec_str (bf_disambiguator b) -> d_crate d = Some (bf_crate b) ->
     hd_error (split_path (d_data d)) = Some (bf_ident b) -> In name (map fst (flag_statics b))).
