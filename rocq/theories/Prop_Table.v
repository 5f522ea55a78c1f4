(** C34, C35 and C36: from the strings of the macros to the host's table. *)
From Verif Require Import Base Utf8 ParserModel DecoderModel Numerals DisplayModel EnvFilterModel EnvFilterSpec SymbolModel SymbolProofs
  TableModel TableSpec TableProofs TableMain LevelProofs TableExamples.
From Coq Require Import Permutation Sorting.Sorted.

(** * C34 *)

Theorem C34_round_trip : forall y, symbol_ok y ->
  demangle (mangle y) = Ok (MkDSymbol (s_package y) (dec_str (s_disambiguator y)) (s_tag y) (s_data y) (Some (s_crate y))).
Proof. exact demangle_mangle. Qed.
Print Assumptions C34_round_trip.

(** Symbol names are text without control characters and without [@]. *)
Theorem C34_no_control : forall y, symbol_ok y -> no_control (mangle y).
Proof. exact mangle_no_control. Qed.
Print Assumptions C34_no_control.

(** Different symbols have different names. *)
Theorem C34_injective : forall y z, symbol_ok y -> symbol_ok z -> mangle y = mangle z -> y = z.
Proof. exact mangle_injective. Qed.
Print Assumptions C34_injective.

(** Reading any symbol name whatsoever succeeds or fails cleanly. *)
Theorem C34_total : forall raw, (exists y, demangle raw = Ok y) \/ demangle raw = Err tt.
Proof. exact demangle_total. Qed.
Print Assumptions C34_total.

(** [book/src/defmt-versions.md:25] lists the tags of version 4 of the wire format.  The host knows all of them but [defmt_fmt], symbols with
    which it passes over, and it knows six that are not in the list, among them those of [println!] and [write!]. *)
Theorem C34_tags_refuted :
  let book := map lit ["defmt_prim"; "defmt_fmt"; "defmt_str"; "defmt_trace"; "defmt_debug"; "defmt_info"; "defmt_warn"; "defmt_error"]%string in
  (forall s, In s book -> (tag_from_str s = None <-> s = lit "defmt_fmt")) /\
  forall s, tag_from_str s <> None /\ ~ In s book <->
    In s (map lit ["defmt_derived"; "defmt_bitflags"; "defmt_write"; "defmt_timestamp"; "defmt_bitflags_value"; "defmt_println"]%string).
Proof. exact book_tags. Qed.
Print Assumptions C34_tags_refuted.

Example C34_example : demangle (interned app 7 app (lit "info") odd_text) =
  Ok (MkDSymbol app (lit "7") (lit "defmt_info") odd_text (Some app)).
Proof. vm_compute. reflexivity. Qed.
Example C34_example_name : interned app 7 app (lit "info") (lit "a@b" ++ [10; 0; 92]) =
  lit "{""package"":""app"",""tag"":""defmt_info"",""data"":""a\u0040b\n\u0000\\"",""disambiguator"":""7"",""crate_name"":""app""}".
Proof. vm_compute. reflexivity. Qed.
(** Fields in any order, unknown fields and old symbols without crate name. *)
Example C34_example_old : demangle (lit " {""data"":""x"",""new"":[1,{""a"":null}],""tag"":""defmt_str"",""disambiguator"":""1"",""package"":""p""} ") =
  Ok (MkDSymbol (lit "p") (lit "1") (lit "defmt_str") (lit "x") None).
Proof. vm_compute. reflexivity. Qed.
Example C34_example_bad : demangle (lit "main") = Err tt.
Proof. vm_compute. reflexivity. Qed.

(** * C35 *)

Theorem C35_no_table : forall check f, parse_elf check f = Ok None <->
  elf_defmt f = None /\ versions f = [] /\ (length (encodings f) <= 1)%nat.
Proof. exact table_none. Qed.
Print Assumptions C35_no_table.

(** Which names announce versions and encodings. *)
Theorem C35_announced : forall y ys s,
  (forall v, plain_version v ->
    y_name y = Some (lit "_defmt_version_ = " ++ v) \/ y_name y = Some (lit """_defmt_version_ = " ++ v ++ lit """") ->
    versions (MkElf (y :: ys) s) = v :: versions (MkElf ys s)) /\
  ((forall n r, y_name y = Some n -> n <> lit "_defmt_version_ = " ++ r /\ n <> lit """_defmt_version_ = " ++ r) ->
    versions (MkElf (y :: ys) s) = versions (MkElf ys s)) /\
  (forall e, y_name y = Some (lit "_defmt_encoding_ = " ++ e) -> encodings (MkElf (y :: ys) s) = e :: encodings (MkElf ys s)) /\
  ((forall e, y_name y <> Some (lit "_defmt_encoding_ = " ++ e)) -> encodings (MkElf (y :: ys) s) = encodings (MkElf ys s)).
Proof. exact announcements. Qed.
Print Assumptions C35_announced.

Theorem C35_accepted : forall check f, addresses_ok f ->
  (exists t, parse_elf check f = Ok (Some t)) <->
  exists sec data v e, elf_defmt f = Some (sec, data) /\ versions f = [v] /\
    (check = true -> v = lit "3" \/ v = lit "4") /\ encodings f = [e] /\ (e = lit "raw" \/ e = lit "rzcobs") /\
    readable sec data (elf_symbols f) /\ ~ two_timestamps sec (elf_symbols f).
Proof. exact table_accepted. Qed.
Print Assumptions C35_accepted.

Theorem C35_strings : forall check f sec data t, addresses_ok f ->
  parse_elf check f = Ok (Some t) -> elf_defmt f = Some (sec, data) -> distinct_addresses sec (elf_symbols f) ->
  forall a e, lookup_entry a (t_entries t) = Some e <-> has_string sec (elf_symbols f) a e.
Proof. exact table_strings. Qed.
Print Assumptions C35_strings.

Theorem C35_strings_sound : forall check f sec data t, addresses_ok f ->
  parse_elf check f = Ok (Some t) -> elf_defmt f = Some (sec, data) ->
  forall a e, lookup_entry a (t_entries t) = Some e -> has_string sec (elf_symbols f) a e.
Proof. exact table_strings_sound. Qed.
Print Assumptions C35_strings_sound.

Theorem C35_timestamp : forall check f sec data t, addresses_ok f ->
  parse_elf check f = Ok (Some t) -> elf_defmt f = Some (sec, data) ->
  forall e, t_timestamp t = Some e <-> has_timestamp sec (elf_symbols f) e.
Proof. exact table_timestamp. Qed.
Print Assumptions C35_timestamp.

Theorem C35_encoding : forall check f t, addresses_ok f -> parse_elf check f = Ok (Some t) ->
  encodings f = [match t_encoding t with EncRaw => lit "raw" | EncRzcobs => lit "rzcobs" end].
Proof. exact table_encoding. Qed.
Print Assumptions C35_encoding.

Theorem C35_flags : forall check f sec data t, addresses_ok f ->
  parse_elf check f = Ok (Some t) -> elf_defmt f = Some (sec, data) ->
  forall k, exists found sorted, flags_in sec (section_bytes data) k (elf_symbols f) found /\
    Permutation found sorted /\ StronglySorted by_index sorted /\
    lookup_flags k (t_bitflags t) = match sorted with [] => None | _ => Some (map (fun v => (fst (fst v), snd v)) sorted) end.
Proof. exact table_flags. Qed.
Print Assumptions C35_flags.

Theorem C35_order : forall check f f' sec data t, addresses_ok f ->
  elf_defmt f = Some (sec, data) -> elf_defmt f' = Some (sec, data) -> Permutation (elf_symbols f) (elf_symbols f') ->
  distinct_addresses sec (elf_symbols f) -> distinct_flags sec data (elf_symbols f) ->
  parse_elf check f = Ok (Some t) ->
  exists t', parse_elf check f' = Ok (Some t') /\
    t_entries t' = t_entries t /\ t_timestamp t' = t_timestamp t /\ t_encoding t' = t_encoding t /\
    forall k, lookup_flags k (t_bitflags t') = lookup_flags k (t_bitflags t).
Proof. exact table_order. Qed.
Print Assumptions C35_order.

Theorem C35_no_panic : forall check f, Forall (fun y => y_address y < 2 ^ 64 - 16) (elf_symbols f) ->
  parse_elf check f <> Panic /\ parse_elf check f <> NoFuel.
Proof. exact table_safe. Qed.
Print Assumptions C35_no_panic.

(** A bitflags value at the very end of the address space: [addr + 16] overflows. *)
Theorem C35_no_panic_refuted : exists f, addresses_ok f /\ parse_elf true f = Panic.
Proof. exact overflow_panics. Qed.
Print Assumptions C35_no_panic_refuted.

Theorem C35_interned : forall check f sec data t, addresses_ok f ->
  parse_elf check f = Ok (Some t) -> elf_defmt f = Some (sec, data) -> distinct_addresses sec (elf_symbols f) ->
  forall y package disambiguator crate kind g text, In y (elf_symbols f) -> y_section y = Some sec ->
  utf8_valid package = true -> utf8_valid crate = true -> utf8_valid text = true -> 0 <= disambiguator ->
  string_kind kind g -> y_name y = Some (interned package disambiguator crate kind text) ->
  exists e, lookup_entry (y_address y) (t_entries t) = Some e /\ e_tag e = g /\ e_string e = text /\
    e_symbol e = interned package disambiguator crate kind text.
Proof. exact interned_found. Qed.
Print Assumptions C35_interned.

Example C35_example : parse_elf true sample_elf = Ok (Some sample_table).
Proof. exact sample_parses. Qed.
Example C35_example_reversed : parse_elf true (MkElf (rev sample_symbols) (Some (5, Some sample_data))) = Ok (Some sample_table).
Proof. vm_compute. reflexivity. Qed.
Example C35_example_none : parse_elf true (MkElf [MkElfSymbol (Some (lit "main")) (Some 1) 4096 12] None) = Ok None.
Proof. vm_compute. reflexivity. Qed.
Example C35_example_version :
  parse_elf true (MkElf [MkElfSymbol (Some (lit "_defmt_version_ = 5")) None 1 0; MkElfSymbol (Some (lit "_defmt_encoding_ = raw")) None 1 0] (Some (5, None)))
    = Err BadVersion /\
  parse_elf true (MkElf (MkElfSymbol (Some (lit "_defmt_version_ = 3")) None 1 0 :: sample_symbols) (Some (5, Some sample_data))) = Err ManyVersions.
Proof. split; vm_compute; reflexivity. Qed.
Example C35_example_timestamps :
  parse_elf true (MkElf (in_defmt (interned app 12 app (lit "timestamp") (lit "{=u8}")) 99 :: sample_symbols) (Some (5, Some sample_data))) = Err ManyTimestamps.
Proof. vm_compute. reflexivity. Qed.

(** * C36 *)

Theorem C36_macro_level : forall check f sec data t, addresses_ok f ->
  parse_elf check f = Ok (Some t) -> elf_defmt f = Some (sec, data) -> distinct_addresses sec (elf_symbols f) ->
  forall y package disambiguator crate text kind level, In y (elf_symbols f) -> y_section y = Some sec ->
  utf8_valid package = true -> utf8_valid crate = true -> utf8_valid text = true -> 0 <= disambiguator ->
  y_name y = Some (interned package disambiguator crate kind text) ->
  (kind = lit "println" /\ level = None) \/ (exists l, kind = level_str l /\ level = Some l) ->
  forall b fr n, decode t b = Ok (fr, n) -> f_index fr = y_address y -> f_level fr = level /\ f_format fr = text.
Proof. exact frame_level. Qed.
Print Assumptions C36_macro_level.

Theorem C36_frame_entry : forall t b fr n, decode t b = Ok (fr, n) ->
  f_index fr = le_value (firstn 2 b) /\ exists e, lookup_entry (f_index fr) (t_entries t) = Some e /\ f_format fr = e_string e /\
    match f_level fr with
    | Some l => tag_from_str (lit "defmt_" ++ level_str l) = Some (e_tag e)
    | None => ~ In (e_tag e) [GTrace; GDebug; GInfo; GWarn; GError]
    end.
Proof. exact frame_entry. Qed.
Print Assumptions C36_frame_entry.

Theorem C36_nested : forall t b fr n, decode t b = Ok (fr, n) ->
  forall a s, In a (f_timestamp_args fr ++ f_args fr) -> In s (strings_of a) -> nested_string t s.
Proof. exact nested_unlevelled. Qed.
Print Assumptions C36_nested.

Theorem C36_indices : forall check f t, addresses_ok f -> parse_elf check f = Ok (Some t) ->
  forall i, In i (indices t) <->
  exists e, lookup_entry i (t_entries t) = Some e /\ In (e_tag e) [GPrintln; GTrace; GDebug; GInfo; GWarn; GError].
Proof. intros check f t A P. exact (indices_spec t (table_nodup check f t A P)). Qed.
Print Assumptions C36_indices.

(** Messages are not restricted to the strings of log statements. *)
Theorem C36_only_log_statements_refuted : exists t b fr n, parse_elf true sample_elf = Ok (Some t) /\
  decode t b = Ok (fr, n) /\ ~ In (f_index fr) (indices t).
Proof. exact not_only_log_statements. Qed.
Print Assumptions C36_only_log_statements_refuted.

Example C36_example : exists fr, decode sample_table [3; 0; 0; 0; 0; 0; 42] = Ok (fr, 7%nat) /\
  f_level fr = Some LInfo /\ f_format fr = odd_text /\ f_args fr = [AUxx 42].
Proof. eexists. split; [vm_compute; reflexivity|]. repeat split. Qed.
Example C36_example_indices : indices sample_table = [2; 3].
Proof. vm_compute. reflexivity. Qed.
