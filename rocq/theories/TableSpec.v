(** What the table of a binary should contain, stated on its symbols. *)
From Verif Require Import Base Utf8 ParserModel DecoderModel Numerals DisplayModel EnvFilterModel EnvFilterSpec SymbolModel TableModel.

Definition olist {A} (o : option A) : list A := match o with Some a => [a] | None => [] end.

(** The versions and encodings announced by the binary. *)
Definition versions (f : elf) : list bytes :=
  flat_map (fun y => match y_name y with Some n => olist (version_of n) | None => [] end) (elf_symbols f).
Definition encodings (f : elf) : list bytes :=
  flat_map (fun y => match y_name y with Some n => olist (encoding_of n) | None => [] end) (elf_symbols f).

(** A version as it is written: no quotes, no announcement inside. *)
Definition plain_version (v : bytes) : Prop := ~ In 34 v /\ forall r, v <> lit "_defmt_version_ = " ++ r.

(** Names that do not belong to strings: nothing, mapping symbols and the markers of the
    linker script. *)
Inductive other_name : bytes -> Prop :=
| ON_empty : other_name []
| ON_mapping : other_name (lit "$d")
| ON_mappings r : other_name (lit "$d." ++ r)
| ON_script r : other_name (lit "_defmt" ++ r)
| ON_marker r : other_name (lit "__DEFMT_MARKER" ++ r).

(** Symbol [y] of the binary is a symbol of defmt with metadata [d]. *)
Definition defmt_symbol (section : Z) (y : elf_symbol) (name : bytes) (d : dsymbol) : Prop :=
  y_name y = Some name /\ ~ other_name name /\ y_section y = Some section /\ demangle name = Ok d.

(** Tags of strings with an address. *)
Definition string_tag (g : tag) : Prop := g <> GTimestamp /\ g <> GBitflagsValue.

(** String [e] at address [a]. *)
Definition has_string (section : Z) (ys : list elf_symbol) (a : Z) (e : entry) : Prop :=
  exists y d, In y ys /\ defmt_symbol section y (e_symbol e) d /\ y_address y = a /\
    tag_from_str (d_tag d) = Some (e_tag e) /\ string_tag (e_tag e) /\ e_string e = d_data d.

Definition has_timestamp (section : Z) (ys : list elf_symbol) (e : entry) : Prop :=
  exists y d, In y ys /\ defmt_symbol section y (e_symbol e) d /\
    tag_from_str (d_tag d) = Some GTimestamp /\ e_tag e = GTimestamp /\ e_string e = d_data d.

(** Flag number [index] of bitflags type [k] is called [name] and has value [value]. *)
Definition flag_symbol (section : Z) (data : bytes) (y : elf_symbol) (k : bitflags_key) (name : bytes) (index value : Z) : Prop :=
  exists sym d idx, defmt_symbol section y sym d /\ tag_from_str (d_tag d) = Some GBitflagsValue /\
    y_size y = 16 /\ split_path (d_data d) = [k_ident k; idx; name] /\ parse_u128 idx = Some index /\
    k_package k = d_package d /\ k_disambig k = d_disambiguator d /\ k_crate k = d_crate d /\
    0 <= y_address y /\ y_address y + 16 <= Z.of_nat (length data) /\ y_address y + 16 < 2 ^ 64 /\
    exists before bits after, data = before ++ bits ++ after /\ Z.of_nat (length before) = y_address y /\
      length bits = 16%nat /\ value = le_value bits.

(** Addresses as the [object] crate gives them. *)
Definition addresses_ok (f : elf) : Prop := Forall (fun y => 0 <= y_address y < 2 ^ 64) (elf_symbols f).

(** No two strings share an address. *)
Definition distinct_addresses (section : Z) (ys : list elf_symbol) : Prop :=
  forall a e e', has_string section ys a e -> has_string section ys a e' -> e = e'.

(** The flags of bitflags type [k], in the order of the symbols. *)
Inductive flags_in (section : Z) (data : bytes) (k : bitflags_key) : list elf_symbol -> list flag_value -> Prop :=
| FI_nil : flags_in section data k [] []
| FI_skip y ys vs : (forall name i v, ~ flag_symbol section data y k name i v) ->
    flags_in section data k ys vs -> flags_in section data k (y :: ys) vs
| FI_take y ys vs name i v : flag_symbol section data y k name i v ->
    flags_in section data k ys vs -> flags_in section data k (y :: ys) ((name, i, v) :: vs).

Definition by_index (a b : flag_value) : Prop := snd (fst a) <= snd (fst b).

(** An unreadable section has no data. *)
Definition section_bytes (data : option bytes) : bytes := match data with Some b => b | None => [] end.

(** Every symbol in the section can be read; flags are well-formed. *)
Definition readable (section : Z) (data : option bytes) (ys : list elf_symbol) : Prop :=
  forall y name, In y ys -> y_name y = Some name -> ~ other_name name -> y_section y = Some section ->
    exists d, demangle name = Ok d /\
      (d_tag d = lit "defmt_bitflags_value" ->
       exists k n i v, flag_symbol section (section_bytes data) y k n i v).

Definition is_timestamp (section : Z) (y : elf_symbol) : Prop :=
  exists name d, defmt_symbol section y name d /\ d_tag d = lit "defmt_timestamp".

Definition two_timestamps (section : Z) (ys : list elf_symbol) : Prop :=
  exists a y b y' c, ys = a ++ y :: b ++ y' :: c /\ is_timestamp section y /\ is_timestamp section y'.

(** Flags of one type have different indices. *)
Definition distinct_flags (section : Z) (data : option bytes) (ys : list elf_symbol) : Prop :=
  forall k vs, flags_in section (section_bytes data) k ys vs -> NoDup (map (fun v => snd (fst v)) vs).

(** [macros/src/construct/symbol.rs:5-7, 43-53]: the symbol name of a string interned with
    kind [tag] (the level, [println], [write], [derived], [str], [prim], ...). *)
Definition interned (package : bytes) (disambiguator : Z) (crate tag data : bytes) : bytes :=
  mangle (MkSymbol package disambiguator (lit "defmt_" ++ tag) data crate).

(** The kinds of strings that stay in the table, as the macros write them
    ([function_like/{log,println,write,intern,internp}.rs], [derives/format/codegen.rs:40],
    [items/bitflags.rs:26-31]). *)
Inductive string_kind : bytes -> tag -> Prop :=
| SK_trace : string_kind (level_str LTrace) GTrace
| SK_debug : string_kind (level_str LDebug) GDebug
| SK_info : string_kind (level_str LInfo) GInfo
| SK_warn : string_kind (level_str LWarn) GWarn
| SK_error : string_kind (level_str LError) GError
| SK_println : string_kind (lit "println") GPrintln
| SK_write : string_kind (lit "write") GWrite
| SK_str : string_kind (lit "str") GStr
| SK_derived : string_kind (lit "derived") GDerived
| SK_prim : string_kind (lit "prim") GPrim
| SK_bitflags : string_kind (lit "bitflags") GBitflags.

(** The strings used inside a decoded argument. *)
Fixpoint strings_of (a : arg) : list bytes :=
  match a with
  | AIStr s => [s]
  | AFormat f args => f :: flat_map strings_of args
  | AFormatSlice es => flat_map (fun e => fst e :: flat_map strings_of (snd e)) es
  | AFormatSequence args => flat_map strings_of args
  | _ => []
  end.

(** [s] is a string of the table that is not a log statement with a level, or one of its
    alternatives. *)
Definition nested_string (t : table) (s : bytes) : Prop :=
  exists i e, lookup_entry i (t_entries t) = Some e /\
    ~ In (e_tag e) [GTrace; GDebug; GInfo; GWarn; GError] /\
    (s = e_string e \/ In s (split_on 124 (e_string e))).
