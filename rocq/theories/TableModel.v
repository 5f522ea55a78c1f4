(** Model of [decoder/src/elf2table/mod.rs]: building the table from the symbols of the
    binary.  The ELF file is given as its symbols and its [.defmt] section (reading ELF is
    done by the [object] crate).  The location information ([get_locations], DWARF) is
    not modelled. *)
From Verif Require Import Base Utf8 ParserModel DecoderModel Numerals DisplayModel EnvFilterModel SymbolModel.

(** What [object::ObjectSymbol] gives for a symbol. *)
Record elf_symbol := MkElfSymbol {
  y_name : option bytes; (* None: not UTF-8 *)
  y_section : option Z; y_address : Z; y_size : Z }.

(** The symbols, and index and data of section [.defmt] ([None]: data is not readable). *)
Record elf := MkElf { elf_symbols : list elf_symbol; elf_defmt : option (Z * option bytes) }.

Inductive table_error :=
| ManyVersions | ManyEncodings | NoSection | NoVersion | BadVersion | BadEncoding | NoEncoding
| BadSymbol | ManyTimestamps | BadFlagSize | NoData | FlagOutside | BadFlagIndex | BadFlagName.

Definition starts_with (p s : bytes) : bool :=
  match strip_prefix p s with Some _ => true | None => false end.

(** [str::trim_start_matches] of a non-empty pattern; [n] is at least the length of [s]. *)
Fixpoint trim_start (n : nat) (p s : bytes) : bytes :=
  match n with
  | O => s
  | S n' => match strip_prefix p s with Some r => trim_start n' p r | None => s end
  end.

(** [str::trim_end_matches] of the double quote. *)
Fixpoint drop_quotes (s : bytes) : bytes :=
  match s with
  | c :: r => if c =? 34 then drop_quotes r else s
  | [] => []
  end.
Definition trim_end_quotes (s : bytes) : bytes := rev (drop_quotes (rev s)).

Definition version_prefix : bytes := lit "_defmt_version_ = ".

(** [elf2table/mod.rs:29-40] [try_get_version]. *)
Definition version_of (name : bytes) : option bytes :=
  if starts_with (34 :: version_prefix) name || starts_with version_prefix name then
    let s := trim_start (length name) (34 :: version_prefix) name in
    let s := trim_start (length s) version_prefix s in
    Some (trim_end_quotes s)
  else None.

(** [elf2table/mod.rs:44-47] [try_get_encoding]. *)
Definition encoding_of (name : bytes) : option bytes := strip_prefix (lit "_defmt_encoding_ = ") name.

(** [elf2table/mod.rs:49-78]: the first pass. *)
Fixpoint first_pass (ys : list elf_symbol) (version enc : option bytes)
  : outcome table_error (option bytes * option bytes) :=
  match ys with
  | [] => Ok (version, enc)
  | y :: ys' =>
      match y_name y with
      | None => first_pass ys' version enc
      | Some name =>
          version <- match version_of name, version with
                     | Some _, Some _ => Err ManyVersions
                     | Some v, None => Ok (Some v)
                     | None, _ => Ok version
                     end ;;
          enc <- match encoding_of name, enc with
                 | Some _, Some _ => Err ManyEncodings
                 | Some e, None => Ok (Some e)
                 | None, _ => Ok enc
                 end ;;
          first_pass ys' version enc
      end
  end.

(** [decoder/src/lib.rs:8], [elf2table/mod.rs:229-240] [check_version]. *)
Definition defmt_versions : list bytes := [lit "3"; lit "4"].
Definition version_ok (v : bytes) : bool := existsb (beq v) defmt_versions.

(** [decoder/src/lib.rs:132-142]. *)
Definition encoding_from_str (s : bytes) : option encoding :=
  if beq s (lit "raw") then Some EncRaw
  else if beq s (lit "rzcobs") then Some EncRzcobs
  else None.

(** What a symbol contributes. *)
Inductive item :=
| ISkip
| ITimestamp (e : entry)
| IFlag (k : bitflags_key) (name : bytes) (index value : Z)
| IString (address : Z) (e : entry).

(** [str::parse::<u128>]. *)
Definition parse_u128 (s : bytes) : option Z :=
  let t := match s with c :: t => if c =? 43 then t else s | [] => [] end in
  if forallb is_digit t then parse_digits (2 ^ 128 - 1) t else None.

Definition usize_limit : Z := 2 ^ 64.

(** [elf2table/mod.rs:147-187]: a bitflags value; [addr + 16] overflows near the end of
    the address space. *)
Definition flag_item (data : option bytes) (y : elf_symbol) (d : dsymbol) : outcome table_error item :=
  if negb (y_size y =? 16) then Err BadFlagSize
  else match data with
  | None => Err NoData
  | Some data =>
      if usize_limit <=? y_address y + 16 then Panic
      else if Z.of_nat (length data) <? y_address y + 16 then Err FlagOutside
      else
        let value := le_value (firstn 16 (skipn (Z.to_nat (y_address y)) data)) in
        match split_path (d_data d) with
        | [ident; idx; name] =>
            match parse_u128 idx with
            | Some i => Ok (IFlag (MkKey ident (d_package d) (d_disambiguator d) (d_crate d)) name i value)
            | None => Err BadFlagIndex
            end
        | _ => Err BadFlagName
        end
  end.

(** [elf2table/mod.rs:115-129]: names that are passed over. *)
Definition passed_over (name : bytes) : bool :=
  beq name [] || beq name (lit "$d") || starts_with (lit "$d.") name ||
  starts_with (lit "_defmt") name || starts_with (lit "__DEFMT_MARKER") name.

Definition section_eqb (s : option Z) (i : Z) : bool :=
  match s with Some j => j =? i | None => false end.

(** [elf2table/mod.rs:107-201]: one symbol of the second pass. *)
Definition classify (section : Z) (data : option bytes) (y : elf_symbol) : outcome table_error item :=
  match y_name y with
  | None => Ok ISkip
  | Some name =>
      if passed_over name then Ok ISkip
      else if section_eqb (y_section y) section then
        match demangle name with
        | Ok d =>
            match tag_from_str (d_tag d) with
            | Some GTimestamp => Ok (ITimestamp (MkEntry GTimestamp (d_data d) name))
            | Some GBitflagsValue => flag_item data y d
            | Some g => Ok (IString (y_address y) (MkEntry g (d_data d) name))
            | None => Ok ISkip
            end
        | Err _ => Err BadSymbol
        | Panic => Panic
        | NoFuel => NoFuel
        end
      else Ok ISkip
  end.

(** [BTreeMap::insert]. *)
Fixpoint put_entry (a : Z) (e : entry) (m : list (Z * entry)) : list (Z * entry) :=
  match m with
  | [] => [(a, e)]
  | (b, f) :: m' =>
      if a <? b then (a, e) :: m
      else if a =? b then (a, e) :: m'
      else (b, f) :: put_entry a e m'
  end.

(** [bitflags_map.entry(key).or_insert_with(Vec::new).push(..)]; the order of keys is
    irrelevant. *)
Definition flag_value : Type := bytes * Z * Z.
Fixpoint push_flag (k : bitflags_key) (v : flag_value) (m : list (bitflags_key * list flag_value))
  : list (bitflags_key * list flag_value) :=
  match m with
  | [] => [(k, [v])]
  | (j, vs) :: m' => if key_eqb k j then (j, vs ++ [v]) :: m' else (j, vs) :: push_flag k v m'
  end.

Record building := MkBuilding {
  b_map : list (Z * entry); b_flags : list (bitflags_key * list flag_value); b_timestamp : option entry }.

Definition add_item (b : building) (x : item) : outcome table_error building :=
  match x with
  | ISkip => Ok b
  | ITimestamp e =>
      match b_timestamp b with
      | Some _ => Err ManyTimestamps
      | None => Ok (MkBuilding (b_map b) (b_flags b) (Some e))
      end
  | IFlag k name i v => Ok (MkBuilding (b_map b) (push_flag k (name, i, v) (b_flags b)) (b_timestamp b))
  | IString a e => Ok (MkBuilding (put_entry a e (b_map b)) (b_flags b) (b_timestamp b))
  end.

Fixpoint second_pass (section : Z) (data : option bytes) (ys : list elf_symbol) (b : building)
  : outcome table_error building :=
  match ys with
  | [] => Ok b
  | y :: ys' =>
      x <- classify section data y ;;
      b <- add_item b x ;;
      second_pass section data ys' b
  end.

(** [slice::sort_by_key] (stable) on the index. *)
Fixpoint insert_value (v : flag_value) (vs : list flag_value) : list flag_value :=
  match vs with
  | [] => [v]
  | w :: vs' => if snd (fst v) <=? snd (fst w) then v :: w :: vs' else w :: insert_value v vs'
  end.
Fixpoint sort_values (vs : list flag_value) : list flag_value :=
  match vs with
  | [] => []
  | v :: vs' => insert_value v (sort_values vs')
  end.

(** [elf2table/mod.rs:207-218]. *)
Definition finish_flags (m : list (bitflags_key * list flag_value)) : list (bitflags_key * list (bytes * Z)) :=
  map (fun kv => (fst kv, map (fun v => (fst (fst v), snd v)) (sort_values (snd kv)))) m.

(** [elf2table/mod.rs:21-226] [parse_impl]. *)
Definition parse_elf (check_version : bool) (f : elf) : outcome table_error (option table) :=
  ve <- first_pass (elf_symbols f) None None ;;
  match elf_defmt f, fst ve with
  | None, None => Ok None
  | None, Some _ => Err NoSection
  | Some _, None => Err NoVersion
  | Some (section, data), Some version =>
      if check_version && negb (version_ok version) then Err BadVersion
      else
        enc <- match snd ve with
               | Some e => match encoding_from_str e with Some e => Ok e | None => Err BadEncoding end
               | None => Err NoEncoding
               end ;;
        b <- second_pass section data (elf_symbols f) (MkBuilding [] [] None) ;;
        Ok (Some (MkTable (b_timestamp b) (b_map b) (finish_flags (b_flags b)) enc))
  end.
