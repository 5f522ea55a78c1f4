(** What a linked program should be like. *)
From Verif Require Import Base Utf8 ParserModel DecoderModel EncodeModel Numerals SymbolModel TableModel TableSpec FlagsModel FlagsSpec LinkModel.
From Coq Require Import Permutation.

(** Names of packages and crates and the texts are Rust strings. *)
Definition use_ok (u : use) : Prop :=
  utf8_valid (i_package (u_at u)) = true /\ utf8_valid (i_crate (u_at u)) = true /\ 0 <= i_disambiguator (u_at u) /\
  match u_macro u with
  | ULog _ s | UPrintln s | UWrite s | UDerived s | UIntern s | UInternp s | UTimestamp s => utf8_valid s = true
  | UBitflags ident w fls => bitflags_ok (flags_at (u_at u) ident w fls)
  | ULogger | UPanicHandler => True
  end.
Definition program_ok (p : program) : Prop := 0 < p_align p /\ Forall use_ok (p_uses p).

(** The macro makes a string with kind, tag on the host, and text. *)
Inductive interns (u : use) : bytes -> tag -> bytes -> Prop :=
| IN_trace s : u_macro u = ULog LTrace s -> interns u (lit "trace") GTrace s
| IN_debug s : u_macro u = ULog LDebug s -> interns u (lit "debug") GDebug s
| IN_info s : u_macro u = ULog LInfo s -> interns u (lit "info") GInfo s
| IN_warn s : u_macro u = ULog LWarn s -> interns u (lit "warn") GWarn s
| IN_error s : u_macro u = ULog LError s -> interns u (lit "error") GError s
| IN_println s : u_macro u = UPrintln s -> interns u (lit "println") GPrintln s
| IN_write s : u_macro u = UWrite s -> interns u (lit "write") GWrite s
| IN_derived s : u_macro u = UDerived s -> interns u (lit "derived") GDerived s
| IN_str s : u_macro u = UIntern s -> interns u (lit "str") GStr s
| IN_prim s : u_macro u = UInternp s -> interns u (lit "prim") GPrim s
| IN_flags ident w fls : u_macro u = UBitflags ident w fls ->
    interns u (lit "bitflags") GBitflags (format_tag (flags_type (flags_at (u_at u) ident w fls))).

(** The address of the static with this name. *)
Definition at_address (k : image) (name : bytes) (a : Z) : Prop :=
  exists st, In (st, a) (im_placed k) /\ st_name st = name.

(** The index that the device sends for the string of [u]: [&S as *const u8 as u16]
    ([construct.rs:47-53]). *)
Definition index_of (k : image) (u : use) (kind s : bytes) (i : Z) : Prop :=
  exists a, at_address k (mangled (u_at u) kind s) a /\ i = a mod 65536.

(** Symbol of a static. *)
Definition static_symbol (sec : Z) (pl : static * Z) : elf_symbol :=
  MkElfSymbol (Some (st_name (fst pl))) (Some sec) (snd pl) (Z.of_nat (length (st_data (fst pl)))).

(** The other symbols of the binary: outside of the section, or the markers of the linker script;
    none has the name of a static or announces a version or an encoding. *)
Definition other_symbol (p : program) (sec : Z) (y : elf_symbol) : Prop :=
  (y_section y <> Some sec \/ exists r, y_name y = Some (lit "__DEFMT_MARKER_" ++ r)) /\
  0 <= y_address y < 2 ^ 64 - 16 /\
  match y_name y with
  | Some n => ~ In n (map st_name (statics p)) /\
      (forall r, n <> lit "_defmt_version_ = " ++ r /\ n <> lit """_defmt_version_ = " ++ r /\ n <> lit "_defmt_encoding_ = " ++ r)
  | None => True
  end.

(** The linked program as a file; the symbols are in any order. *)
Definition binary (p : program) (k : image) (sec : Z) (f : elf) : Prop :=
  elf_defmt f = Some (sec, Some (im_data k)) /\
  exists others, Permutation (elf_symbols f) (map (static_symbol sec) (im_placed k) ++ others) /\
    Forall (other_symbol p sec) others.

Definition uses_timestamp (p : program) (s : bytes) : Prop :=
  exists u, In u (p_uses p) /\ u_macro u = UTimestamp s.

(** The number of macro invocations that define [name]. *)
Definition makes (name : bytes) (u : use) : bool :=
  match u_macro u with
  | UTimestamp _ => beq name (lit "_defmt_timestamp")
  | ULogger => beq name (lit "_defmt_acquire") || beq name (lit "_defmt_flush") || beq name (lit "_defmt_release") || beq name (lit "_defmt_write")
  | UPanicHandler => beq name (lit "_defmt_panic")
  | _ => false
  end.
Definition definitions (p : program) (name : bytes) : nat := length (filter (makes name) (p_uses p)).

(** The used strings and the enabled flags of a program. *)
Definition makes_string (u : use) : bool :=
  match u_macro u with UTimestamp _ | ULogger | UPanicHandler => false | _ => true end.
Definition strings (p : program) : Z := Z.of_nat (length (filter (fun u => u_live u && makes_string u) (p_uses p))).
Definition flags_of_use (u : use) : Z :=
  match u_macro u with UBitflags ident w fls => Z.of_nat (length (enabled (flags_at (u_at u) ident w fls))) | _ => 0 end.
Definition flag_count (p : program) : Z := fold_right (fun u n => flags_of_use u + n) 0 (p_uses p).
Definition has_timestamp (p : program) : Prop := exists s, uses_timestamp p s.
Definition resolvable (p : program) : Prop :=
  Forall (fun n => In n (defined p) \/ provided (p_features p) n <> None) (p_calls p).
