(** Model of [macros/src/items/bitflags.rs]: the statics that [defmt::bitflags!] writes
    into the binary, one per flag, and the type it makes.

    Not modelled: parsing of the macro input ([items/bitflags/input.rs]), the constants made
    by the [bitflags] crate (a flag is given by its value), attributes other than [cfg]
    (whether the configuration is active is part of the model). *)
From Verif Require Import Base ParserModel EncodeModel Numerals TableSpec.

(** [input.rs:51-61]; a flag whose [cfg] attributes do not hold is disabled. *)
Record flag := MkFlag { fl_name : bytes; fl_value : Z; fl_enabled : bool }.

(** [input.rs:8-19] with the crate that contains the invocation ([construct.rs:15-20],
    [cargo.rs]). *)
Record bitflags := MkBitflags {
  bf_ident : bytes; bf_width : width; bf_flags : list flag;
  bf_package : bytes; bf_disambiguator : Z; bf_crate : bytes }.

(** [bitflags.rs:77-80]: the symbol of flag number [i]. *)
Definition static_name (b : bitflags) (i : Z) (fl : flag) : bytes :=
  interned (bf_package b) (bf_disambiguator b) (bf_crate b) (lit "bitflags_value")
    (bf_ident b ++ lit "::" ++ dec_str i ++ lit "::" ++ fl_name fl).

(** [bitflags.rs:68-99] [codegen_flag_statics]: symbol and contents, a little-endian
    [u128].  Disabled flags have a number but no static. *)
Definition flag_statics (b : bitflags) : list (bytes * bytes) :=
  concat (mapi (fun i fl => if fl_enabled fl then [(static_name b i fl, le_bytes 16 (fl_value fl))] else [])
    0 (bf_flags b)).

(** [bitflags.rs:18-31, 46-60]: the type that implements [Format]. *)
Definition flags_type (b : bitflags) : rty :=
  RFlags (bf_width b) (bf_ident b) (bf_package b) (dec_str (bf_disambiguator b)) (bf_crate b).
