(** The model against the test cases of the repository, [parser/src/tests.rs]
    (all of them).  These are no claims; they show that the model computes what the
    authors expect of the code. *)
From Verif Require Import Base ParserModel.

(** [all_parse_param_cases]. *)
Example parser_params : map (fun s => parse_param s Strict)
  [lit ""; lit "=u8"; lit ":a"; lit "1"; lit "=u8:x"; lit "0=u8"; lit "0:a"; lit "=[u8]:#04x"; lit "1=u8:b"] =
  [Ok (Param None (TFormat) None); Ok (Param None (TU W8) None); Ok (Param None (TFormat) (Some HAscii)); Ok (Param (Some 1) (TFormat) None); Ok (Param None (TU W8) (Some (HHex false false 0))); Ok (Param (Some 0) (TU W8) None); Ok (Param (Some 0) (TFormat) (Some HAscii)); Ok (Param None (TU8Slice) (Some (HHex true false 4))); Ok (Param (Some 1) (TU W8) (Some (HBinary false 0)))].
Proof. vm_compute. reflexivity. Qed.

(** [all_display_hints]. *)
Example parser_hints : map (fun s => parse_param s Strict)
  [lit ":a"; lit ":b"; lit ":#b"; lit ":o"; lit ":#o"; lit ":x"; lit ":02x"; lit ":#x"; lit ":#04x"; lit ":X"; lit ":#X"; lit ":ms"; lit ":us"; lit ":ts"; lit ":tms"; lit ":tus"; lit ":iso8601ms"; lit ":iso8601s"; lit ":?"; lit ":02"] =
  [Ok (Param None TFormat (Some HAscii)); Ok (Param None TFormat (Some (HBinary false 0))); Ok (Param None TFormat (Some (HBinary true 0))); Ok (Param None TFormat (Some (HOctal false 0))); Ok (Param None TFormat (Some (HOctal true 0))); Ok (Param None TFormat (Some (HHex false false 0))); Ok (Param None TFormat (Some (HHex false false 2))); Ok (Param None TFormat (Some (HHex true false 0))); Ok (Param None TFormat (Some (HHex true false 4))); Ok (Param None TFormat (Some (HHex false true 0))); Ok (Param None TFormat (Some (HHex true true 0))); Ok (Param None TFormat (Some (HSeconds Millis))); Ok (Param None TFormat (Some (HSeconds Micros))); Ok (Param None TFormat (Some (HTime Seconds))); Ok (Param None TFormat (Some (HTime Millis))); Ok (Param None TFormat (Some (HTime Micros))); Ok (Param None TFormat (Some (HIso8601 Millis))); Ok (Param None TFormat (Some (HIso8601 Seconds))); Ok (Param None TFormat (Some HDebug)); Ok (Param None TFormat (Some (HNoHint 2)))].
Proof. vm_compute. reflexivity. Qed.

(** [display_hint_unknown]. *)
Example parser_unknown : map (fun s => parse_param s ForwardsCompatible)
  [lit ":unknown"] =
  [Ok (Param None TFormat (Some (HUnknown (lit "unknown"))))].
Proof. vm_compute. reflexivity. Qed.

(** [all_types]. *)
Example parser_types : map (fun s => parse_param s Strict)
  [lit "=i8"; lit "=i16"; lit "=i32"; lit "=i64"; lit "=i128"; lit "=isize"; lit "=u8"; lit "=u16"; lit "=u32"; lit "=u64"; lit "=u128"; lit "=usize"; lit "=f32"; lit "=f64"; lit "=bool"; lit "=?"; lit "=str"; lit "=[u8]"] =
  [Ok (Param None (TI W8) None); Ok (Param None (TI W16) None); Ok (Param None (TI W32) None); Ok (Param None (TI W64) None); Ok (Param None (TI W128) None); Ok (Param None (TIsize) None); Ok (Param None (TU W8) None); Ok (Param None (TU W16) None); Ok (Param None (TU W32) None); Ok (Param None (TU W64) None); Ok (Param None (TU W128) None); Ok (Param None (TUsize) None); Ok (Param None (TF32) None); Ok (Param None (TF64) None); Ok (Param None (TBool) None); Ok (Param None (TFormat) None); Ok (Param None (TStr) None); Ok (Param None (TU8Slice) None)].
Proof. vm_compute. reflexivity. Qed.

(** [index]. *)
Example parser_index : map (fun s => parse s Strict)
  [lit "{=u8}{=u16}"; lit "{=u8}{0=u8}"; lit "{=u8}{1=u16}"; lit "{1=u8}{0=u16}"] =
  [Ok [FParam (MkParameter 0 (TU W8) None); FParam (MkParameter 1 (TU W16) None)]; Ok [FParam (MkParameter 0 (TU W8) None); FParam (MkParameter 0 (TU W8) None)]; Ok [FParam (MkParameter 0 (TU W8) None); FParam (MkParameter 1 (TU W16) None)]; Ok [FParam (MkParameter 1 (TU W8) None); FParam (MkParameter 0 (TU W16) None)]].
Proof. vm_compute. reflexivity. Qed.

(** [range]. *)
Example parser_range : map (fun s => parse s Strict)
  [lit "{=0..4}"; lit "{=0..128}"; lit "{=127..128}"] =
  [Ok [FParam (MkParameter 0 (TBitField 0 4) None)]; Ok [FParam (MkParameter 0 (TBitField 0 128) None)]; Ok [FParam (MkParameter 0 (TBitField 127 128) None)]].
Proof. vm_compute. reflexivity. Qed.

(** [multiple_ranges]. *)
Example parser_multiple_ranges : map (fun s => parse s Strict)
  [lit "{0=30..31}{1=0..4}{1=2..6}"] =
  [Ok [FParam (MkParameter 0 (TBitField 30 31) None); FParam (MkParameter 1 (TBitField 0 4) None); FParam (MkParameter 1 (TBitField 2 6) None)]].
Proof. vm_compute. reflexivity. Qed.

(** [arrays]. *)
Example parser_arrays : map (fun s => parse s Strict)
  [lit "{=[u8; 0]}"; lit "{=[u8;42]}"; lit "{=[u8;    257]}"] =
  [Ok [FParam (MkParameter 0 (TU8Array 0) None)]; Ok [FParam (MkParameter 0 (TU8Array 42) None)]; Ok [FParam (MkParameter 0 (TU8Array 257) None)]].
Proof. vm_compute. reflexivity. Qed.

(** [arrays_err]. *)
Example parser_arrays_err : map (fun s => match parse s Strict with Err _ => true | _ => false end)
  [[123; 61; 91; 117; 56; 59; 32; 9; 32; 51; 93; 125]; [123; 61; 91; 117; 56; 59; 32; 10; 32; 51; 93; 125]; lit "{=[u8; 9999999999999999999999999]}"] =
  [true; true; true].
Proof. vm_compute. reflexivity. Qed.

(** [error_msg]. *)
Example parser_errors : map (fun s => parse s Strict)
  [lit "{=dunno}"; lit "{dunno}"; lit "{=u8;x}"; lit "{dunno=u8:x}"; lit "{0dunno}"; lit "{:}"; lit "}string"; lit "{string"; lit "}"; lit "{"; lit "{=0..0}"; lit "{=1..0}"; lit "{=0..129}"; lit "{=128..128}"; lit "{=0..4"; lit "{=0..}"; lit "{=..4}"; lit "{=0.4}"; lit "{=0...4}"; lit "{0=u8}{0=u16}"; lit "Hello {1=u16} {0=u8} {=bool}"; lit "{1=u8}"; lit "{2=u8}{=u16}"; lit "{2=u8}{1=u16}"] =
  [Err (InvalidTypeSpecifier (lit "dunno")); Err (UnexpectedContentInFormatString (lit "dunno")); Err (InvalidTypeSpecifier (lit "u8;x")); Err (UnexpectedContentInFormatString (lit "dunno=u8:x")); Err (UnexpectedContentInFormatString (lit "dunno")); Err MalformedFormatString; Err UnmatchedCloseBracket; Err UnmatchedOpenBracket; Err UnmatchedCloseBracket; Err UnmatchedOpenBracket; Err (InvalidTypeSpecifier (lit "0..0")); Err (InvalidTypeSpecifier (lit "1..0")); Err (InvalidTypeSpecifier (lit "0..129")); Err (InvalidTypeSpecifier (lit "128..128")); Err UnmatchedOpenBracket; Err (InvalidTypeSpecifier (lit "0..")); Err (InvalidTypeSpecifier (lit "..4")); Err (InvalidTypeSpecifier (lit "0.4")); Err (InvalidTypeSpecifier (lit "0...4")); Err (ConflictingTypes 0 (TU W8) (TU W16)); Err (ConflictingTypes 0 (TU W8) (TBool)); Err (UnusedArgument 0); Err (UnusedArgument 1); Err (UnusedArgument 0)].
Proof. vm_compute. reflexivity. Qed.

(** [escaped_braces]. *)
Example parser_escaped : map (fun s => parse s Strict)
  [lit "}}"; lit "{{"; lit "literal{{literal"; lit "literal}}literal"; lit "{{}}"; lit "}}{{"] =
  [Ok [FLit (lit "}")]; Ok [FLit (lit "{")]; Ok [FLit (lit "literal{literal")]; Ok [FLit (lit "literal}literal")]; Ok [FLit (lit "{}")]; Ok [FLit (lit "}{")]].
Proof. vm_compute. reflexivity. Qed.
