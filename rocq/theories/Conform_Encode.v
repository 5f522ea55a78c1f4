(** The model against the test cases of the repository, [defmt/tests/encode.rs] (all of
    them).  These are no claims; they show that the model computes what the authors
    expect of the code.  The mocked interner of the tests is replaced by an arbitrary
    map [addr] from strings to indices; [x s] is the index of the string [s]. *)
From Verif Require Import Base ParserModel Numerals EncodeModel LibTypesModel.

Section Encode.
Context (addr : bytes -> Z).
Let x (s : string) : bytes := le_bytes 2 (addr (lit s)).
Let writes (s : string) (args : list aval) : bytes := write_call addr (SWrite (lit s) args).
Let format (t : rty) (v : rval) : bytes := put_istr addr (format_tag t) ++ format_data addr t v.
Let n (k : Z) : rval := VNum k.
Let num (k : Z) : aval := AvPrim (VNum k).
Let u8 := RPrim (PU W8).
Let u16 := RPrim (PU W16).
Let bool := RPrim PBool.
Let fd (s : string) (t : rty) : field := (lit s, None, t).
Let tf (t : rty) : field := ([], None, t).
Let unit_variant (s : string) : variant := (lit s, KUnit, []).

Ltac ok := vm_compute; reflexivity.

Example encode_write :
  writes "The answer is {=u8}" [num 42] = x "The answer is {=u8}" ++ [42] /\
  writes "The answer is {=?}" [AvFmt u8 (n 42)] = x "The answer is {=?}" ++ x "{=u8}" ++ [42].
Proof. split; ok. Qed.

Example encode_bitfields_mixed :
  writes "bitfields {0=7..12}, {1=0..5}" [AvBits W16 58864; AvBits W8 240] =
  x "bitfields {0=7..12}, {1=0..5}" ++ [240; 229; 240].
Proof. ok. Qed.
Example encode_bitfields_across_octets :
  writes "bitfields {0=0..7} {0=9..14}" [AvBits W16 25554] = x "bitfields {0=0..7} {0=9..14}" ++ [210; 99].
Proof. ok. Qed.
Example encode_bitfields_truncate_lower :
  writes "bitfields {0=9..14}" [AvBits W32 1008594] = x "bitfields {0=9..14}" ++ [99].
Proof. ok. Qed.
Example encode_bitfields_assert_range_exclusive :
  writes "bitfields {0=6..8}" [AvBits W8 165] = x "bitfields {0=6..8}" ++ [165].
Proof. ok. Qed.

Example encode_debug_attr_struct :
  format (RStruct (lit "X") KNamed [fd "y" bool; (lit "d", Some ADebug2, RDebug)])
    (VList [n 0; VText (lit "DebugOnly { _a: 3 }")]) =
  x "X {{ y: {=bool:?}, d: {=?:?} }}" ++ [0] ++ x "{=__internal_Debug}" ++ lit "DebugOnly { _a: 3 }" ++ [255].
Proof. ok. Qed.
Example encode_display_attr_enum :
  format (REnum [(lit "Bool", KUnnamed, [tf bool]); (lit "Display", KUnnamed, [([], Some ADisplay2, RDisplay)])])
    (VVar 1 [VText (lit "Display")]) =
  x "Bool({=bool})|Display({=?})" ++ [1] ++ x "{=__internal_Display}" ++ lit "Display" ++ [255].
Proof. ok. Qed.

Example encode_boolean_struct :
  format (RStruct (lit "X") KNamed [fd "y" bool; fd "z" bool]) (VList [n 0; n 1]) =
  x "X {{ y: {=bool:?}, z: {=bool:?} }}" ++ [0; 1].
Proof. ok. Qed.
Example encode_single_struct :
  format (RStruct (lit "X") KNamed [fd "y" u8; fd "z" u16]) (VList [n 1; n 2]) =
  x "X {{ y: {=u8:?}, z: {=u16:?} }}" ++ [1; 2; 0].
Proof. ok. Qed.
Example encode_single_struct_manual :
  format RManual (VWrites [SWrite (lit "X {{ y: {=u8}, z: {=u16} }}") [num 1; num 2]]) =
  x "{=__internal_FormatSequence}" ++ x "X {{ y: {=u8}, z: {=u16} }}" ++ [1; 2; 0; 0; 0].
Proof. ok. Qed.
Let two_writes (y z : Z) : rval := VWrites [SWrite (lit "y={=u8}") [num y]; SWrite (lit "z={=u16}") [num z]].
Example encode_single_struct_manual_multiwrite :
  format RManual (two_writes 1 2) =
  x "{=__internal_FormatSequence}" ++ x "y={=u8}" ++ [1] ++ x "z={=u16}" ++ [2; 0; 0; 0].
Proof. ok. Qed.
Example encode_slice_struct_manual_multiwrite :
  format (RSlice RManual) (VList [two_writes 1 2; two_writes 3 4]) =
  x "{=[?]}" ++ [2; 0; 0; 0] ++ x "{=__internal_FormatSequence}" ++
  x "y={=u8}" ++ [1] ++ x "z={=u16}" ++ [2; 0; 0; 0] ++
  x "y={=u8}" ++ [3] ++ x "z={=u16}" ++ [4; 0; 0; 0].
Proof. ok. Qed.

Let Y := RStruct (lit "Y") KNamed [fd "z" u8].
Let X := RStruct (lit "X") KNamed [fd "y" Y].
Example encode_nested_struct :
  format X (VList [VList [n 42]]) = x "X {{ y: {=?:?} }}" ++ x "Y {{ z: {=u8:?} }}" ++ [42].
Proof. ok. Qed.
Example encode_tuple_struct :
  format (RStruct (lit "Struct") KUnnamed [tf u8; tf u16]) (VList [n 31; n 43690]) =
  x "Struct({=u8}, {=u16})" ++ [31; 170; 170].
Proof. ok. Qed.

Let clike := REnum [unit_variant "A"; unit_variant "B"; unit_variant "C"].
Example encode_c_like_enum : format clike (VVar 0 []) = x "A|B|C" ++ [0] /\ format clike (VVar 1 []) = x "A|B|C" ++ [1].
Proof. split; ok. Qed.
Example encode_uninhabited_enum : format_tag (REnum []) = lit "!".
Proof. ok. Qed.
Example encode_univariant_enum :
  format (REnum [unit_variant "Variant"]) (VVar 0 []) = x "Variant" /\
  format (REnum [(lit "Variant", KUnnamed, [tf u8; tf u16])]) (VVar 0 [n 31; n 43690]) =
    x "Variant({=u8}, {=u16})" ++ [31; 170; 170].
Proof. split; ok. Qed.

Let inner := REnum [(lit "A", KUnnamed, [tf clike; tf u8]); unit_variant "_B"].
Let outer := REnum [(lit "Variant1", KNamed, [fd "pre" u8; fd "inner" inner; fd "post" u8]); unit_variant "Variant2";
  (lit "Variant3", KUnnamed, [tf inner])].
Let outer_tag := x "Variant1 {{ pre: {=u8:?}, inner: {=?:?}, post: {=u8:?} }}|Variant2|Variant3({=?})".
Example encode_nested_enum :
  format outer (VVar 0 [n 238; VVar 0 [VVar 1 []; n 7]; n 171]) =
    outer_tag ++ [0; 238] ++ x "A({=?}, {=u8})|_B" ++ [0] ++ x "A|B|C" ++ [1; 7; 171] /\
  format outer (VVar 1 []) = outer_tag ++ [1] /\
  format outer (VVar 2 [VVar 0 [VVar 1 []; n 7]]) =
    outer_tag ++ [2] ++ x "A({=?}, {=u8})|_B" ++ [0] ++ x "A|B|C" ++ [1; 7].
Proof. split; [ok|split; ok]. Qed.

Example encode_slice :
  format (RSlice u8) (VList [n 23; n 42]) = x "{=[?]}" ++ [2; 0; 0; 0] ++ x "{=u8}" ++ [23; 42].
Proof. ok. Qed.
Example encode_slice_of_usize :
  format (RSlice (RPrim PUsize)) (VList [n 23; n 42]) =
  x "{=[?]}" ++ [2; 0; 0; 0] ++ x "{=usize}" ++ [23; 0; 0; 0; 42; 0; 0; 0].
Proof. ok. Qed.
Example encode_slice_of_bools :
  format (RSlice bool) (VList [n 1; n 1; n 0]) = x "{=[?]}" ++ [3; 0; 0; 0] ++ x "{=bool}" ++ [1; 1; 0].
Proof. ok. Qed.

Example encode_format_primitives :
  format u8 (n 42) = x "{=u8}" ++ [42] /\
  format u16 (n 42) = x "{=u16}" ++ [42; 0] /\
  format u16 (n 513) = x "{=u16}" ++ [1; 2] /\
  format (RPrim (PU W32)) (n 42) = x "{=u32}" ++ [42; 0; 0; 0] /\
  format (RPrim (PU W32)) (n 513) = x "{=u32}" ++ [1; 2; 0; 0] /\
  (* the bits of 5.13f32 *)
  format (RPrim PF32) (n 1084500214) = x "{=f32}" ++ [246; 40; 164; 64] /\
  format (RPrim (PI W8)) (n 42) = x "{=i8}" ++ [42] /\
  format (RPrim (PI W8)) (n (-42)) = x "{=i8}" ++ [214] /\
  format (option_ty u8) (VVar 0 []) = x "None|Some({=?})" ++ [0] /\
  format (option_ty u8) (VVar 1 [n 42]) = x "None|Some({=?})" ++ [1] ++ x "{=u8}" ++ [42] /\
  format (RPrim PIsize) (n (-1)) = x "{=isize}" ++ [255; 255; 255; 255] /\
  format (RPrim PIsize) (n (-128)) = x "{=isize}" ++ [128; 255; 255; 255] /\
  format bool (n 1) = x "{=bool}" ++ [1] /\
  format (RPrim (PU W64)) (n 513) = x "{=u64}" ++ [1; 2; 0; 0; 0; 0; 0; 0] /\
  format (RPrim (PI W64)) (n (-2)) = x "{=i64}" ++ [254; 255; 255; 255; 255; 255; 255; 255] /\
  format (RPrim PChar) (n 97) = x "{=char}" ++ [97; 0; 0; 0].
Proof. repeat (split; [ok|]). ok. Qed.

Example encode_istr :
  format (RPrim PIStr) (VText (lit "interned string contents")) = x "{=istr}" ++ x "interned string contents".
Proof. ok. Qed.
Example encode_format_arrays :
  format (RArray 0 u16) (VList []) = x "{=[?;0]}" ++ x "{=u16}" /\
  format (RArray 3 u16) (VList [n 1; n 256; n 257]) = x "{=[?;3]}" ++ x "{=u16}" ++ [1; 0; 0; 1; 1; 1].
Proof. split; ok. Qed.
Example encode_format_slice_of_primitives :
  format (RSlice u16) (VList [n 1; n 256; n 257]) = x "{=[?]}" ++ [3; 0; 0; 0] ++ x "{=u16}" ++ [1; 0; 0; 1; 1; 1].
Proof. ok. Qed.
Example encode_format_slice_of_structs :
  format (RSlice X) (VList [VList [VList [n 42]]; VList [VList [n 24]]]) =
  x "{=[?]}" ++ [2; 0; 0; 0] ++ x "X {{ y: {=?:?} }}" ++ x "Y {{ z: {=u8:?} }}" ++ [42] ++ x "Y {{ z: {=u8:?} }}" ++ [24].
Proof. ok. Qed.
Example encode_format_slice_of_slices :
  format (RSlice (RRef (RSlice u16))) (VList [VList [n 256; n 257]; VList [n 258; n 259; n 260]]) =
  x "{=[?]}" ++ [2; 0; 0; 0] ++ x "{=[?]}" ++
  [2; 0; 0; 0] ++ x "{=u16}" ++ [0; 1; 1; 1] ++
  [3; 0; 0; 0] ++ x "{=u16}" ++ [2; 1; 3; 1; 4; 1].
Proof. ok. Qed.
Example encode_format_slice_enum_slice :
  format (RSlice (option_ty (RRef (RSlice u8)))) (VList [VVar 0 []; VVar 1 [VList [n 42; n 43]]]) =
  x "{=[?]}" ++ [2; 0; 0; 0] ++ x "None|Some({=?})" ++ [0] ++ [1] ++ x "{=[?]}" ++ [2; 0; 0; 0] ++ x "{=u8}" ++ [42; 43].
Proof. ok. Qed.
Example encode_format_slice_enum_generic_struct :
  format (RSlice (option_ty (RStruct (lit "S") KNamed [fd "x" u8; fd "y" (ROpaque u8)])))
    (VList [VVar 0 []; VVar 1 [VList [n 42; n 43]]]) =
  x "{=[?]}" ++ [2; 0; 0; 0] ++ x "None|Some({=?})" ++ [0] ++ [1] ++
  x "S {{ x: {=u8:?}, y: {=?:?} }}" ++ [42] ++ x "{=u8}" ++ [43].
Proof. ok. Qed.
Example encode_derive_with_bounds :
  format (RStruct (lit "S") KNamed [fd "val" (ROpaque (RPrim (PI W32)))]) (VList [n 0]) =
    x "S {{ val: {=?:?} }}" ++ x "{=i32}" ++ [0; 0; 0; 0] /\
  format (RStruct (lit "S2") KNamed [fd "a" (RRef u8); fd "b" (RRef u8)]) (VList [n 1; n 2]) =
    x "S2 {{ a: {=u8:?}, b: {=u8:?} }}" ++ [1; 2].
Proof. split; ok. Qed.
Example encode_format_bools :
  format (tuple_ty [RStruct (lit "A") KUnnamed [tf bool]; RStruct (lit "B") KUnnamed [tf bool]]) (VList [VList [n 1]; VList [n 1]]) =
  x "({=?}, {=?})" ++ x "A({=bool})" ++ [1] ++ x "B({=bool})" ++ [1].
Proof. ok. Qed.

Let large := REnum (map (fun k => (lit "A" ++ dec_str (Z.of_nat k), KUnit, [])) (seq 0 270)).
Example encode_enum_variants :
  format_data addr (REnum [unit_variant "A0"; unit_variant "A1"; unit_variant "A2"]) (VVar 2 []) = [2] /\
  format_data addr large (VVar 2 []) = [2; 0] /\
  format_data addr large (VVar 269 []) = [13; 1].
Proof. split; [ok|split; ok]. Qed.
Example encode_derive_str :
  format (RStruct (lit "S") KNamed [fd "x" (RRef (RPrim PStr))]) (VList [VText (lit "hi")]) =
  x "S {{ x: {=str:?} }}" ++ [2; 0; 0; 0; 104; 105].
Proof. ok. Qed.
Example encode_core_fmt_adapters :
  format RDebug (VText (lit "123")) = x "{=__internal_Debug}" ++ [49; 50; 51; 255] /\
  format RDisplay (VText (lit "123")) = x "{=__internal_Display}" ++ [49; 50; 51; 255].
Proof. split; ok. Qed.
End Encode.
