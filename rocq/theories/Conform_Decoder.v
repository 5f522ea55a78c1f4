(** The model against the test cases of the repository, [decoder/src/lib.rs:354-1126]
    (all of them).  These are no claims; they show that the model computes what the
    authors expect of the code. *)
From Verif Require Import Base ParserModel DecoderModel DisplayModel DisplayExamples.

Definition with_tables (time : option entry) (es : list (Z * (tag * bytes))) : table :=
  MkTable time (map (fun e => (fst e, MkEntry (fst (snd e)) (snd (snd e)) [])) es) [] EncRaw.
Definition without_time := with_tables None.
Definition with_time := with_tables (Some (MkEntry GTimestamp (lit "{=u8:us}") [])).
Definition shown (t : table) (b : bytes) : option bytes :=
  match decode t b with Ok (f, _) => display_frame X0 t false f | _ => None end.

Definition decoded (t : table) (b : bytes) : option (option level * Z * option bytes * list arg * bytes * list arg * bool) :=
  match decode t b with
  | Ok (f, n) => Some (f_level f, f_index f, f_timestamp_format f, f_timestamp_args f, f_format f, f_args f, (n =? length b)%nat)
  | _ => None
  end.

Example decoder_decode :
  let t := without_time [(0, (GInfo, lit "Hello, world!")); (1, (GDebug, lit "The answer is {=u8}!"))] in
  decoded t [0; 0] = Some (Some LInfo, 0, None, [], lit "Hello, world!", [], true) /\
  decoded t [1; 0; 42] = Some (Some LDebug, 1, None, [], lit "The answer is {=u8}!", [AUxx 42], true).
Proof. vm_compute. auto. Qed.

Example decoder_all_integers :
  let f := lit "Hello, {=u8} {=u16} {=u32} {=u64} {=u128} {=i8} {=i16} {=i32} {=i64} {=i128}!" in
  decoded (without_time [(0, (GInfo, f))]) ([0; 0; 42] ++ repeat 255 (2 + 4 + 8 + 16 + 1 + 2 + 4 + 8 + 16)) =
  Some (Some LInfo, 0, None, [], f,
    [AUxx 42; AUxx (2 ^ 16 - 1); AUxx (2 ^ 32 - 1); AUxx (2 ^ 64 - 1); AUxx (2 ^ 128 - 1);
     AIxx (-1); AIxx (-1); AIxx (-1); AIxx (-1); AIxx (-1)], true).
Proof. vm_compute. reflexivity. Qed.

Example decoder_indices :
  let t := without_time [(0, (GInfo, lit "The answer is {0=u8} {0=u8}!")); (1, (GInfo, lit "The answer is {1=u16} {0=u8} {1=u16}!"))] in
  decoded t [0; 0; 42] = Some (Some LInfo, 0, None, [], lit "The answer is {0=u8} {0=u8}!", [AUxx 42], true) /\
  decoded t [1; 0; 42; 255; 255] =
    Some (Some LInfo, 1, None, [], lit "The answer is {1=u16} {0=u8} {1=u16}!", [AUxx 42; AUxx 65535], true).
Proof. vm_compute. auto. Qed.

Example decoder_format :
  decoded (without_time [(0, (GInfo, lit "x={=?}")); (1, (GDerived, lit "Foo {{ x: {=u8} }}"))]) [0; 0; 1; 0; 42] =
  Some (Some LInfo, 0, None, [], lit "x={=?}", [AFormat (lit "Foo {{ x: {=u8} }}") [AUxx 42]], true).
Proof. vm_compute. reflexivity. Qed.

Example decoder_format_sequence :
  decoded (without_time [(0, (GInfo, lit "{=__internal_FormatSequence}")); (1, (GDerived, lit "Foo"));
    (2, (GDerived, lit "Bar({=u8})")); (3, (GDerived, lit "State {=u8}|"))]) [0; 0; 1; 0; 2; 0; 42; 3; 0; 23; 0; 0] =
  Some (Some LInfo, 0, None, [], lit "{=__internal_FormatSequence}",
    [AFormatSequence [AFormat (lit "Foo") []; AFormat (lit "Bar({=u8})") [AUxx 42]; AFormat (lit "State {=u8}|") [AUxx 23]]], true).
Proof. vm_compute. reflexivity. Qed.

Example decoder_display : shown (with_time [(0, (GInfo, lit "x={=?}")); (1, (GDerived, lit "Foo {{ x: {=u8} }}"))]) [0; 0; 2; 1; 0; 42] =
  Some (lit "0.000002 INFO x=Foo { x: 42 }").
Proof. vm_compute. reflexivity. Qed.

Example decoder_display_i16_with_hex_hint : shown (with_time [(0, (GInfo, lit "i16 as hex {=i16:#x}"))]) [0; 0; 2; 255; 255] =
  Some (lit "0.000002 INFO i16 as hex 0xffff").
Proof. vm_compute. reflexivity. Qed.

Example decoder_display_use_inner_type_hint : shown (with_time [(0, (GInfo, lit "x={:b}")); (1, (GDerived, lit "S {{ x: {=u8:x} }}"))]) [0; 0; 2; 1; 0; 42] =
  Some (lit "0.000002 INFO x=S { x: 2a }").
Proof. vm_compute. reflexivity. Qed.

Example decoder_display_use_outer_type_hint : shown (with_time [(0, (GInfo, lit "x={:b}")); (1, (GDerived, lit "S {{ x: {=u8:?} }}"))]) [0; 0; 2; 1; 0; 42] =
  Some (lit "0.000002 INFO x=S { x: 101010 }").
Proof. vm_compute. reflexivity. Qed.

Example decoder_display_inner_str_in_struct : shown (with_time [(0, (GInfo, lit "{}")); (1, (GDerived, lit "S {{ x: {=str:?} }}"))]) [0; 0; 2; 1; 0; 5; 0; 0; 0; 72; 101; 108; 108; 111] =
  Some (lit "0.000002 INFO S { x: ""Hello"" }").
Proof. vm_compute. reflexivity. Qed.

Example decoder_display_u8_vec : shown (with_time [(0, (GPrim, lit "{=u8}")); (1, (GPrim, lit "{=[?]}")); (2, (GDerived, lit "Data {{ name: {=?:?} }}")); (3, (GInfo, lit "{=[?]:a}"))]) [3; 0; 2; 1; 0; 0; 0; 2; 0; 1; 0; 2; 0; 0; 0; 0; 0; 72; 105] =
  Some (lit "0.000002 INFO [Data { name: b""Hi"" }]").
Proof. vm_compute. reflexivity. Qed.

Example decoder_display_iso8601_timestamp : shown (with_time [(0, (GInfo, lit "{=u64:iso8601ms}"))]) [0; 0; 2; 36; 188; 151; 238; 120; 1; 0; 0] =
  Some (lit "0.000002 INFO 2021-04-20T09:23:44.804Z").
Proof. vm_compute. reflexivity. Qed.

Example decoder_bools_simple : shown (with_time [(0, (GInfo, lit "my bool={=bool}"))]) [0; 0; 2; 1] =
  Some (lit "0.000002 INFO my bool=true").
Proof. vm_compute. reflexivity. Qed.

Example decoder_bitfields : shown (with_time [(0, (GInfo, lit "x: {0=0..4:b}, y: {0=3..8:#b}"))]) [0; 0; 2; 229] =
  Some (lit "0.000002 INFO x: 101, y: 0b11100").
Proof. vm_compute. reflexivity. Qed.

Example decoder_bitfields_reverse_order : shown (with_time [(0, (GInfo, lit "x: {0=0..7:b}, y: {0=3..5:b}"))]) [0; 0; 2; 210] =
  Some (lit "0.000002 INFO x: 1010010, y: 10").
Proof. vm_compute. reflexivity. Qed.

Example decoder_bitfields_different_indices : shown (with_time [(0, (GInfo, lit "#0: {0=0..5:b}, #1: {1=3..8:b}"))]) [0; 0; 2; 240; 229] =
  Some (lit "0.000002 INFO #0: 10000, #1: 11100").
Proof. vm_compute. reflexivity. Qed.

Example decoder_bitfields_u16 : shown (with_time [(0, (GInfo, lit "x: {0=7..12:b}"))]) [0; 0; 2; 240; 229] =
  Some (lit "0.000002 INFO x: 1011").
Proof. vm_compute. reflexivity. Qed.

Example decoder_bitfields_mixed_types : shown (with_time [(0, (GInfo, lit "#0: {0=7..12:b}, #1: {1=0..5:b}"))]) [0; 0; 2; 240; 229; 241] =
  Some (lit "0.000002 INFO #0: 1011, #1: 10001").
Proof. vm_compute. reflexivity. Qed.

Example decoder_bitfields_mixed : shown (with_time [(0, (GInfo, lit "#0: {0=7..12:b}, #1: {1=u8}, #2: {2=0..5:b}"))]) [0; 0; 2; 240; 229; 42; 241] =
  Some (lit "0.000002 INFO #0: 1011, #1: 42, #2: 10001").
Proof. vm_compute. reflexivity. Qed.

Example decoder_bitfields_across_boundaries : shown (with_time [(0, (GInfo, lit "bitfields {0=0..7:b} {0=9..14:b}"))]) [0; 0; 2; 210; 99] =
  Some (lit "0.000002 INFO bitfields 1010010 10001").
Proof. vm_compute. reflexivity. Qed.

Example decoder_bitfields_across_boundaries_diff_indices : shown (with_time [(0, (GInfo, lit "bitfields {0=0..7:b} {0=9..14:b} {1=8..10:b}"))]) [0; 0; 2; 210; 99; 255] =
  Some (lit "0.000002 INFO bitfields 1010010 10001 11").
Proof. vm_compute. reflexivity. Qed.

Example decoder_bitfields_truncated_front : shown (with_time [(0, (GInfo, lit "bitfields {0=9..14:b}"))]) [0; 0; 2; 99] =
  Some (lit "0.000002 INFO bitfields 10001").
Proof. vm_compute. reflexivity. Qed.

Example decoder_bitfields_non_truncated_u32 : shown (with_time [(0, (GInfo, lit "bitfields {0=0..2:b} {0=28..31:b}"))]) [0; 0; 2; 99; 15; 90; 195] =
  Some (lit "0.000002 INFO bitfields 11 100").
Proof. vm_compute. reflexivity. Qed.

Example decoder_bitfields_u128 : shown (with_time [(0, (GInfo, lit "x: {0=119..124:b}"))]) [0; 0; 2; 229; 229; 0; 0; 0; 0; 0; 0; 0; 0; 0; 0; 0; 0; 0; 0] =
  Some (lit "0.000002 INFO x: 1011").
Proof. vm_compute. reflexivity. Qed.

Example decoder_slice : shown (with_time [(0, (GInfo, lit "x={=[u8]}"))]) [0; 0; 2; 2; 0; 0; 0; 23; 42] =
  Some (lit "0.000002 INFO x=[23, 42]").
Proof. vm_compute. reflexivity. Qed.

Example decoder_slice_with_trailing_args : shown (with_time [(0, (GInfo, lit "x={=[u8]} trailing arg={=u8}"))]) [0; 0; 2; 2; 0; 0; 0; 23; 42; 1] =
  Some (lit "0.000002 INFO x=[23, 42] trailing arg=1").
Proof. vm_compute. reflexivity. Qed.

Example decoder_string_hello_world : shown (with_time [(0, (GInfo, lit "Hello {=str}"))]) [0; 0; 2; 5; 0; 0; 0; 87; 111; 114; 108; 100] =
  Some (lit "0.000002 INFO Hello World").
Proof. vm_compute. reflexivity. Qed.

Example decoder_string_with_trailing_data : shown (with_time [(0, (GInfo, lit "Hello {=str} {=u8}"))]) [0; 0; 2; 5; 0; 0; 0; 87; 111; 114; 108; 100; 125] =
  Some (lit "0.000002 INFO Hello World 125").
Proof. vm_compute. reflexivity. Qed.

Example decoder_char_data : shown (with_time [(0, (GInfo, lit "Supports ASCII {=char} and Unicode {=char}"))]) [0; 0; 2; 97; 0; 0; 0; 156; 244; 1; 0] =
  Some [48; 46; 48; 48; 48; 48; 48; 50; 32; 73; 78; 70; 79; 32; 83; 117; 112; 112; 111; 114; 116; 115; 32; 65; 83; 67; 73; 73; 32; 97; 32; 97; 110; 100; 32; 85; 110; 105; 99; 111; 100; 101; 32; 240; 159; 146; 156].
Proof. vm_compute. reflexivity. Qed.

Example decoder_option : shown (with_time [(4, (GInfo, lit "x={=?}")); (3, (GDerived, lit "None|Some({=?})")); (2, (GDerived, lit "{=u8}"))]) [4; 0; 0; 3; 0; 1; 2; 0; 42] =
  Some (lit "0.000000 INFO x=Some(42)").
Proof. vm_compute. reflexivity. Qed.

Example decoder_option1 : shown (with_time [(4, (GInfo, lit "x={=?}")); (3, (GDerived, lit "None|Some({=?})")); (2, (GDerived, lit "{=u8}"))]) [4; 0; 1; 3; 0; 0] =
  Some (lit "0.000001 INFO x=None").
Proof. vm_compute. reflexivity. Qed.
