(** The model against the remaining snapshot tests of the repository
    ([firmware/qemu/src/bin]; [log.rs] is in [Conform_Log], [tests/defmt-test.rs] in
    [HarnessExamples]): the models of macros, device, decoder and display give the [.out]
    files.  These are no claims. *)
From Verif Require Import Base ParserModel DecoderModel DisplayModel EncodeModel LibTypesModel MacroModel ConformBase.

Local Notation n := VNum.
Local Notation num k := (AvPrim (VNum k)).
Local Notation i32 := (RPrim (PI W32)).

Definition X : externals :=
  MkExternals (fun _ => []) (fun _ => []) (fun s => [34] ++ s ++ [34]) (fun _ => []) (fun _ s => s).

Definition all_bytes : bytes := map Z.of_nat (seq 0 256).

(** ** [hints.rs] *)

Definition hints_rs : list statement :=
  [info "no hint {=u8}" [num 42];
   info "hex     {=u8:x}" [num 42];
   info "hex alt {=u8:#x}" [num 42];
   info "HEX     {=u8:X}" [num 42];
   info "HEX alt {=u8:#X}" [num 42];
   info "octal   {=u8:o}" [num 42];
   info "octal alt {=u8:#o}" [num 42];
   info "binary  {=u8:b}" [num 42];
   info "binary alt {=u8:#b}" [num 42];
   info "ASCII   {=u8:a}" [num 42];
   info "Debug   {=u8:?}" [num 42];
   info "----" [];
   info "no-hint {=i8}" [num 42];
   info "hex     {=i8:x}" [num 42];
   info "hex alt {=i8:#x}" [num 42];
   info "HEX     {=i8:X}" [num 42];
   info "HEX alt {=i8:#X}" [num 42];
   info "octal   {=i8:o}" [num 42];
   info "octal alt {=i8:#o}" [num 42];
   info "binary  {=i8:b}" [num 42];
   info "binary alt {=i8:#b}" [num 42];
   info "ASCII   {=i8:a}" [num 42];
   info "Debug   {=i8:?}" [num 42];
   info "----" [];
   info "no hint {}" [AvFmt (RPrim (PI W8)) (n 42)];
   info "hex     {:x}" [AvFmt (RPrim (PI W8)) (n 42)];
   info "hex alt {:#x}" [AvFmt (RPrim (PI W8)) (n 42)];
   info "HEX     {:X}" [AvFmt (RPrim (PI W8)) (n 42)];
   info "HEX alt {:#X}" [AvFmt (RPrim (PI W8)) (n 42)];
   info "octal   {:o}" [AvFmt (RPrim (PI W8)) (n 42)];
   info "octal alt {:#o}" [AvFmt (RPrim (PI W8)) (n 42)];
   info "binary  {:b}" [AvFmt (RPrim (PI W8)) (n 42)];
   info "binary alt {:#b}" [AvFmt (RPrim (PI W8)) (n 42)];
   info "ASCII   {:a}" [AvFmt (RPrim (PI W8)) (n 42)];
   info "Debug   {:?}" [AvFmt (RPrim (PI W8)) (n 42)];
   info "----" [];
   info "S1 > S2 {}" [AvFmt RManual (writes "{:x}" [AvFmt RManual (writes "{:b}" [AvFmt (RPrim (PI W32)) (n 42)])])];
   info "----" [];
   info "no hint {=[u8]}" [AvBytes [72; 101; 127; 108; 108; 111]];
   info "hex     {=[u8]:x}" [AvBytes [72; 101; 127; 108; 108; 111]];
   info "hex alt {=[u8]:#x}" [AvBytes [72; 101; 127; 108; 108; 111]];
   info "HEX     {=[u8]:X}" [AvBytes [72; 101; 127; 108; 108; 111]];
   info "HEX alt {=[u8]:#X}" [AvBytes [72; 101; 127; 108; 108; 111]];
   info "octal   {=[u8]:o}" [AvBytes [72; 101; 127; 108; 108; 111]];
   info "octal alt {=[u8]:#o}" [AvBytes [72; 101; 127; 108; 108; 111]];
   info "binary  {=[u8]:b}" [AvBytes [72; 101; 127; 108; 108; 111]];
   info "binary alt {=[u8]:#b}" [AvBytes [72; 101; 127; 108; 108; 111]];
   info "ASCII   {=[u8]:a}" [AvBytes [72; 101; 127; 108; 108; 111]];
   info "Debug   {=[u8]:?}" [AvBytes [72; 101; 127; 108; 108; 111]];
   info "----" [];
   info "{=[u8]:a}" [AvBytes all_bytes];
   info "{=[u8;256]:a}" [AvBytes all_bytes];
   info "----" [];
   info "no hint {=str}" [AvPrim (VText (lit "Hello"))];
   info "Debug   {=str:?}" [AvPrim (VText (lit "Hello"))];
   info "no hint {=istr}" [AvPrim (VText (lit "world"))];
   info "Debug   {=istr:?}" [AvPrim (VText (lit "world"))];
   info "----" [];
   info "no hint {=0..4}" [AvBits W32 42];
   info "hex     {=0..4:x}" [AvBits W32 42];
   info "hex     {=0..4:#x}" [AvBits W32 42];
   info "HEX     {=0..4:X}" [AvBits W32 42];
   info "HEX     {=0..4:#X}" [AvBits W32 42];
   info "octal   {=0..4:o}" [AvBits W32 42];
   info "octal   {=0..4:#o}" [AvBits W32 42];
   info "binary  {=0..4:b}" [AvBits W32 42];
   info "binary  {=0..4:#b}" [AvBits W32 42];
   info "ASCII   {=0..4:a}" [AvBits W32 42];
   info "Debug   {=0..4:?}" [AvBits W32 42];
   info "ISO8601 {:iso8601ms}" [AvFmt (RPrim (PU W64)) (n 1618910624804)];
   info "ISO8601 {:iso8601s}" [AvFmt (RPrim (PU W64)) (n 1618910624804)];
   info "Sec ms  {:ms}" [AvFmt (RPrim (PU W64)) (n 1234567)];
   info "Sec us  {:us}" [AvFmt (RPrim (PU W64)) (n 1234567)];
   info "Time s  {:ts}" [AvFmt (RPrim (PU W64)) (n 1234567)];
   info "Time ms {:tms}" [AvFmt (RPrim (PU W64)) (n 1234567)];
   info "Time us {:tus}" [AvFmt (RPrim (PU W64)) (n 1234567)]].

Definition hints_out : list bytes :=
  [lit "0.000000 INFO no hint 42";
   lit "0.000001 INFO hex     2a";
   lit "0.000002 INFO hex alt 0x2a";
   lit "0.000003 INFO HEX     2A";
   lit "0.000004 INFO HEX alt 0x2A";
   lit "0.000005 INFO octal   52";
   lit "0.000006 INFO octal alt 0o52";
   lit "0.000007 INFO binary  101010";
   lit "0.000008 INFO binary alt 0b101010";
   lit "0.000009 INFO ASCII   42";
   lit "0.000010 INFO Debug   42";
   lit "0.000011 INFO ----";
   lit "0.000012 INFO no-hint 42";
   lit "0.000013 INFO hex     2a";
   lit "0.000014 INFO hex alt 0x2a";
   lit "0.000015 INFO HEX     2A";
   lit "0.000016 INFO HEX alt 0x2A";
   lit "0.000017 INFO octal   52";
   lit "0.000018 INFO octal alt 0o52";
   lit "0.000019 INFO binary  101010";
   lit "0.000020 INFO binary alt 0b101010";
   lit "0.000021 INFO ASCII   42";
   lit "0.000022 INFO Debug   42";
   lit "0.000023 INFO ----";
   lit "0.000024 INFO no hint 42";
   lit "0.000025 INFO hex     2a";
   lit "0.000026 INFO hex alt 0x2a";
   lit "0.000027 INFO HEX     2A";
   lit "0.000028 INFO HEX alt 0x2A";
   lit "0.000029 INFO octal   52";
   lit "0.000030 INFO octal alt 0o52";
   lit "0.000031 INFO binary  101010";
   lit "0.000032 INFO binary alt 0b101010";
   lit "0.000033 INFO ASCII   42";
   lit "0.000034 INFO Debug   42";
   lit "0.000035 INFO ----";
   lit "0.000036 INFO S1 > S2 101010";
   lit "0.000037 INFO ----";
   lit "0.000038 INFO no hint [72, 101, 127, 108, 108, 111]";
   lit "0.000039 INFO hex     [48, 65, 7f, 6c, 6c, 6f]";
   lit "0.000040 INFO hex alt [0x48, 0x65, 0x7f, 0x6c, 0x6c, 0x6f]";
   lit "0.000041 INFO HEX     [48, 65, 7F, 6C, 6C, 6F]";
   lit "0.000042 INFO HEX alt [0x48, 0x65, 0x7F, 0x6C, 0x6C, 0x6F]";
   lit "0.000043 INFO octal   [110, 145, 177, 154, 154, 157]";
   lit "0.000044 INFO octal alt [0o110, 0o145, 0o177, 0o154, 0o154, 0o157]";
   lit "0.000045 INFO binary  [1001000, 1100101, 1111111, 1101100, 1101100, 1101111]";
   lit "0.000046 INFO binary alt [0b1001000, 0b1100101, 0b1111111, 0b1101100, 0b1101100, 0b1101111]";
   lit "0.000047 INFO ASCII   b""He\x7fllo""";
   lit "0.000048 INFO Debug   [72, 101, 127, 108, 108, 111]";
   lit "0.000049 INFO ----";
   lit "0.000050 INFO b""\x00\x01\x02\x03\x04\x05\x06\x07\x08\t\n\x0b\x0c\r\x0e\x0f\x10\x11\x12\x13\x14\x15\x16\x17\x18\x19\x1a\x1b\x1c\x1d\x1e\x1f !\""#$%&'()*+,-./0123456789:;<=>?@ABCDEFGHIJKLMNOPQRSTUVWXYZ[\\]^_`abcdefghijklmnopqrstuvwxyz{|}~\x7f\x80\x81\x82\x83\x84\x85\x86\x87\x88\x89\x8a\x8b\x8c\x8d\x8e\x8f\x90\x91\x92\x93\x94\x95\x96\x97\x98\x99\x9a\x9b\x9c\x9d\x9e\x9f\xa0\xa1\xa2\xa3\xa4\xa5\xa6\xa7\xa8\xa9\xaa\xab\xac\xad\xae\xaf\xb0\xb1\xb2\xb3\xb4\xb5\xb6\xb7\xb8\xb9\xba\xbb\xbc\xbd\xbe\xbf\xc0\xc1\xc2\xc3\xc4\xc5\xc6\xc7\xc8\xc9\xca\xcb\xcc\xcd\xce\xcf\xd0\xd1\xd2\xd3\xd4\xd5\xd6\xd7\xd8\xd9\xda\xdb\xdc\xdd\xde\xdf\xe0\xe1\xe2\xe3\xe4\xe5\xe6\xe7\xe8\xe9\xea\xeb\xec\xed\xee\xef\xf0\xf1\xf2\xf3\xf4\xf5\xf6\xf7\xf8\xf9\xfa\xfb\xfc\xfd\xfe\xff""";
   lit "0.000051 INFO b""\x00\x01\x02\x03\x04\x05\x06\x07\x08\t\n\x0b\x0c\r\x0e\x0f\x10\x11\x12\x13\x14\x15\x16\x17\x18\x19\x1a\x1b\x1c\x1d\x1e\x1f !\""#$%&'()*+,-./0123456789:;<=>?@ABCDEFGHIJKLMNOPQRSTUVWXYZ[\\]^_`abcdefghijklmnopqrstuvwxyz{|}~\x7f\x80\x81\x82\x83\x84\x85\x86\x87\x88\x89\x8a\x8b\x8c\x8d\x8e\x8f\x90\x91\x92\x93\x94\x95\x96\x97\x98\x99\x9a\x9b\x9c\x9d\x9e\x9f\xa0\xa1\xa2\xa3\xa4\xa5\xa6\xa7\xa8\xa9\xaa\xab\xac\xad\xae\xaf\xb0\xb1\xb2\xb3\xb4\xb5\xb6\xb7\xb8\xb9\xba\xbb\xbc\xbd\xbe\xbf\xc0\xc1\xc2\xc3\xc4\xc5\xc6\xc7\xc8\xc9\xca\xcb\xcc\xcd\xce\xcf\xd0\xd1\xd2\xd3\xd4\xd5\xd6\xd7\xd8\xd9\xda\xdb\xdc\xdd\xde\xdf\xe0\xe1\xe2\xe3\xe4\xe5\xe6\xe7\xe8\xe9\xea\xeb\xec\xed\xee\xef\xf0\xf1\xf2\xf3\xf4\xf5\xf6\xf7\xf8\xf9\xfa\xfb\xfc\xfd\xfe\xff""";
   lit "0.000052 INFO ----";
   lit "0.000053 INFO no hint Hello";
   lit "0.000054 INFO Debug   ""Hello""";
   lit "0.000055 INFO no hint world";
   lit "0.000056 INFO Debug   ""world""";
   lit "0.000057 INFO ----";
   lit "0.000058 INFO no hint 10";
   lit "0.000059 INFO hex     a";
   lit "0.000060 INFO hex     0xa";
   lit "0.000061 INFO HEX     A";
   lit "0.000062 INFO HEX     0xA";
   lit "0.000063 INFO octal   12";
   lit "0.000064 INFO octal   0o12";
   lit "0.000065 INFO binary  1010";
   lit "0.000066 INFO binary  0b1010";
   lit "0.000067 INFO ASCII   b""\n""";
   lit "0.000068 INFO Debug   10";
   lit "0.000069 INFO ISO8601 2021-04-20T09:23:44.804Z";
   lit "0.000070 INFO ISO8601 +53271-03-27T11:46:44Z";
   lit "0.000071 INFO Sec ms  1234.567";
   lit "0.000072 INFO Sec us  1.234567";
   lit "0.000073 INFO Time s  14:06:56:07";
   lit "0.000074 INFO Time ms 00:20:34.567";
   lit "0.000075 INFO Time us 00:00:01.234567"].

Example hints_snapshot : run_with X (Some (lit "{=u32:us}")) (fun k => [num (Z.of_nat k)]) [] hints_rs = map Some hints_out.
Proof. vm_compute. reflexivity. Qed.

(** ** [hints_inner.rs] *)

Definition hints_inner_rs : list statement :=
  [info "{:#x}" [AvFmt RManual (writes "S1 {{ x: {=str:?}, y: {=u8:?} }}" [AvPrim (VText (lit "hi")); num 42])];
   info "{:#b}" [AvFmt RManual (writes "S2 {{ x: {=u8:#x} }}" [num 42])];
   (GWarn, lit "Debug hint: {:?}", [AvFmt (RStruct (lit "S") KNamed [fd "x" (RRef (RPrim PStr)); fd "y" (RPrim (PU W32))]) (VList [VText (lit "hello"); n 512])]);
   (GWarn, lit "   no hint: {}", [AvFmt (RStruct (lit "S") KNamed [fd "x" (RRef (RPrim PStr)); fd "y" (RPrim (PU W32))]) (VList [VText (lit "hello"); n 1024])]);
   info "{}" [AvFmt RManual (writes "S2 {{ s: {:?}, z: {} }}" [AvFmt RManual (writes "S1 {{ x: {=u16:#b}, y: {} }}" [num 4; AvFmt (RPrim (PU W32)) (n 12)]); AvFmt (RPrim (PU W8)) (n 20)])];
   info "{:?}" [AvFmt RManual (writes "S2 {{ s: {:?}, z: {} }}" [AvFmt RManual (writes "S1 {{ x: {=u16:#b}, y: {} }}" [num 4; AvFmt (RPrim (PU W32)) (n 12)]); AvFmt (RPrim (PU W8)) (n 20)])];
   info "{:#x}" [AvFmt RManual (writes "S2 {{ s: {:?}, z: {} }}" [AvFmt RManual (writes "S1 {{ x: {=u16:#b}, y: {} }}" [num 4; AvFmt (RPrim (PU W32)) (n 12)]); AvFmt (RPrim (PU W8)) (n 20)])];
   info "{:#b}" [AvFmt RManual (writes "S2 {{ s: {:?}, z: {} }}" [AvFmt RManual (writes "S1 {{ x: {=u16:#b}, y: {} }}" [num 4; AvFmt (RPrim (PU W32)) (n 12)]); AvFmt (RPrim (PU W8)) (n 20)])];
   info "{}" [AvFmt (RStruct (lit "S1") KNamed [fd "x" (ROpaque (RRef (RPrim PStr))); fd "y" (RPrim (PU W8))]) (VList [VText (lit "hi"); n 42])];
   info "{:#x}" [AvFmt (RStruct (lit "S1") KNamed [fd "x" (ROpaque (RRef (RPrim PStr))); fd "y" (RPrim (PU W8))]) (VList [VText (lit "hi"); n 42])]].

Definition hints_inner_out : list bytes :=
  [lit "0.000000 INFO S1 { x: ""hi"", y: 0x2a }";
   lit "0.000001 INFO S2 { x: 0x2a }";
   lit "0.000002 WARN Debug hint: S { x: ""hello"", y: 512 }";
   lit "0.000003 WARN    no hint: S { x: ""hello"", y: 1024 }";
   lit "0.000004 INFO S2 { s: S1 { x: 0b100, y: 12 }, z: 20 }";
   lit "0.000005 INFO S2 { s: S1 { x: 0b100, y: 12 }, z: 20 }";
   lit "0.000006 INFO S2 { s: S1 { x: 0b100, y: 12 }, z: 0x14 }";
   lit "0.000007 INFO S2 { s: S1 { x: 0b100, y: 12 }, z: 0b10100 }";
   lit "0.000008 INFO S1 { x: ""hi"", y: 42 }";
   lit "0.000009 INFO S1 { x: ""hi"", y: 0x2a }"].

Example hints_inner_snapshot : run_with X (Some (lit "{=u32:us}")) (fun k => [num (Z.of_nat k)]) [] hints_inner_rs = map Some hints_inner_out.
Proof. vm_compute. reflexivity. Qed.

(** ** [alloc.rs]: the argument with a log statement in it is evaluated before the frame is begun. *)

Definition alloc_rs : list statement :=
  [info "Box<u32>: {=?}" [AvFmt (RRef (RPrim (PU W32))) (n 42)];
   info "Box<Box<u32>>: {=?}" [AvFmt (RRef (RRef (RPrim (PU W32)))) (n 1337)];
   info "in nested {=u8}" [num 123];
   info "Box<NestedStruct>: {=?}" [AvFmt (RRef (RStruct (lit "NestedStruct") KNamed [fd "a" (RPrim (PU W8)); fd "b" (RPrim (PU W32))])) (VList [n (170); n (305419896)])];
   info "Rc<u32>: {=?}" [AvFmt (RRef (RPrim (PU W32))) (n 42)];
   info "Arc<u32>: {=?}" [AvFmt (RRef (RPrim (PU W32))) (n 42)];
   info "Vec<u32>: {=?}" [AvFmt (RRef (RSlice (RPrim (PU W32)))) (VList [n (1); n (2); n (3); n (4)])];
   info "Vec<i32>: {=?}" [AvFmt (RRef (RSlice (RPrim (PI W32)))) (VList [n (-1); n (2); n (3); n (4)])];
   info "Vec<Box<i32>>: {=?}" [AvFmt (RRef (RSlice (RRef (RPrim (PI W32))))) (VList [n (-1); n (2); n (3); n (4)])];
   info "Box<Vec<i32>>: {=?}" [AvFmt (RRef (RRef (RSlice (RPrim (PI W32))))) (VList [n (-1); n (2); n (3); n (4)])];
   info "String: {=?}" [AvFmt (RRef (RPrim PStr)) (VText (lit "Hello! I'm a heap-allocated String"))];
   info "Cow<[u32]>: {=?}" [AvFmt (RRef (RSlice (RPrim (PU W32)))) (VList [n (1); n (2); n (3); n (4)])];
   info "Cow<Vec<u32>>: {=?}" [AvFmt (RRef (RSlice (RPrim (PU W32)))) (VList [n (1); n (2); n (3); n (4)])];
   info "Cow<str>: {=?}" [AvFmt (RRef (RPrim PStr)) (VText (lit "moo"))];
   info "Cow<String>: {=?}" [AvFmt (RRef (RPrim PStr)) (VText (lit "moo, but allocated"))]].

Definition alloc_out : list bytes :=
  [lit "0.000000 INFO Box<u32>: 42";
   lit "0.000001 INFO Box<Box<u32>>: 1337";
   lit "0.000002 INFO in nested 123";
   lit "0.000003 INFO Box<NestedStruct>: NestedStruct { a: 170, b: 305419896 }";
   lit "0.000004 INFO Rc<u32>: 42";
   lit "0.000005 INFO Arc<u32>: 42";
   lit "0.000006 INFO Vec<u32>: [1, 2, 3, 4]";
   lit "0.000007 INFO Vec<i32>: [-1, 2, 3, 4]";
   lit "0.000008 INFO Vec<Box<i32>>: [-1, 2, 3, 4]";
   lit "0.000009 INFO Box<Vec<i32>>: [-1, 2, 3, 4]";
   lit "0.000010 INFO String: Hello! I'm a heap-allocated String";
   lit "0.000011 INFO Cow<[u32]>: [1, 2, 3, 4]";
   lit "0.000012 INFO Cow<Vec<u32>>: [1, 2, 3, 4]";
   lit "0.000013 INFO Cow<str>: moo";
   lit "0.000014 INFO Cow<String>: moo, but allocated"].

Example alloc_snapshot : run_with X (Some (lit "{=u32:us}")) (fun k => [num (Z.of_nat k)]) [] alloc_rs = map Some alloc_out.
Proof. vm_compute. reflexivity. Qed.

(** ** [bitflags.rs]: all flags of the first program are in its table, but not those under a false
    condition. *)

Definition small (x : Z) : aval := AvFmt (RFlags W8 (lit "Flags") (lit "qemu") (lit "1") (lit "bitflags")) (VNum x).
Definition large (x : Z) : aval := AvFmt (RFlags W128 (lit "LargeFlags") (lit "qemu") (lit "2") (lit "bitflags")) (VNum x).
Definition flags_table : list (bitflags_key * list (bytes * Z)) :=
  [(MkKey (lit "Flags") (lit "qemu") (lit "1") (Some (lit "bitflags")),
    [(lit "FLAG_0", 0); (lit "FLAG_1", 1); (lit "FLAG_2", 2); (lit "FLAG_7", 128); (lit "FLAG_7_COPY", 128)]);
   (MkKey (lit "LargeFlags") (lit "qemu") (lit "2") (Some (lit "bitflags")),
    [(lit "MSB", 2 ^ 127); (lit "ALL", 2 ^ 128 - 1); (lit "NON_LITERAL", Z.lxor 236037956444562530 3735928559)])].

Definition bitflags_rs : list statement :=
  [info "Flags::empty(): {}" [small 0];
   info "Flags::empty(): {} (fmt::Debug)" [AvFmt RDebug (VText (lit "FLAG_0"))];
   info "Flags::all(): {}" [small 131];
   info "Flags::all(): {} (fmt::Debug)" [AvFmt RDebug (VText (lit "FLAG_1 | FLAG_2 | FLAG_7 | FLAG_7_COPY"))];
   info "Flags::FLAG_1: {}" [small 1];
   info "Flags::FLAG_1: {} (fmt::Debug)" [AvFmt RDebug (VText (lit "FLAG_1"))];
   info "Flags::FLAG_7: {}" [small 128];
   info "Flags::FLAG_7: {} (fmt::Debug)" [AvFmt RDebug (VText (lit "FLAG_7 | FLAG_7_COPY"))];
   info "LargeFlags::ALL: {}" [large (2 ^ 128 - 1)];
   info "LargeFlags::ALL: {} (fmt::Debug)" [AvFmt RDebug (VText (lit "MSB | ALL | NON_LITERAL"))];
   info "LargeFlags::empty(): {}" [large 0];
   info "LargeFlags::empty(): {} (fmt::Debug)" [AvFmt RDebug (VText (lit "(empty)"))]].

Definition bitflags_out : list bytes :=
  [lit "INFO Flags::empty(): FLAG_0";
   lit "INFO Flags::empty(): FLAG_0 (fmt::Debug)";
   lit "INFO Flags::all(): FLAG_1 | FLAG_2 | FLAG_7 | FLAG_7_COPY";
   lit "INFO Flags::all(): FLAG_1 | FLAG_2 | FLAG_7 | FLAG_7_COPY (fmt::Debug)";
   lit "INFO Flags::FLAG_1: FLAG_1";
   lit "INFO Flags::FLAG_1: FLAG_1 (fmt::Debug)";
   lit "INFO Flags::FLAG_7: FLAG_7 | FLAG_7_COPY";
   lit "INFO Flags::FLAG_7: FLAG_7 | FLAG_7_COPY (fmt::Debug)";
   lit "INFO LargeFlags::ALL: MSB | ALL | NON_LITERAL";
   lit "INFO LargeFlags::ALL: MSB | ALL | NON_LITERAL (fmt::Debug)";
   lit "INFO LargeFlags::empty(): (empty)";
   lit "INFO LargeFlags::empty(): (empty) (fmt::Debug)"].

Example bitflags_snapshot : run_with X None (fun _ => []) flags_table bitflags_rs = map Some bitflags_out.
Proof. vm_compute. reflexivity. Qed.

(** ** [timestamp.rs] *)

Definition timestamp_args : list aval :=
  [AvFmt RManual (writes "It is {}:{}:{} {=bool}" [u8_arg 10; u8_arg 20; u8_arg 30; num 1]); num 0].

Definition timestamp_rs : list statement :=
  [(GInfo, lit "test {=bool}", [num 1]);
   (GPrintln, lit "Hello {}{}", [AvFmt (RRef (RPrim PStr)) (VText (lit "World")); AvFmt (RPrim PChar) (n 33)])].

Definition timestamp_out : list bytes :=
  [lit "It is 10:20:30 true false INFO test true";
   lit "It is 10:20:30 true false Hello World!"].

Example timestamp_snapshot : run_with X (Some (lit "{} {=bool}")) (fun _ => timestamp_args) [] timestamp_rs = map Some timestamp_out.
Proof. vm_compute. reflexivity. Qed.

(** ** The macros *)

Definition all (l : level) : bool := true.
Definition no_scope : scope := fun _ => None.
Definition logs {A} (m : option (expr (effect A))) : list statement :=
  match m with
  | Some f => map (fun x : logged => let '(l, s, args) := x in (level_tag l, s, args)) (fst (f no_scope))
  | None => []
  end.
Definition dbg (l : list (string * rty * rval)) : list statement :=
  logs (dbg_macro all (map (fun x => let '(s, t, v) := x in (lit s, t, fun _ => v)) l)).

Definition net_rs : list statement :=
  let a := ipv4 127 0 0 1 in
  let c := socket_v4 a 8080 in
  let e := ipv6 [32; 1; 13; 184; 0; 0; 0; 0; 0; 0; 0; 0; 0; 0; 0; 1] in
  let g := socket_v6 e 8080 in
  dbg [("a"%string, RManual, a); ("b"%string, RManual, any_addr a); ("c"%string, RManual, c); ("d"%string, RManual, any_addr c);
       ("e"%string, RManual, e); ("f"%string, RManual, any_addr e); ("g"%string, RManual, g); ("h"%string, RManual, any_addr g);
       ("i"%string, RManual, addr_parse_error)].

Definition net_out : list bytes :=
  [lit "TRACE a = 127.0.0.1";
   lit "TRACE b = 127.0.0.1";
   lit "TRACE c = 127.0.0.1:8080";
   lit "TRACE d = 127.0.0.1:8080";
   lit "TRACE e = 2001:0db8:0000:0000:0000:0000:0000:0001";
   lit "TRACE f = 2001:0db8:0000:0000:0000:0000:0000:0001";
   lit "TRACE g = [2001:0db8:0000:0000:0000:0000:0000:0001]:8080";
   lit "TRACE h = [2001:0db8:0000:0000:0000:0000:0000:0001]:8080";
   lit "TRACE i = AddrParseError(_)"].

Example net_snapshot : run X net_rs = map Some net_out.
Proof. vm_compute. reflexivity. Qed.

Definition dbg_rs : list statement :=
  dbg [("x + 1"%string, i32, n 43)] ++
  dbg [("x - 1"%string, i32, n 41)] ++ [info "the answer is {}" [AvFmt i32 (n 41)]] ++
  dbg [("x - 2"%string, i32, n 40); ("x + 2"%string, i32, n 44)] ++
  dbg [] ++
  dbg [("x"%string, i32, n 42)].

Definition dbg_out : list bytes :=
  [lit "TRACE x + 1 = 43";
   lit "TRACE x - 1 = 41";
   lit "INFO the answer is 41";
   lit "TRACE x - 2 = 40";
   lit "TRACE x + 2 = 44";
   lit "TRACE ";
   lit "TRACE x = 42"].

Example dbg_snapshot : run X dbg_rs = map Some dbg_out.
Proof. vm_compute. reflexivity. Qed.

Definition panic_rs : list statement :=
  logs (panic_macro all (Some (MkLogArgs (lit "The answer is {=?}") [fun _ => AvFmt i32 (n 42)]))).

Definition panic_out : list bytes :=
  [lit "ERROR panicked at 'The answer is 42'"].

Example panic_snapshot : run X panic_rs = map Some panic_out.
Proof. vm_compute. reflexivity. Qed.

Definition panic_info_rs : list statement :=
  [info "PanicInfo: {=?}" [AvFmt (RRef RManual) (panic_info (Some (location (lit "qemu/src/bin/panic_info.rs") 14 5)))]].

Definition panic_info_out : list bytes :=
  [lit "INFO PanicInfo: panicked at qemu/src/bin/panic_info.rs:14:5"].

Example panic_info_snapshot : run X panic_info_rs = map Some panic_info_out.
Proof. vm_compute. reflexivity. Qed.

(** In debug builds; what follows a panic is not run. *)
Definition assert_rs : list statement :=
  logs (assert_macro all (lit "{ 1 + 1 } == { 2 }") (fun _ => true) None) ++
  logs (debug_only true (assert_macro all (lit "dev") (fun _ => false) None)).

Definition assert_out : list bytes :=
  [lit "ERROR panicked at 'assertion failed: dev'"].

Example assert_snapshot : run X assert_rs = map Some assert_out.
Proof. vm_compute. reflexivity. Qed.

Definition same (a b : rval) : bool := match a, b with VNum x, VNum y => x =? y | _, _ => false end.

Definition assert_eq_rs : list statement :=
  logs (binop_macro all Eq i32 i32 (fun _ => n 2) (fun _ => n 2) same None) ++
  logs (debug_only true (binop_macro all Eq i32 i32 (fun _ => n 41) (fun _ => n 43) same (Some (MkLogArgs (lit "dev") [])))).

Definition assert_eq_out : list bytes :=
  [lit "ERROR panicked at 'assertion failed: `(left == right)`: dev'" ++ [10] ++ lit " left: `41`" ++ [10] ++ lit "right: `43`"].

Example assert_eq_snapshot : run X assert_eq_rs = map Some assert_eq_out.
Proof. vm_compute. reflexivity. Qed.

Definition assert_ne_rs : list statement :=
  logs (binop_macro all Ne i32 i32 (fun _ => n 2) (fun _ => n 3) same None) ++
  logs (debug_only true (binop_macro all Ne i32 i32 (fun _ => n 42) (fun _ => n 42) same (Some (MkLogArgs (lit "dev") [])))).

Definition assert_ne_out : list bytes :=
  [lit "ERROR panicked at 'assertion failed: `(left != right)`: dev'" ++ [10] ++ lit "left/right: `42`"].

Example assert_ne_snapshot : run X assert_ne_rs = map Some assert_ne_out.
Proof. vm_compute. reflexivity. Qed.

Definition unwrap_rs : list statement :=
  let error := REnum [un "Bar"] in
  [info "The answer is {=?}" [AvFmt (RPrim (PU W32)) (n 42)]] ++
  logs (unwrap_macro (A := rval) all (lit "x") (fun _ => UErr error (VVar 0 [])) None).

Definition unwrap_out : list bytes :=
  [lit "INFO The answer is 42";
   lit "ERROR panicked at 'unwrap failed: x'" ++ [10] ++ lit "error: `Bar`"].

Example unwrap_snapshot : run X unwrap_rs = map Some unwrap_out.
Proof. vm_compute. reflexivity. Qed.
