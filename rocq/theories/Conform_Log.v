(** The model against the snapshot tests of the repository: the statements of
    [firmware/qemu/src/bin/log.rs] (all of them) are encoded by the model of the device, decoded
    and displayed by the model of the host, and give [firmware/qemu/src/bin/log.out].  These are
    no claims; they show that the model computes what the real programs print. *)
From Verif Require Import Base ParserModel DecoderModel DisplayModel EncodeModel LibTypesModel ConformBase.

Local Notation u8 := (RPrim (PU W8)).
Local Notation u16 := (RPrim (PU W16)).
Local Notation u32 := (RPrim (PU W32)).
Local Notation i8 := (RPrim (PI W8)).
Local Notation i32 := (RPrim (PI W32)).
Local Notation bool := (RPrim PBool).
Local Notation n := VNum.
Local Notation num k := (AvPrim (VNum k)).

Definition S := RStruct (lit "S") KNamed [fd "x" u8; fd "y" u16].
Definition Y := RStruct (lit "Y") KNamed [fd "z" u8].
Definition X := RStruct (lit "X") KNamed [fd "y" Y].
Definition Arr := RStruct (lit "Arr") KNamed [fd "arr1" (RArray 1 u8); fd "arr0" (RArray 0 u8); fd "arr32" (RArray 32 u8)].
Definition E := REnum [un "A"; un "B"].
Definition Flags := RStruct (lit "Flags") KNamed [fd "a" bool; fd "b" bool; fd "c" bool].
Definition large := REnum [un "A000"; un "A001"; un "A002"; un "A003"; un "A004"; un "A005"; un "A006"; un "A007"; un "A008"; un "A009"; un "A010"; un "A011"; un "A012"; un "A013"; un "A014"; un "A015"; un "A016"; un "A017"; un "A018"; un "A019"; un "A020"; un "A021"; un "A022"; un "A023"; un "A024"; un "A025"; un "A026"; un "A027"; un "A028"; un "A029"; un "A030"; un "A031"; un "A032"; un "A033"; un "A034"; un "A035"; un "A036"; un "A037"; un "A038"; un "A039"; un "A040"; un "A041"; un "A042"; un "A043"; un "A044"; un "A045"; un "A046"; un "A047"; un "A048"; un "A049"; un "A050"; un "A051"; un "A052"; un "A053"; un "A054"; un "A055"; un "A056"; un "A057"; un "A058"; un "A059"; un "A060"; un "A061"; un "A062"; un "A063"; un "A064"; un "A065"; un "A066"; un "A067"; un "A068"; un "A069"; un "A070"; un "A071"; un "A072"; un "A073"; un "A074"; un "A075"; un "A076"; un "A077"; un "A078"; un "A079"; un "A080"; un "A081"; un "A082"; un "A083"; un "A084"; un "A085"; un "A086"; un "A087"; un "A088"; un "A089"; un "A090"; un "A091"; un "A092"; un "A093"; un "A094"; un "A095"; un "A096"; un "A097"; un "A098"; un "A099"; un "A100"; un "A101"; un "A102"; un "A103"; un "A104"; un "A105"; un "A106"; un "A107"; un "A108"; un "A109"; un "A110"; un "A111"; un "A112"; un "A113"; un "A114"; un "A115"; un "A116"; un "A117"; un "A118"; un "A119"; un "A120"; un "A121"; un "A122"; un "A123"; un "A124"; un "A125"; un "A126"; un "A127"; un "A128"; un "A129"; un "A130"; un "A131"; un "A132"; un "A133"; un "A134"; un "A135"; un "A136"; un "A137"; un "A138"; un "A139"; un "A140"; un "A141"; un "A142"; un "A143"; un "A144"; un "A145"; un "A146"; un "A147"; un "A148"; un "A149"; un "A150"; un "A151"; un "A152"; un "A153"; un "A154"; un "A155"; un "A156"; un "A157"; un "A158"; un "A159"; un "A160"; un "A161"; un "A162"; un "A163"; un "A164"; un "A165"; un "A166"; un "A167"; un "A168"; un "A169"; un "A170"; un "A171"; un "A172"; un "A173"; un "A174"; un "A175"; un "A176"; un "A177"; un "A178"; un "A179"; un "A180"; un "A181"; un "A182"; un "A183"; un "A184"; un "A185"; un "A186"; un "A187"; un "A188"; un "A189"; un "A190"; un "A191"; un "A192"; un "A193"; un "A194"; un "A195"; un "A196"; un "A197"; un "A198"; un "A199"; un "A200"; un "A201"; un "A202"; un "A203"; un "A204"; un "A205"; un "A206"; un "A207"; un "A208"; un "A209"; un "A210"; un "A211"; un "A212"; un "A213"; un "A214"; un "A215"; un "A216"; un "A217"; un "A218"; un "A219"; un "A220"; un "A221"; un "A222"; un "A223"; un "A224"; un "A225"; un "A226"; un "A227"; un "A228"; un "A229"; un "A230"; un "A231"; un "A232"; un "A233"; un "A234"; un "A235"; un "A236"; un "A237"; un "A238"; un "A239"; un "A240"; un "A241"; un "A242"; un "A243"; un "A244"; un "A245"; un "A246"; un "A247"; un "A248"; un "A249"; un "A250"; un "A251"; un "A252"; un "A253"; un "A254"; un "A255"; un "A256"; un "A257"; un "A258"; un "A259"; un "A260"; un "A261"; un "A262"; un "A263"; un "A264"; un "A265"; un "A266"; un "A267"; un "A268"; un "A269"].

(** The two floats in the program. *)
Definition externals_log : externals :=
  MkExternals (fun b => if b =? 1085632676 then lit "5.67" else []) (fun b => if b =? 4617315517961601099 then lit "5.000000000000067" else [])
    (fun s => [34] ++ s ++ [34]) (fun _ => []) (fun _ s => s).

Definition log_rs : list statement :=
  [info "Hello!" [];
   info "World!" [];
   info "The answer is {=u8}" [num (42)];
   info "Hello {0=u8} {0=u8}!" [num (42)];
   info "Hello {1=u16} {0=u8} {2=bool}" [num (42); num (256); num (0)];
   info "🍕 slice {=[u8]}" [AvBytes [3; 14]];
   info "🍕 array {=[u8; 3]}" [AvBytes [3; 14; 1]];
   info "float like a butterfly {=f32} {}" [num (1085632676); AvFmt (RPrim PF32) (n (1085632676))];
   info "double like a butterfly {=f64} {}" [num (4617315517961601099); AvFmt (RPrim PF64) (n (4617315517961601099))];
   info "Hello {=u8}" [num (42)];
   info "Hex lower {=i8:x}, {=i16:x}, {=i32:x}, {=i64:x}, {=i128:x}" [num (-1); num (-2); num (-3); num (-4); num (-5)];
   info "Hex lower {=i8:#x}, {=i16:#x}, {=i32:#x}, {=i64:#x}, {=i128:#x}" [num (-1); num (-2); num (-3); num (-4); num (-5)];
   info "Hex upper {=i8:X}, {=i16:X}, {=i32:X}, {=i64:X}, {=i128:X}" [num (-1); num (-2); num (-3); num (-4); num (-5)];
   info "Hex upper {=i8:#X}, {=i16:#X}, {=i32:#X}, {=i64:#X}, {=i128:#X}" [num (-1); num (-2); num (-3); num (-4); num (-5)];
   info "Hex unsigned {=u8:04x}, {=u16:#08X}, {=u32:04x}, {=u64:#010x}, {=u128:#X}" [num (1); num (2); num (200000); num (4); num (340282366920938463463374607431768211455)];
   info "u64: 0 = {=u64}, 1 = {=u64}, MAX = {=u64}, MIN = {=u64}" [num (0); num (1); num (18446744073709551615); num (0)];
   info "i64: 0 = {=i64}, -1 = {=i64}, MAX = {=i64}, MIN = {=i64}" [num (0); num (-1); num (9223372036854775807); num (-9223372036854775808)];
   info "isize: 0 = {=isize}, -1 = {=isize}, MAX = {=isize}, MIN = {=isize}" [num (0); num (-1); num (2147483647); num (-2147483648)];
   info "isize: 0 = {=?}, -1 = {=?}, MAX = {=?}, MIN = {=?}" [AvFmt i32 (n (0)); AvFmt i32 (n (-1)); AvFmt (RPrim PIsize) (n (2147483647)); AvFmt (RPrim PIsize) (n (-2147483648))];
   info "usize: 0 = {=usize}, MAX = {=usize}" [num (0); num (4294967295)];
   info "bitfields {0=0..3} {0=5..7}" [AvBits W16 25558];
   (GTrace, lit "log trace", []);
   (GDebug, lit "log debug", []);
   (GInfo, lit "log info", []);
   (GWarn, lit "log warn", []);
   (GError, lit "log error", []);
   info "{=?}" [AvFmt S (VList [n (1); n (256)])];
   info "{=?}" [AvFmt X (VList [VList [n (42)]])];
   info "&str = {=str}" [AvPrim (VText (lit "string slice"))];
   info "&str = {=?}" [AvFmt (RRef (RPrim PStr)) (VText (lit "string slice"))];
   info "&Str = {=istr}" [AvPrim (VText (lit "interned string"))];
   info "&Str = {=?}" [AvFmt (RPrim PIStr) (VText (lit "interned string"))];
   info "{=?}" [AvFmt Arr (VList [VList [n (31)]; VList []; VList [n (85); n (85); n (85); n (85); n (85); n (85); n (85); n (85); n (85); n (85); n (85); n (85); n (85); n (85); n (85); n (85); n (85); n (85); n (85); n (85); n (85); n (85); n (85); n (85); n (85); n (85); n (85); n (85); n (85); n (85); n (85); n (85)]])];
   info "{=[?]}" [AvSlice u16 [n (256); n (257); n (258)]];
   info "{=[?]}" [AvSlice S [VList [n (128); n (256)]; VList [n (129); n (257)]]];
   info "{=[?]}" [AvSlice X [VList [VList [n (128)]]; VList [VList [n (129)]]]];
   info "{=[?]}" [AvSlice (RRef (RSlice u16)) [VList [n (256); n (257); n (258)]; VList [n (259); n (260)]]];
   info "e1={=?}" [AvFmt E (VVar 0 [])];
   info "e2={=?}" [AvFmt E (VVar 1 [])];
   info "e3={=?}" [AvFmt (option_ty u8) (VVar 1 [n (42)])];
   info "e4={=?}" [AvFmt (option_ty u8) (VVar 0 [])];
   info "e5={=?}" [AvFmt (result_ty u8 u16) (VVar 1 [n (42)])];
   info "e6={=?}" [AvFmt (result_ty u8 u16) (VVar 0 [n (256)])];
   info "e7={=?}" [AvFmt (option_ty X) (VVar 1 [VList [VList [n (42)]]])];
   info "{=bool} {=?}" [num (1); AvFmt Flags (VList [n (1); n (0); n (1)])];
   info "{=[?]}" [AvSlice bool [n (1); n (1); n (0)]];
   info "usize slice: {=?}" [AvFmt (RRef (RSlice (RPrim PUsize))) (VList [n (1); n (2); n (3)])];
   info "isize slice: {=?}" [AvFmt (RRef (RSlice (RPrim PIsize))) (VList [n (-1); n (-2); n (-3)])];
   info "{=?}" [AvFmt (RStruct (lit "S") KNamed [fd "x" u8; fd "y" (ROpaque u8)]) (VList [n (42); n (43)])];
   info "{=?}" [AvFmt (RStruct (lit "S") KNamed [fd "x" u8; fd "y" (ROpaque u8)]) (VList [n (44); n (45)])];
   info "{=?}" [AvFmt (RStruct (lit "S") KNamed [fd "x" u8; fd "y" (option_ty (ROpaque u8))]) (VList [n (46); VVar 1 [n (47)]])];
   info "{=?}" [AvFmt (RStruct (lit "S") KNamed [fd "x" (option_ty (RRef u8)); fd "y" (ROpaque u8)]) (VList [VVar 1 [n (48)]; n (49)])];
   info "{=?}" [AvFmt (REnum [un "A"; (lit "B", KUnnamed, [tf (ROpaque u8)]); (lit "C", KNamed, [fd "y" (ROpaque u8)])]) (VVar 0 [])];
   info "{=?}" [AvFmt (REnum [un "A"; (lit "B", KUnnamed, [tf (ROpaque u8)]); (lit "C", KNamed, [fd "y" (ROpaque u8)])]) (VVar 1 [n (42)])];
   info "{=?}" [AvFmt (REnum [un "A"; (lit "B", KUnnamed, [tf (ROpaque u8)]); (lit "C", KNamed, [fd "y" (ROpaque u8)])]) (VVar 2 [n (43)])];
   info "{=?}" [AvFmt (REnum [un "A"; (lit "B", KUnnamed, [tf (ROpaque u8)]); (lit "C", KNamed, [fd "y" (ROpaque u8)])]) (VVar 0 [])];
   info "{=?}" [AvFmt (REnum [un "A"; (lit "B", KUnnamed, [tf (ROpaque u8)]); (lit "C", KNamed, [fd "y" (ROpaque u8)])]) (VVar 1 [n (44)])];
   info "{=?}" [AvFmt (REnum [un "A"; (lit "B", KUnnamed, [tf (ROpaque u8)]); (lit "C", KNamed, [fd "y" (ROpaque u8)])]) (VVar 2 [n (45)])];
   info "{=?}" [AvFmt (REnum [un "A"; (lit "B", KUnnamed, [tf (option_ty (ROpaque u8))]); (lit "C", KNamed, [fd "y" (result_ty (ROpaque u8) u8)])]) (VVar 0 [])];
   info "{=?}" [AvFmt (REnum [un "A"; (lit "B", KUnnamed, [tf (option_ty (ROpaque u8))]); (lit "C", KNamed, [fd "y" (result_ty (ROpaque u8) u8)])]) (VVar 1 [VVar 1 [n (46)]])];
   info "{=?}" [AvFmt (REnum [un "A"; (lit "B", KUnnamed, [tf (option_ty (ROpaque u8))]); (lit "C", KNamed, [fd "y" (result_ty (ROpaque u8) u8)])]) (VVar 2 [VVar 1 [n (47)]])];
   info "{=?}" [AvFmt (REnum [un "A"; (lit "B", KUnnamed, [tf (option_ty (RRef u8))]); (lit "C", KNamed, [fd "y" (ROpaque u8)])]) (VVar 0 [])];
   info "{=?}" [AvFmt (REnum [un "A"; (lit "B", KUnnamed, [tf (option_ty (RRef u8))]); (lit "C", KNamed, [fd "y" (ROpaque u8)])]) (VVar 1 [VVar 1 [n (48)]])];
   info "{=?}" [AvFmt (REnum [un "A"; (lit "B", KUnnamed, [tf (option_ty (RRef u8))]); (lit "C", KNamed, [fd "y" (ROpaque u8)])]) (VVar 2 [n (49)])];
   info "{=[?]}" [AvSlice (option_ty u8) [VVar 0 []; VVar 1 [n (42)]]];
   info "{=[?]}" [AvSlice (result_ty u8 u8) [VVar 1 [n (42)]; VVar 0 [n (43)]]];
   info "{=[?]}" [AvSlice (REnum [un "A"; (lit "B", KUnnamed, [tf u8])]) [VVar 0 []; VVar 1 [n (42)]]];
   info "{=[?]}" [AvSlice (RStruct (lit "S") KNamed [fd "x" u8; fd "y" (option_ty u8)]) [VList [n (42); VVar 0 []]; VList [n (43); VVar 1 [n (44)]]]];
   info "{=[?]}" [AvSlice (option_ty S) [VVar 0 []; VVar 1 [VList [n (42); n (256)]]]];
   info "{=[?]}" [AvSlice (option_ty (RRef (RSlice u8))) [VVar 0 []; VVar 1 [VList [n (42); n (43)]]]];
   info "in nested {=u8}" [num (123)];
   info "after nested log: {=?}" [AvFmt (RStruct (lit "NestedStruct") KNamed [fd "a" u8; fd "b" u32]) (VList [n (170); n (305419896)])];
   info "I can now print the @ symbol!" [];
   info "@nd @lso vi@ interned strings: {=istr}" [AvPrim (VText (lit "this is @n interned string"))];
   info "empty tuple: {=?}" [AvFmt (tuple_ty []) (VList [])];
   info "tuple of ints: {=?}" [AvFmt (tuple_ty [i32; i32; i32]) (VList [n (1); n (2); n (3)])];
   info "nested tuple of ints: {=?}" [AvFmt (tuple_ty [i32; i32; tuple_ty [i32; i32; i32]; tuple_ty [i32; i32; i32]]) (VList [n (1); n (2); VList [n (3); n (4); n (5)]; VList [n (6); n (7); n (8)]])];
   info "super nested tuples: {=?}" [AvFmt (tuple_ty [tuple_ty [tuple_ty [tuple_ty [tuple_ty [tuple_ty [tuple_ty [tuple_ty []]]]]]]; tuple_ty [tuple_ty [tuple_ty [tuple_ty [tuple_ty [tuple_ty [tuple_ty []; tuple_ty []]]]]]]]) (VList [VList [VList [VList [VList [VList [VList [VList []]]]]]]; VList [VList [VList [VList [VList [VList [VList []; VList []]]]]]]])];
   info "slice of tuples: {=?}" [AvFmt (RRef (RSlice (tuple_ty [i32; i32]))) (VList [VList [n (1); n (2)]; VList [n (3); n (4)]; VList [n (5); n (6)]])];
   info "tuple of slices: {=?}" [AvFmt (tuple_ty [RRef (RSlice i32); RRef (RSlice i32)]) (VList [VList [n (1); n (2); n (3)]; VList [n (4); n (5); n (6)]])];
   info "tuple of [u8;4]: {=?}" [AvFmt (tuple_ty [RArray 4 u8; RArray 4 u8]) (VList [VList [n (1); n (2); n (3); n (4)]; VList [n (5); n (6); n (7); n (8)]])];
   info "[u8;0]: {=[?;0]}" [AvSlice u8 []];
   info "[u8;4]: {=[?;4]}" [AvSlice u8 [n (1); n (2); n (3); n (4)]];
   info "[i8;4]: {=[?;4]}" [AvSlice i8 [n (-1); n (2); n (3); n (-4)]];
   info "[(u32,u32);4]: {=[?;4]}" [AvSlice (tuple_ty [u32; u32]) [VList [n (1); n (2)]; VList [n (3); n (4)]; VList [n (5); n (6)]; VList [n (7); n (8)]]];
   info "[u8;0]: {=?}" [AvFmt (RArray 0 u8) (VList [])];
   info "[u8;4]: {=?}" [AvFmt (RArray 4 u8) (VList [n (1); n (2); n (3); n (4)])];
   info "[i8;4]: {=?}" [AvFmt (RArray 4 i8) (VList [n (-1); n (2); n (3); n (-4)])];
   info "[u32;4]: {=?}" [AvFmt (RArray 4 u32) (VList [n (1); n (2); n (3); n (4)])];
   info "[i32;4]: {=?}" [AvFmt (RArray 4 i32) (VList [n (-1); n (2); n (3); n (-4)])];
   info "[[u32;4];4]: {=?}" [AvFmt (RArray 4 (RArray 4 u32)) (VList [VList [n (1); n (2); n (3); n (4)]; VList [n (2); n (3); n (4); n (5)]; VList [n (3); n (4); n (5); n (6)]; VList [n (4); n (5); n (6); n (7)]])];
   info "[Option<u32>;4]: {=?}" [AvFmt (RArray 4 (option_ty u32)) (VList [VVar 1 [n (1)]; VVar 0 []; VVar 1 [n (3)]; VVar 0 []])];
   info "[(u32,u32);4]: {=?}" [AvFmt (RArray 4 (tuple_ty [u32; u32])) (VList [VList [n (1); n (2)]; VList [n (3); n (4)]; VList [n (5); n (6)]; VList [n (7); n (8)]])];
   info "[u8; 33]: {}" [AvFmt (RArray 33 i32) (VList [n (1); n (1); n (1); n (1); n (1); n (1); n (1); n (1); n (1); n (1); n (1); n (1); n (1); n (1); n (1); n (1); n (1); n (1); n (1); n (1); n (1); n (1); n (1); n (1); n (1); n (1); n (1); n (1); n (1); n (1); n (1); n (1); n (1)])];
   info "1-variant enum: {=?}" [AvFmt (REnum [(lit "A", KNamed, [fd "fld" u8])]) (VVar 0 [n (123)])];
   info "wrapped: {=?}" [AvFmt (REnum [(lit "A", KUnnamed, [tf (REnum [(lit "A", KNamed, [fd "fld" u8])])])]) (VVar 0 [VVar 0 [n (200)]])];
   info "{=?}, {=?}, {=?}" [AvFmt (tuple_ty [RStruct (lit "A") KUnnamed [tf bool]; RStruct (lit "B") KUnnamed [tf bool]]) (VList [VList [n (1)]; VList [n (1)]]); AvFmt (tuple_ty [RStruct (lit "A") KUnnamed [tf bool]; RStruct (lit "B") KUnnamed [tf bool]]) (VList [VList [n (0)]; VList [n (1)]]); AvFmt (tuple_ty [RStruct (lit "A") KUnnamed [tf bool]; RStruct (lit "B") KUnnamed [tf bool]]) (VList [VList [n (1)]; VList [n (0)]])];
   info "true, [1, 2]: {=?}" [AvFmt (RStruct (lit "DhcpReprMin") KNamed [fd "broadcast" bool; fd "a" (RArray 2 u8)]) (VList [n (1); VList [n (1); n (2)]])];
   info "nested `Format` impls using `write!`: {=?}" [AvFmt RManual (VWrites [SWrite (lit "outer value ({=?})") [AvFmt RManual (VWrites [SWrite (lit "inner value ({=u8})") [num (42)]])]])];
   info "manual `Format` impl with multiple `write!`: {=?}" [AvFmt RManual (VWrites [SWrite (lit "MyMultiStruct@{=u32} ") [num (0)]; SWrite (lit "IS ZERO") []])];
   info "manual `Format` impl with multiple `write!`: {=?}" [AvFmt RManual (VWrites [SWrite (lit "MyMultiStruct@{=u32} ") [num (20)]; SWrite (lit "IS NOT ZERO, division result: {=u32}") [num (5)]])];
   info "{}" [AvFmt RDebug (VText (lit "S { x: -1, y: 2 }"))];
   info "{}" [AvFmt RDebug (VText (lit "Some(S { x: -1, y: 2 })"))];
   info "{}" [AvFmt RDebug (VText (lit "[S { x: -1, y: 2 }, S { x: -1, y: 2 }]"))];
   info "{}" [AvFmt RDebug (VText (lit "[Some(S { x: -1, y: 2 }), None]"))];
   info "{=?}" [AvFmt RDisplay (VText (lit "127.0.0.1:8888"))];
   info "i128: 0 = {=i128}, -1 = {=i128}, MAX = {=i128}, MIN = {=i128}" [num (0); num (-1); num (170141183460469231731687303715884105727); num (-170141183460469231731687303715884105728)];
   info "u128: 0 = {=u128}, -1 = {=u128}, MAX = {=u128}, MIN = {=u128}" [num (0); num (1); num (340282366920938463463374607431768211455); num (0)];
   info "{=?}" [AvFmt (RPrim (PU W128)) (n (340282366920938))];
   info "{=?}" [AvFmt (RPrim (PI W128)) (n (-170141183460469))];
   info "Hello {=char}" [num (128156)];
   info "Hello {=char} & {=?}" [num (128156); AvFmt (RPrim PChar) (n (127829))];
   info "EnumLarge::{=?}" [AvFmt large (VVar 51 [])];
   info "EnumLarge::{=?}" [AvFmt large (VVar 269 [])];
   info "{}" [AvFmt (RStruct (lit "S") KNamed [fd "x" (RRef (RPrim PStr))]) (VList [VText (lit "hi")])];
   info "State: {}" [AvFmt RManual (VWrites [SWrite (lit "{=u8}|") [num (13)]])];
   info "{}" [AvFmt (RStruct (lit "S") KNamed [fd "x" phantom_ty; fd "y" u8]) (VList [VList []; n (42)])];
   info "bitfields {0=120..128:x} {0=112..120:b} {0=80..88} {0=48..64:a} {=8..48:a}" [AvBits W128 201401603103598476724940240564830105344];
   info "{=[u8]:a}" [AvBytes [72; 105]];
   info "{=[?]:a}" [AvSlice u8 [n (72); n (105)]];
   info "{:a}" [AvFmt (RArray 2 u8) (VList [n (72); n (105)])];
   info "{=[?]:a}" [AvSlice u16 [n (45054); n (49406)]];
   info "{=[?]:a}" [AvSlice (RStruct (lit "Data") KNamed [fd "name" (RRef (RSlice u8)); fd "value" bool]) [VList [VList [n (72); n (105)]; n (1)]]];
   info "{} {=bool}" [AvFmt RManual (VWrites [SWrite (lit "{=bool}") [num (1)]]); num (1)];
   info "{}" [AvFmt RManual (const_pointer 2864434397)];
   info "{}" [AvFmt RManual (mut_pointer 3721182122)];
   info "{}" [AvFmt RManual (range i32 (n 1) (n 2))];
   info "{}" [AvFmt RManual (range_from i32 (n 1))];
   info "{}" [AvFmt RManual (range_to i32 (n 2))];
   info "{}" [AvFmt RManual range_full];
   info "{}" [AvFmt RManual (range_inclusive i32 (n 1) (n 2))];
   info "{}" [AvFmt RManual (range_to_inclusive i32 (n 2))];
   info "{}" [AvFmt RManual zip];
   info "{}" [AvFmt RManual chunks_exact];
   info "{}" [AvFmt RManual (slice_iter i32 [n 0; n 1; n 2])];
   info "{}" [AvFmt RManual windows];
   info "{}" [AvFmt RManual (nonzero (PI W8) 1)];
   info "{}" [AvFmt RManual (nonzero (PI W16) 1)];
   info "{}" [AvFmt RManual (nonzero (PI W32) 1)];
   info "{}" [AvFmt RManual (nonzero (PI W64) 1)];
   info "{}" [AvFmt RManual (nonzero (PI W128) 1)];
   info "{}" [AvFmt RManual (nonzero PIsize 1)];
   info "{}" [AvFmt RManual (nonzero (PU W8) 1)];
   info "{}" [AvFmt RManual (nonzero (PU W16) 1)];
   info "{}" [AvFmt RManual (nonzero (PU W32) 1)];
   info "{}" [AvFmt RManual (nonzero (PU W64) 1)];
   info "{}" [AvFmt RManual (nonzero (PU W128) 1)];
   info "{}" [AvFmt RManual (nonzero PUsize 1)];
   info "{}" [AvFmt RManual (mut_pointer 3434851037)];
   info "log data: {}" [AvFmt i32 (n (43981))];
   info "flush! 🚽" [];
   info "log more data! 🎉" [];
   info "Cell: {}" [AvFmt RManual (cell i32 (n 43981))];
   info "RefCell: {}" [AvFmt (refcell_ty i32) (VVar 1 [n (43981)])];
   info "borrowed RefCell: {}" [AvFmt (refcell_ty i32) (VVar 0 [])];
   info "BorrowMutError: {}" [AvFmt RManual borrow_mut_error];
   info "BorrowError: {}" [AvFmt RManual borrow_error];
   info "NonNull: {}" [AvFmt RManual (non_null 3434851037)];
   info "fn() -> i32: {}" [AvFmt RManual (fn_pointer 3434851037)];
   info "extern ""C"" fn() -> i32: {}" [AvFmt RManual (fn_pointer 3434851037)];
   info "unsafe fn() -> i32: {}" [AvFmt RManual (fn_pointer 3434851037)];
   info "unsafe extern ""C"" fn() -> i32: {}" [AvFmt RManual (fn_pointer 3434851037)];
   info "fn(i32) -> i32: {}" [AvFmt RManual (fn_pointer 3434851037)];
   info "extern ""C"" fn(i32) -> i32: {}" [AvFmt RManual (fn_pointer 3434851037)];
   info "unsafe fn(i32) -> i32: {}" [AvFmt RManual (fn_pointer 3434851037)];
   info "unsafe extern ""C"" fn(i32) -> i32: {}" [AvFmt RManual (fn_pointer 3434851037)];
   info "fn(i32, i32, i32, i32, i32) -> i32: {}" [AvFmt RManual (fn_pointer 3434851037)];
   info "extern ""C"" fn(i32, i32, i32, i32, i32) -> i32: {}" [AvFmt RManual (fn_pointer 3434851037)];
   info "unsafe fn(i32, i32, i32, i32, i32) -> i32: {}" [AvFmt RManual (fn_pointer 3434851037)];
   info "unsafe extern ""C"" fn(i32, i32, i32, i32, i32) -> i32: {}" [AvFmt RManual (fn_pointer 3434851037)];
   info "QEMU test finished!" []].

Definition log_out : list bytes :=
  [lit "INFO Hello!";
   lit "INFO World!";
   lit "INFO The answer is 42";
   lit "INFO Hello 42 42!";
   lit "INFO Hello 256 42 false";
   lit "INFO 🍕 slice [3, 14]";
   lit "INFO 🍕 array [3, 14, 1]";
   lit "INFO float like a butterfly 5.67 5.67";
   lit "INFO double like a butterfly 5.000000000000067 5.000000000000067";
   lit "INFO Hello 42";
   lit "INFO Hex lower ff, fffe, fffffffd, fffffffffffffffc, fffffffffffffffffffffffffffffffb";
   lit "INFO Hex lower 0xff, 0xfffe, 0xfffffffd, 0xfffffffffffffffc, 0xfffffffffffffffffffffffffffffffb";
   lit "INFO Hex upper FF, FFFE, FFFFFFFD, FFFFFFFFFFFFFFFC, FFFFFFFFFFFFFFFFFFFFFFFFFFFFFFFB";
   lit "INFO Hex upper 0xFF, 0xFFFE, 0xFFFFFFFD, 0xFFFFFFFFFFFFFFFC, 0xFFFFFFFFFFFFFFFFFFFFFFFFFFFFFFFB";
   lit "INFO Hex unsigned 0001, 0x000002, 30d40, 0x00000004, 0xFFFFFFFFFFFFFFFFFFFFFFFFFFFFFFFF";
   lit "INFO u64: 0 = 0, 1 = 1, MAX = 18446744073709551615, MIN = 0";
   lit "INFO i64: 0 = 0, -1 = -1, MAX = 9223372036854775807, MIN = -9223372036854775808";
   lit "INFO isize: 0 = 0, -1 = -1, MAX = 2147483647, MIN = -2147483648";
   lit "INFO isize: 0 = 0, -1 = -1, MAX = 2147483647, MIN = -2147483648";
   lit "INFO usize: 0 = 0, MAX = 4294967295";
   lit "INFO bitfields 6 2";
   lit "TRACE log trace";
   lit "DEBUG log debug";
   lit "INFO log info";
   lit "WARN log warn";
   lit "ERROR log error";
   lit "INFO S { x: 1, y: 256 }";
   lit "INFO X { y: Y { z: 42 } }";
   lit "INFO &str = string slice";
   lit "INFO &str = string slice";
   lit "INFO &Str = interned string";
   lit "INFO &Str = interned string";
   lit "INFO Arr { arr1: [31], arr0: [], arr32: [85, 85, 85, 85, 85, 85, 85, 85, 85, 85, 85, 85, 85, 85, 85, 85, 85, 85, 85, 85, 85, 85, 85, 85, 85, 85, 85, 85, 85, 85, 85, 85] }";
   lit "INFO [256, 257, 258]";
   lit "INFO [S { x: 128, y: 256 }, S { x: 129, y: 257 }]";
   lit "INFO [X { y: Y { z: 128 } }, X { y: Y { z: 129 } }]";
   lit "INFO [[256, 257, 258], [259, 260]]";
   lit "INFO e1=A";
   lit "INFO e2=B";
   lit "INFO e3=Some(42)";
   lit "INFO e4=None";
   lit "INFO e5=Ok(42)";
   lit "INFO e6=Err(256)";
   lit "INFO e7=Some(X { y: Y { z: 42 } })";
   lit "INFO true Flags { a: true, b: false, c: true }";
   lit "INFO [true, true, false]";
   lit "INFO usize slice: [1, 2, 3]";
   lit "INFO isize slice: [-1, -2, -3]";
   lit "INFO S { x: 42, y: 43 }";
   lit "INFO S { x: 44, y: 45 }";
   lit "INFO S { x: 46, y: Some(47) }";
   lit "INFO S { x: Some(48), y: 49 }";
   lit "INFO A";
   lit "INFO B(42)";
   lit "INFO C { y: 43 }";
   lit "INFO A";
   lit "INFO B(44)";
   lit "INFO C { y: 45 }";
   lit "INFO A";
   lit "INFO B(Some(46))";
   lit "INFO C { y: Ok(47) }";
   lit "INFO A";
   lit "INFO B(Some(48))";
   lit "INFO C { y: 49 }";
   lit "INFO [None, Some(42)]";
   lit "INFO [Ok(42), Err(43)]";
   lit "INFO [A, B(42)]";
   lit "INFO [S { x: 42, y: None }, S { x: 43, y: Some(44) }]";
   lit "INFO [None, Some(S { x: 42, y: 256 })]";
   lit "INFO [None, Some([42, 43])]";
   lit "INFO in nested 123";
   lit "INFO after nested log: NestedStruct { a: 170, b: 305419896 }";
   lit "INFO I can now print the @ symbol!";
   lit "INFO @nd @lso vi@ interned strings: this is @n interned string";
   lit "INFO empty tuple: ()";
   lit "INFO tuple of ints: (1, 2, 3)";
   lit "INFO nested tuple of ints: (1, 2, (3, 4, 5), (6, 7, 8))";
   lit "INFO super nested tuples: (((((((())))))), (((((((), ())))))))";
   lit "INFO slice of tuples: [(1, 2), (3, 4), (5, 6)]";
   lit "INFO tuple of slices: ([1, 2, 3], [4, 5, 6])";
   lit "INFO tuple of [u8;4]: ([1, 2, 3, 4], [5, 6, 7, 8])";
   lit "INFO [u8;0]: []";
   lit "INFO [u8;4]: [1, 2, 3, 4]";
   lit "INFO [i8;4]: [-1, 2, 3, -4]";
   lit "INFO [(u32,u32);4]: [(1, 2), (3, 4), (5, 6), (7, 8)]";
   lit "INFO [u8;0]: []";
   lit "INFO [u8;4]: [1, 2, 3, 4]";
   lit "INFO [i8;4]: [-1, 2, 3, -4]";
   lit "INFO [u32;4]: [1, 2, 3, 4]";
   lit "INFO [i32;4]: [-1, 2, 3, -4]";
   lit "INFO [[u32;4];4]: [[1, 2, 3, 4], [2, 3, 4, 5], [3, 4, 5, 6], [4, 5, 6, 7]]";
   lit "INFO [Option<u32>;4]: [Some(1), None, Some(3), None]";
   lit "INFO [(u32,u32);4]: [(1, 2), (3, 4), (5, 6), (7, 8)]";
   lit "INFO [u8; 33]: [1, 1, 1, 1, 1, 1, 1, 1, 1, 1, 1, 1, 1, 1, 1, 1, 1, 1, 1, 1, 1, 1, 1, 1, 1, 1, 1, 1, 1, 1, 1, 1, 1]";
   lit "INFO 1-variant enum: A { fld: 123 }";
   lit "INFO wrapped: A(A { fld: 200 })";
   lit "INFO (A(true), B(true)), (A(false), B(true)), (A(true), B(false))";
   lit "INFO true, [1, 2]: DhcpReprMin { broadcast: true, a: [1, 2] }";
   lit "INFO nested `Format` impls using `write!`: outer value (inner value (42))";
   lit "INFO manual `Format` impl with multiple `write!`: MyMultiStruct@0 IS ZERO";
   lit "INFO manual `Format` impl with multiple `write!`: MyMultiStruct@20 IS NOT ZERO, division result: 5";
   lit "INFO S { x: -1, y: 2 }";
   lit "INFO Some(S { x: -1, y: 2 })";
   lit "INFO [S { x: -1, y: 2 }, S { x: -1, y: 2 }]";
   lit "INFO [Some(S { x: -1, y: 2 }), None]";
   lit "INFO 127.0.0.1:8888";
   lit "INFO i128: 0 = 0, -1 = -1, MAX = 170141183460469231731687303715884105727, MIN = -170141183460469231731687303715884105728";
   lit "INFO u128: 0 = 0, -1 = 1, MAX = 340282366920938463463374607431768211455, MIN = 0";
   lit "INFO 340282366920938";
   lit "INFO -170141183460469";
   lit "INFO Hello 💜";
   lit "INFO Hello 💜 & 🍕";
   lit "INFO EnumLarge::A051";
   lit "INFO EnumLarge::A269";
   lit "INFO S { x: ""hi"" }";
   lit "INFO State: 13|";
   lit "INFO S { x: PhantomData, y: 42 }";
   lit "INFO bitfields 97 10000100 12 b""42"" b""hello""";
   lit "INFO b""Hi""";
   lit "INFO b""Hi""";
   lit "INFO b""Hi""";
   lit "INFO [45054, 49406]";
   lit "INFO [Data { name: b""Hi"", value: true }]";
   lit "INFO true true";
   lit "INFO 0xaabbccdd";
   lit "INFO 0xddccbbaa";
   lit "INFO 1..2";
   lit "INFO 1..";
   lit "INFO ..2";
   lit "INFO ..";
   lit "INFO 1..=2";
   lit "INFO ..=2";
   lit "INFO Zip(..)";
   lit "INFO ChunksExact(..)";
   lit "INFO Iter { slice: [0, 1, 2], position: ? }";
   lit "INFO Windows(..)";
   lit "INFO 1";
   lit "INFO 1";
   lit "INFO 1";
   lit "INFO 1";
   lit "INFO 1";
   lit "INFO 1";
   lit "INFO 1";
   lit "INFO 1";
   lit "INFO 1";
   lit "INFO 1";
   lit "INFO 1";
   lit "INFO 1";
   lit "INFO 0xccbbaadd";
   lit "INFO log data: 43981";
   lit "INFO flush! 🚽";
   lit "INFO log more data! 🎉";
   lit "INFO Cell: Cell { value: 43981 })";
   lit "INFO RefCell: RefCell { value: 43981 }";
   lit "INFO borrowed RefCell: RefCell { value: <borrowed> }";
   lit "INFO BorrowMutError: BorrowMutError";
   lit "INFO BorrowError: BorrowError";
   lit "INFO NonNull: 0xccbbaadd";
   lit "INFO fn() -> i32: 0xccbbaadd";
   lit "INFO extern ""C"" fn() -> i32: 0xccbbaadd";
   lit "INFO unsafe fn() -> i32: 0xccbbaadd";
   lit "INFO unsafe extern ""C"" fn() -> i32: 0xccbbaadd";
   lit "INFO fn(i32) -> i32: 0xccbbaadd";
   lit "INFO extern ""C"" fn(i32) -> i32: 0xccbbaadd";
   lit "INFO unsafe fn(i32) -> i32: 0xccbbaadd";
   lit "INFO unsafe extern ""C"" fn(i32) -> i32: 0xccbbaadd";
   lit "INFO fn(i32, i32, i32, i32, i32) -> i32: 0xccbbaadd";
   lit "INFO extern ""C"" fn(i32, i32, i32, i32, i32) -> i32: 0xccbbaadd";
   lit "INFO unsafe fn(i32, i32, i32, i32, i32) -> i32: 0xccbbaadd";
   lit "INFO unsafe extern ""C"" fn(i32, i32, i32, i32, i32) -> i32: 0xccbbaadd";
   lit "INFO QEMU test finished!"].

Example log_snapshot : run externals_log log_rs = map Some log_out.
Proof. vm_compute. reflexivity. Qed.
