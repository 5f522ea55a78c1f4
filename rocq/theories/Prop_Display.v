(** Properties C16, C23-C27, C37-C39: what the host shows. *)
From Verif Require Import Base Utf8 RzcobsModel ParserModel ParserProofs DecoderModel Numerals
  EncodeModel EncodeSpec EncodeTop DecoderExamples EncodeExamples
  DisplayModel DisplayProofs CalendarProofs DisplayTotal DisplayExact DisplayLayout DisplayHints DisplayExamples.

(** C16.  For a bitfield parameter [a..b] of a log statement, the host reads the
    statement's bytes back and shows bits [a..b] of the logged value, whatever other ranges
    of the same argument the format string has. *)
Theorem C16_bits_shown : forall X addr tbl index ts_args args fr frags p a b w x rest,
  frame_means addr tbl index ts_args args fr ->
  parse (f_format fr) Strict = Ok frags -> In (FParam p) frags -> p_ty p = TBitField a b ->
  nth_error args (Z.to_nat (p_index p)) = Some (AvBits w x) ->
  let bytes := encode_frame addr index (option_map e_string (t_timestamp tbl)) ts_args (f_format fr) args in
  exists shown, decode tbl (bytes ++ rest) = Ok (fr, length bytes) /\
    nth_error (f_args fr) (Z.to_nat (p_index p)) = Some shown /\
    show_arg X tbl shown p None =
    Some (if is_ascii_hint (p_hint p)
          then byte_string (rev (le_bytes (Z.to_nat ((b - a + 7) / 8)) (bit_slice a b x)))
          else format_u128 tbl (bit_slice a b x) (p_hint p)).
Proof. exact bits_logged. Qed.
Print Assumptions C16_bits_shown.

(** What is transmitted: the bytes that contain the ranges. *)
Theorem C16_window_slice : forall lo hi a b x, 0 <= lo -> lo < hi -> hi <= 128 -> lo <= a -> a <= b -> b <= hi ->
  bit_slice a b (byte_window lo hi x) = bit_slice a b x.
Proof. exact window_slice. Qed.
Print Assumptions C16_window_slice.

(** [book/src/bitfields.md:20-24] says that [{0=0..3}] of 254 is [5], and that it is shown as [110].  It is shown as [6]. *)
Theorem C16_book_refuted : exists frags p, parse (lit "first three bits: {0=0..3}") Strict = Ok frags /\ In (FParam p) frags /\
  forall X tbl, show_arg X tbl (AUxx 254) p None = Some (lit "6") /\ show_arg X tbl (AUxx 254) p None <> Some (lit "5") /\ show_arg X tbl (AUxx 254) p None <> Some (lit "110").
Proof.
  eexists. eexists. split; [vm_compute; reflexivity|]. split; [right; left; reflexivity|]. intros X tbl.
  assert (E : show_arg X tbl (AUxx 254) (MkParameter 0 (TBitField 0 3) None) None = Some (lit "6")) by reflexivity.
  split; [exact E|]. split; intros H; discriminate H.
Qed.
Print Assumptions C16_book_refuted.

Example C16_ex : shown ex_prog ex_frame <> None /\
  bit_slice 4 9 47806 = 11 /\ bit_slice 0 4 47806 = 14.
Proof. rewrite ex_frame_shown. repeat split; discriminate. Qed.

(** C23.  Unsigned integers: the text is an optional prefix and digits of the
    requested base, at least as long as requested, with the value [x]. *)
Theorem C23_unsigned : forall tbl x h base up prefix w, 0 <= x ->
  numeric_hint h = Some (base, up, prefix, w) ->
  let s := format_u128 tbl x (Some h) in
  numeral base up [] prefix x s /\ w <= Z.of_nat (length s).
Proof. exact unsigned_shown. Qed.
Print Assumptions C23_unsigned.

Theorem C23_unsigned_plain : forall tbl x, 0 <= x -> numeral 10 false [] [] x (format_u128 tbl x None).
Proof. exact unsigned_plain. Qed.
Print Assumptions C23_unsigned_plain.

Theorem C23_signed_decimal : forall x t w,
  (exists s, format_i128 x t (Some (HNoHint w)) = Some s /\
     numeral 10 false (sign_of x) [] (Z.abs x) s /\ w <= Z.of_nat (length s)) /\
  (exists s, format_i128 x t None = Some s /\ numeral 10 false (sign_of x) [] (Z.abs x) s).
Proof. exact signed_decimal. Qed.
Print Assumptions C23_signed_decimal.

(** Hexadecimal: two's complement at the width of the type. *)
Theorem C23_signed_hex : forall x n alt up w,
  - 2 ^ (8 * Z.of_nat (width_bytes n) - 1) <= x < 2 ^ (8 * Z.of_nat (width_bytes n) - 1) ->
  exists s m, format_i128 x (TI n) (Some (HHex alt up w)) = Some s /\
    numeral 16 up [] (if alt then lit "0x" else []) m s /\ w <= Z.of_nat (length s) /\
    0 <= m < 2 ^ (8 * Z.of_nat (width_bytes n)) /\ to_signed (width_bytes n) m = x.
Proof. exact signed_hex. Qed.
Print Assumptions C23_signed_hex.

(** Binary and octal: two's complement at 128 bits. *)
Theorem C23_signed_binary_octal : forall x t alt w, - 2 ^ 127 <= x < 2 ^ 127 ->
  (exists s m, format_i128 x t (Some (HBinary alt w)) = Some s /\
    numeral 2 false [] (if alt then lit "0b" else []) m s /\ w <= Z.of_nat (length s) /\
    0 <= m < 2 ^ 128 /\ to_signed 16 m = x) /\
  (exists s m, format_i128 x t (Some (HOctal alt w)) = Some s /\
    numeral 8 false [] (if alt then lit "0o" else []) m s /\ w <= Z.of_nat (length s) /\
    0 <= m < 2 ^ 128 /\ to_signed 16 m = x).
Proof. exact signed_binary. Qed.
Print Assumptions C23_signed_binary_octal.

(** [isize] in hexadecimal panics ([I128Hex], [frame.rs:13-39], has no case for it):
    [info!("{=isize:x}", 10)] is decoded but cannot be shown. *)
Theorem C23_isize_hex_refuted : exists fr n,
  decode (one "{=isize:x}") (encode_frame (fun _ => 0) 1 None [] (lit "{=isize:x}") [AvPrim (VNum 10)]) = Ok (fr, n) /\
  forall X, display_message X (one "{=isize:x}") fr = None.
Proof. exact isize_hex_frame. Qed.
Print Assumptions C23_isize_hex_refuted.

Example C23_ex1 : format_u128 ex_prog 48879 (Some (HHex true false 8)) = lit "0x00beef".
Proof. vm_compute. reflexivity. Qed.
Example C23_ex2 : format_i128 (-2) (TI W16) (Some (HHex false true 0)) = Some (lit "FFFE").
Proof. vm_compute. reflexivity. Qed.
Example C23_ex3 : format_i128 (-70) (TI W16) (Some (HNoHint 5)) = Some (lit "-0070").
Proof. vm_compute. reflexivity. Qed.

(** C24.  [:us] and [:ms]; [:tus], [:tms] and [:ts]. *)
Theorem C24_seconds : forall tbl x, 0 <= x ->
  (exists s ds, format_u128 tbl x (Some (HSeconds Micros)) = dec_str s ++ lit "." ++ ds /\
     exists m, fixed_digits 6 m ds /\ 0 <= s /\ 0 <= m < 1000000 /\ x = s * 1000000 + m) /\
  (exists s ds, format_u128 tbl x (Some (HSeconds Millis)) = dec_str s ++ lit "." ++ ds /\
     exists m, fixed_digits 3 m ds /\ 0 <= s /\ 0 <= m < 1000 /\ x = s * 1000 + m).
Proof. exact seconds_shown. Qed.
Print Assumptions C24_seconds.

Theorem C24_time : forall x p, 0 <= x ->
  exists days hours minutes seconds fraction th tm ts tf,
    format_time x p = (if days =? 0 then [] else dec_str days ++ lit ":") ++
      th ++ lit ":" ++ tm ++ lit ":" ++ ts ++ tf /\
    fixed_digits 2 hours th /\ fixed_digits 2 minutes tm /\ fixed_digits 2 seconds ts /\ fraction_text p fraction tf /\
    0 <= days /\ 0 <= hours < 24 /\ 0 <= minutes < 60 /\ 0 <= seconds < 60 /\ 0 <= fraction < per_second p /\
    x = (((days * 24 + hours) * 60 + minutes) * 60 + seconds) * per_second p + fraction.
Proof. exact time_shown. Qed.
Print Assumptions C24_time.

Example C24_ex1 : format_time 93784005006 Micros = lit "1:02:03:04.005006".
Proof. vm_compute. reflexivity. Qed.
Example C24_ex2 : format_u128 ex_prog 1234 (Some (HSeconds Millis)) = lit "1.234".
Proof. vm_compute. reflexivity. Qed.

(** C25.  The shown fields are digits of a valid date and time of day that lies the
    logged time after 1970-01-01 (counted day by day through the calendar). *)
Theorem C25_iso8601 : forall x p, 0 <= x -> x / per_second p < end_of_999999 ->
  exists y m d hh mm ss fraction ty tm td thh tmm tss tf,
    format_iso8601 x p = Some (ty ++ lit "-" ++ tm ++ lit "-" ++ td ++ lit "T" ++
      thh ++ lit ":" ++ tmm ++ lit ":" ++ tss ++ tf ++ lit "Z") /\
    year_text y ty /\ fixed_digits 2 m tm /\ fixed_digits 2 d td /\
    fixed_digits 2 hh thh /\ fixed_digits 2 mm tmm /\ fixed_digits 2 ss tss /\ fraction_text p fraction tf /\
    denotes x p y m d hh mm ss fraction.
Proof. exact iso8601_shown. Qed.
Print Assumptions C25_iso8601.

(** A date number belongs to one date only. *)
Theorem C25_dates_distinct : forall y m d y' m' d', valid_date y m d -> valid_date y' m' d' ->
  date_number y m d = date_number y' m' d' -> y = y' /\ m = m' /\ d = d'.
Proof. exact date_number_injective. Qed.
Print Assumptions C25_dates_distinct.

(** Instants after the year 999999 panic, and only those. *)
Theorem C25_panics_iff : forall x p, format_iso8601 x p = None <-> end_of_999999 <= x / per_second p.
Proof. exact iso8601_panics_iff. Qed.
Print Assumptions C25_panics_iff.

Theorem C25_late_instant_refuted : exists fr n,
  decode (one "{=u64:iso8601s}")
    (encode_frame (fun _ => 0) 1 None [] (lit "{=u64:iso8601s}") [AvPrim (VNum 31494784780800)]) = Ok (fr, n) /\
  forall X, display_message X (one "{=u64:iso8601s}") fr = None.
Proof. exact iso8601_frame. Qed.
Print Assumptions C25_late_instant_refuted.

Example C25_ex2 : format_iso8601 1618910624804 Seconds = Some (lit "+53271-03-27T11:46:44Z").
Proof. vm_compute. reflexivity. Qed.
Example C25_ex : format_iso8601 1709210096789 Millis = Some (lit "2024-02-29T12:34:56.789Z").
Proof. vm_compute. reflexivity. Qed.

(** C26.  The flags shown are those contained in the value, in the order of the
    table; [keep] is any decision procedure for "contained". *)
Theorem C26_flags : forall flags x keep,
  (forall f, In f flags -> (keep f = true <-> contained x (snd f))) ->
  format_flags flags x =
    match map fst (filter keep flags) with
    | [] => lit "(empty)"
    | names => join_text (lit " | ") names
    end.
Proof. exact flags_shown. Qed.
Print Assumptions C26_flags.

Example C26_ex : format_flags [(lit "NONE", 0); (lit "A", 1); (lit "B", 2); (lit "AB", 3); (lit "C", 4)] 3 =
  lit "A | B | AB".
Proof. vm_compute. reflexivity. Qed.

(** C27.  Reading the shown literal gives back the bytes; it contains printable ASCII
    characters only. *)
Theorem C27_byte_string : forall s rest, bytes_ok s ->
  read_byte_string (byte_string s ++ rest) = Some (s, rest).
Proof. exact byte_string_shown. Qed.
Print Assumptions C27_byte_string.

Theorem C27_printable : forall s, bytes_ok s -> Forall (fun c => 32 <= c <= 126) (byte_string s).
Proof. exact byte_string_printable. Qed.
Print Assumptions C27_printable.

Example C27_ex : byte_string [104; 105; 34; 0; 255] = lit "b""hi\""\x00\xff""".
Proof. vm_compute. reflexivity. Qed.

(** C37.  [piece args parent f s]: fragment [f] is shown as [s]. *)
Theorem C37_message : forall X tbl f args parent s,
  format_args X tbl f args parent = Some s <->
  exists frags pieces, parse f ForwardsCompatible = Ok frags /\
    Forall2 (piece X tbl args parent) frags pieces /\ s = concat pieces.
Proof. exact args_layout. Qed.
Print Assumptions C37_message.

Theorem C37_frame : forall X tbl fr s,
  display_frame X tbl false fr = Some s <->
  exists ts msg,
    match f_timestamp_format fr with
    | Some f => exists t, format_args X tbl f (f_timestamp_args fr) None = Some t /\ ts = t ++ lit " "
    | None => ts = []
    end /\
    display_message X tbl fr = Some msg /\
    s = ts ++ match f_level fr with Some l => level_name l ++ lit " " | None => [] end ++ msg.
Proof. exact frame_layout. Qed.
Print Assumptions C37_frame.

Example C37_ex : exists s, shown ex_prog ex_frame = Some (lit "5000.000000 WARN S { a: 200, " ++ s).
Proof. rewrite ex_frame_shown. eexists. reflexivity. Qed.

(** C38.  Showing fails exactly at these places: an unsigned integer as an ISO 8601 instant after
    999999, an [isize] in hexadecimal, a slice under ASCII with both bytes and other elements. *)
Theorem C38_message : forall X tbl b fr n, bytes_ok b -> decode tbl b = Ok (fr, n) ->
  display_message X tbl fr = None <-> exists a p h, message_place fr a p h /\ unshowable a p h.
Proof. exact message_exact. Qed.
Print Assumptions C38_message.

Theorem C38_timestamp : forall X tbl b fr n, bytes_ok b -> decode tbl b = Ok (fr, n) ->
  display_timestamp X tbl fr = Some None <-> exists a p h, timestamp_place fr a p h /\ unshowable a p h.
Proof. exact timestamp_exact. Qed.
Print Assumptions C38_timestamp.

Theorem C38_frame : forall X tbl b fr n colored, bytes_ok b -> decode tbl b = Ok (fr, n) ->
  display_frame X tbl colored fr = None <->
  exists a p h, (message_place fr a p h \/ timestamp_place fr a p h) /\ unshowable a p h.
Proof. exact frame_exact. Qed.
Print Assumptions C38_frame.

(** Tables without ISO 8601 hints, without slices of alternatives ["{=u8}"], and
    not using both hexadecimal hints and [isize]: every decoded frame can be shown. *)
Theorem C38_display_total : forall X tbl b fr n colored,
  displayable tbl -> bytes_ok b -> decode tbl b = Ok (fr, n) ->
  display_message X tbl fr <> None /\ display_timestamp X tbl fr <> Some None /\
  display_frame X tbl colored fr <> None.
Proof. exact display_total. Qed.
Print Assumptions C38_display_total.

Theorem C38_alternatives_refuted : exists fr n,
  decode alternatives [1; 0; 2; 0; 0; 0; 2; 0; 0; 65; 1; 1] = Ok (fr, n) /\
  forall X, display_message X alternatives fr = None.
Proof. exact alternatives_frame. Qed.
Print Assumptions C38_alternatives_refuted.

Example C38_ex : displayable ex_prog /\ exists fr n b, decode ex_prog b = Ok (fr, n) /\ f_args fr <> [].
Proof.
  split; [apply displayableb_ok; vm_compute; reflexivity|].
  exists ex_frame. do 2 eexists. split; [apply decode_ex_frame|discriminate].
Qed.

(** C39.  Whatever is nested inside an argument, at any depth, is shown with the
    innermost hint on the way to it. *)
Theorem C39_hints_inherited : forall X tbl a p path leaf lp, inside a p path leaf lp ->
  Forall (fun h => h <> Some HAscii) path -> forall outer s, outer <> Some HAscii ->
  show_arg X tbl a p outer = Some s ->
  exists s', show_arg X tbl leaf lp (innermost outer path) = Some s' /\ part s' s.
Proof. exact hints_inherited. Qed.
Print Assumptions C39_hints_inherited.

Theorem C39_leaf : forall X tbl a i t own outer, is_leaf a = true ->
  (forall h, show_arg X tbl a (MkParameter i t None) (Some h) = show_arg X tbl a (MkParameter i t (Some h)) (Some h)) /\
  (own <> HDebug -> show_arg X tbl a (MkParameter i t (Some own)) outer = show_arg X tbl a (MkParameter i t (Some own)) None).
Proof. exact leaf_hint. Qed.
Print Assumptions C39_leaf.

Theorem C39_composite : forall X tbl a i t own outer, is_leaf a = false -> outer <> Some HAscii ->
  show_arg X tbl a (MkParameter i t (Some own)) outer = show_arg X tbl a (MkParameter i t (Some own)) None.
Proof. exact own_hint. Qed.
Print Assumptions C39_composite.

(** The derive macro gives named fields the hint [:?], which stops [:x] for signed and
    nested fields but not for unsigned ones. *)
Theorem C39_derived_fields_refuted :
  hint_shown (field_struct "T" "x" (RPrim (PU W8))) (VList [VNum 10]) = Ok (Some (lit "T { x: a }")) /\
  hint_shown (field_struct "S" "x" (RPrim (PI W8))) (VList [VNum 10]) = Ok (Some (lit "S { x: 10 }")) /\
  hint_shown (field_struct "N" "t" (field_struct "T" "x" (RPrim (PU W8)))) (VList [VList [VNum 10]]) =
    Ok (Some (lit "N { t: T { x: 10 } }")).
Proof. exact hints_lost. Qed.
Print Assumptions C39_derived_fields_refuted.

(** An outer [:a] wins over an inner [:x]. *)
Theorem C39_ascii_refuted : exists fr n, decode ascii_outer [1; 0; 2; 0; 3; 0; 200] = Ok (fr, n) /\
  display_message X0 ascii_outer fr = Some (lit "200").
Proof. exact ascii_wins. Qed.
Print Assumptions C39_ascii_refuted.

(** On every path: [under] says which hint reaches a nested value, also with [:a], and it is shown with that. *)
Theorem C39_everywhere : forall X tbl outer a p h leaf lp, under outer a p h leaf lp -> forall s, show_arg X tbl a p outer = Some s ->
  exists s', show_arg X tbl leaf lp h = Some s' /\ part s' s.
Proof. exact hints_everywhere. Qed.
Print Assumptions C39_everywhere.

(** But for lists with a [u8] under [:a], which are shown as texts. *)
Theorem C39_list_as_text : forall X tbl es p outer s, prefers (p_hint p) outer (Some HAscii) -> (exists e, In e es /\ fst e = lit "{=u8}") ->
  (show_arg X tbl (AFormatSlice es) p outer = Some s <->
   exists bs, Forall2 (fun (e : bytes * list arg) b => snd e = [AUxx b] /\ 0 <= b < 256) es bs /\ s = format_bytes X tbl bs (Some HAscii)).
Proof. exact list_as_text. Qed.
Print Assumptions C39_list_as_text.

Example C39_everywhere_ex : under None (AFormat (lit "{=?:x}") [AFormat (lit "{=u8}") [AUxx 200]]) (MkParameter 0 TFormat (Some HAscii))
  (Some HAscii) (AUxx 200) (MkParameter 0 (TU W8) None).
Proof.
  eapply U_value with (f := lit "{=?:x}"); [discriminate|apply P_own|vm_compute; reflexivity|left; reflexivity|reflexivity|].
  eapply U_ascii with (f := lit "{=u8}"); [vm_compute; reflexivity|left; reflexivity|reflexivity|]. apply U_here.
Qed.
Example C39_list_as_text_ex : show_arg X0 ascii_outer (AFormatSlice [(lit "{=u8}", [AUxx 104]); (lit "{=u8}", [AUxx 105])]) (MkParameter 0 TFormatSlice (Some HAscii)) None =
  Some (format_bytes X0 ascii_outer (lit "hi") (Some HAscii)).
Proof. vm_compute. reflexivity. Qed.

Example C39_ex : inside (AFormat (lit "a {=?} b") [AFormat (lit "{=u8}") [AUxx 10]]) (MkParameter 0 TFormat (Some (HHex true false 0)))
  [Some (HHex true false 0); None] (AUxx 10) (MkParameter 0 (TU W8) None).
Proof.
  eapply (inside_format (lit "a {=?} b")); [vm_compute; reflexivity|right; left; reflexivity|reflexivity|].
  eapply (inside_format (lit "{=u8}") _ _ (MkParameter 0 TFormat None)); [vm_compute; reflexivity|left; reflexivity|reflexivity|].
  apply inside_here.
Qed.
