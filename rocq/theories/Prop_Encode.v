(** Properties C13-C17, C40, C42, C44, C46, C47: what the device writes is what the
    host decodes. *)
From Verif Require Import Base Utf8 RzcobsModel ParserModel DecoderModel DecoderPanic StreamModel
  Numerals EncodeModel EncodeSpec EncodeTop EncodeExamples.

(** C13.  [frame_means] says what a log statement has to be shown as: level and format
    string of its index, the timestamp's arguments, and its own arguments, each
    according to [means_arg] (values of any [Format] type, nested to any depth). *)
Theorem C13_log_statement : forall addr tbl index ts_args args fr rest,
  frame_means addr tbl index ts_args args fr ->
  let b := encode_frame addr index (option_map e_string (t_timestamp tbl)) ts_args (f_format fr) args in
  decode tbl (b ++ rest) = Ok (fr, length b).
Proof. exact decode_frame. Qed.
Print Assumptions C13_log_statement.

Example C13_ex : frame_means ex_addr ex_prog 3 [AvPrim (VNum 5000000000)] ex_args ex_frame.
Proof. exact ex_frame_means. Qed.

Example C13_ex_bytes :
  let b := encode_frame ex_addr 3 (Some (lit "{=u64:us}")) [AvPrim (VNum 5000000000)] ex_format ex_args in
  decode ex_prog (b ++ [9; 9]) = Ok (ex_frame, length b).
Proof. exact decode_ex_frame. Qed.

(** C14.  Values: tag and data written for [v : t] decode to the tree [means] gives. *)
Theorem C14_values : forall addr tbl t v f a, linked addr tbl (format_tag t) -> means addr tbl t v f a ->
  exists k, forall fuel, (k <= fuel)%nat -> forall rest,
    decode_ty tbl (decode_format tbl fuel) (S fuel) TFormat
      (put_istr addr (format_tag t) ++ format_data addr t v ++ rest) = Ok (AFormat f a, rest).
Proof. exact value_round_trip. Qed.
Print Assumptions C14_values.

(** Values that are to be shown differently have different, prefix-free encodings. *)
Theorem C14_injective : forall addr tbl t v1 v2 f1 f2 a1 a2 r1 r2,
  means addr tbl t v1 f1 a1 -> means addr tbl t v2 f2 a2 ->
  format_data addr t v1 ++ r1 = format_data addr t v2 ++ r2 -> f1 = f2 /\ a1 = a2 /\ r1 = r2.
Proof. exact encoding_injective. Qed.
Print Assumptions C14_injective.

Example C14_ex : linked ex_addr ex_prog (format_tag (option_ty (RSlice (RPrim PChar)))) /\
  means ex_addr ex_prog (option_ty (RSlice (RPrim PChar))) (VVar 1 [VList [VNum 65; VNum 66]])
    (lit "Some({=?})") [AFormat (lit "{=[?]}") [AFormatSlice [(lit "{=char}", [AChar 65]); (lit "{=char}", [AChar 66])]]].
Proof. exact ex_option. Qed.

(** C15.  Device and host use the same discriminant width, except for three numbers
    of variants. *)
Theorem C15_widths_agree : forall n, 2 <= n < 2 ^ 64 ->
  (discriminant_width (n - 1) = Some (discriminant_bytes n) <-> n <> 256 /\ n <> 65536 /\ n <> 2 ^ 32).
Proof. exact widths_agree_iff. Qed.
Print Assumptions C15_widths_agree.

Theorem C15_variant_shown : forall addr tbl variants j name k fs vs args,
  nth_error variants j = Some (name, k, fs) ->
  Forall variant_ok variants ->
  (let n := Z.of_nat (length variants) in n <> 256 /\ n <> 65536 /\ n <> 2 ^ 32 /\ n < 2 ^ 64) ->
  Z.of_nat (length fs) < usize_max ->
  means_fields addr tbl fs vs args ->
  linked addr tbl (format_tag (REnum variants)) ->
  exists k', forall fuel, (k' <= fuel)%nat -> forall rest,
    decode_ty tbl (decode_format tbl fuel) (S fuel) TFormat
      (put_istr addr (format_tag (REnum variants)) ++ format_data addr (REnum variants) (VVar j vs) ++ rest)
    = Ok (AFormat (name ++ fields_str k fs) args, rest).
Proof. exact enum_round_trip. Qed.
Print Assumptions C15_variant_shown.

(** Logging a variant of an enum with 256 variants shifts everything after it. *)
Theorem C15_enum_256_refuted : exists variants, length variants = 256%nat /\
  let tbl := MkTable None
    [(1, MkEntry GInfo (lit "{=?} {=u8}") []); (2, MkEntry GDerived (enum_str variants) [])] [] EncRzcobs in
  let addr := find_addr (t_entries tbl) in
  exists fr n,
    decode tbl (encode_frame addr 1 None [] (lit "{=?} {=u8}")
      [AvFmt (REnum variants) (VVar 3 []); AvPrim (VNum 7)]) = Ok (fr, n) /\
    f_args fr = [AFormat (lit "V3") []; AUxx 0].
Proof. exact (ex_intro _ big_variants enum_256). Qed.
Print Assumptions C15_enum_256_refuted.

Example C15_ex : exists variants : list variant, Z.of_nat (length variants) = 300 /\
  Forall variant_ok variants /\ discriminant_bytes 300 = 2%nat /\ discriminant_width 299 = Some 2%nat.
Proof. exact enum_300. Qed.

(** C17.  Every accepted format string determines one list of argument types; the
    host reads one value per index 0, 1, .., n-1, in that order, and the device
    writes one value per index, in that order. *)
Theorem C17_types_exist : forall s m frags, parse s m = Ok frags -> exists tys, arg_types s m tys.
Proof. exact some_arg_types. Qed.
Print Assumptions C17_types_exist.

Theorem C17_types_unique : forall s m tys1 tys2, arg_types s m tys1 -> arg_types s m tys2 -> tys1 = tys2.
Proof. exact arg_types_unique. Qed.
Print Assumptions C17_types_unique.

Theorem C17_host_order : forall s m tys, arg_types s m tys -> exists frags, parse s m = Ok frags /\
  map p_index (prepare_params (params_of frags)) = map Z.of_nat (seq 0 (length tys)) /\
  map p_ty (prepare_params (params_of frags)) = tys.
Proof. exact prepared_indices. Qed.
Print Assumptions C17_host_order.

Theorem C17_device_order : forall addr s tys avs, arg_types s Strict tys -> length avs = length tys ->
  macro_args addr s avs = concat (map2 (fun x av => encode_arg addr [MkParameter 0 x None] 0 av) tys avs).
Proof. exact sent_in_order. Qed.
Print Assumptions C17_device_order.

(** Two strings with the same argument types put the same bytes on the wire. *)
Theorem C17_sent_once : forall addr s1 s2 tys avs,
  arg_types s1 Strict tys -> arg_types s2 Strict tys -> length avs = length tys ->
  macro_args addr s1 avs = macro_args addr s2 avs.
Proof. exact sent_once. Qed.
Print Assumptions C17_sent_once.

Example C17_ex : arg_types (lit "{1=0..4} {0=u8} {1=10..12} {0=u8:x} {0=u8}") Strict [TU W8; TBitField 0 12] /\
  arg_types (lit "{=u8}{=0..12}") Strict [TU W8; TBitField 0 12].
Proof. exact repeated_types. Qed.

(** C40.  UTF-8 text never contains the terminator 0xFF, and is recovered exactly. *)
Theorem C40_text_terminator : forall s, utf8_valid s = true -> ~ In 255 s /\
  forall tbl rec sf rest x, x = TDebug \/ x = TDisplay ->
    decode_ty tbl rec sf x (s ++ 255 :: rest) = Ok (APreformatted s, rest).
Proof. exact text_terminator. Qed.
Print Assumptions C40_text_terminator.

Example C40_ex : utf8_valid [72; 195; 164; 226; 130; 172; 240; 159; 152; 128] = true.
Proof. vm_compute. reflexivity. Qed.

(** C42.  A field with an adapter attribute is shown as its Debug/Display text,
    provided the derive macro does not take its type for a native one
    ([variant_ok]). *)
Theorem C42_adapter_field : forall addr tbl name k n ad t s fs1 vs1 a1 fs2 vs2 a2,
  let st := RStruct name k (fs1 ++ (n, Some ad, t) :: fs2) in
  variant_ok (name, k, fs1 ++ (n, Some ad, t) :: fs2) ->
  Z.of_nat (length (fs1 ++ (n, Some ad, t) :: fs2)) < usize_max ->
  linked addr tbl (format_tag st) -> linked addr tbl (adapter_tag ad) ->
  means_fields addr tbl fs1 vs1 a1 -> means_fields addr tbl fs2 vs2 a2 -> utf8_valid s = true ->
  exists k', forall fuel, (k' <= fuel)%nat -> forall rest,
    decode_ty tbl (decode_format tbl fuel) (S fuel) TFormat
      (put_istr addr (format_tag st) ++ format_data addr st (VList (vs1 ++ VText s :: vs2)) ++ rest)
    = Ok (AFormat (format_tag st) (a1 ++ AFormat (adapter_tag ad) [APreformatted s] :: a2), rest).
Proof. exact adapter_field. Qed.
Print Assumptions C42_adapter_field.

Example C42_ex :
  let addr := find_addr (t_entries adapter_ok_prog) in
  let b := encode_frame addr 1 None [] (lit "{=?}")
             [AvFmt (RStruct (lit "S") KNamed adapter_fields) (VList [VNum 1; VText (lit "dbg")])] in
  exists fr, decode adapter_ok_prog b = Ok (fr, length b) /\
    f_args fr = [AFormat (lit "S {{ a: {=u8:?}, b: {=?:?} }}")
      [AUxx 1; AFormat (lit "{=__internal_Debug}") [APreformatted (lit "dbg")]]].
Proof. exact adapter_ok. Qed.

(** On a field of a native type it is misread. *)
Theorem C42_native_field_refuted :
  let st := RStruct (lit "S") KNamed [(lit "x", Some ADebug2, RPrim (PU W8))] in
  let tbl := MkTable None
    [(1, MkEntry GInfo (lit "{=?}") []); (2, MkEntry GDerived (format_tag st) []);
     (259, MkEntry GDerived debug_tag [])] [] EncRzcobs in
  let addr := find_addr (t_entries tbl) in
  let b := encode_frame addr 1 None [] (lit "{=?}") [AvFmt st (VList [VText (lit "5")])] in
  exists fr n, decode tbl b = Ok (fr, n) /\ (n < length b)%nat /\
    f_args fr = [AFormat (lit "S {{ x: {=u8:?} }}") [AUxx 3]].
Proof. exact adapter_native. Qed.
Print Assumptions C42_native_field_refuted.

(** C44.  [usize] and [isize] values and text lengths survive exactly when they fit
    in 32 bits. *)
Theorem C44_usize : forall addr tbl x rec sf rest, 0 <= x < 2 ^ 64 ->
  (decode_ty tbl rec sf TUsize (put_prim addr PUsize (VNum x) ++ rest) = Ok (AUxx x, rest) <-> x < 2 ^ 32).
Proof. exact usize_exact_iff. Qed.
Print Assumptions C44_usize.

Theorem C44_usize_wraps : forall addr tbl x rec sf rest, 0 <= x < 2 ^ 64 ->
  decode_ty tbl rec sf TUsize (put_prim addr PUsize (VNum x) ++ rest) = Ok (AUxx (x mod 2 ^ 32), rest).
Proof. exact usize_sent. Qed.
Print Assumptions C44_usize_wraps.

Theorem C44_isize : forall addr tbl x rec sf rest, - 2 ^ 63 <= x < 2 ^ 63 ->
  (decode_ty tbl rec sf TIsize (put_prim addr PIsize (VNum x) ++ rest) = Ok (AIxx x, rest) <->
   - 2 ^ 31 <= x < 2 ^ 31).
Proof. exact isize_exact_iff. Qed.
Print Assumptions C44_isize.

Theorem C44_str : forall addr tbl s rec sf rest,
  (decode_ty tbl rec sf TStr (put_prim addr PStr (VText s) ++ rest) = Ok (AStr s, rest) <->
   utf8_valid s = true /\ Z.of_nat (length s) < 2 ^ 32).
Proof. exact str_exact_iff. Qed.
Print Assumptions C44_str.

Example C44_ex : put_prim (fun _ => 0) PUsize (VNum (2 ^ 32 + 5)) = [5; 0; 0; 0].
Proof. vm_compute. reflexivity. Qed.

(** C46.  End to end: a program executes the log statements [stmts]; each frame is
    written in any number of pieces; the host receives the encoded stream in any
    chunks.  It shows exactly what the statements mean, in order. *)
Theorem C46_end_to_end : forall addr tbl stmts frs writes chunks, table_safe tbl ->
  Forall2 (fun s fr => let '(index, ts_args, args) := s in frame_means addr tbl index ts_args args fr) stmts frs ->
  Forall2 (fun sf w => let '((index, ts_args, args), fr) := sf in
     concat w = encode_frame addr index (option_map e_string (t_timestamp tbl)) ts_args (f_format fr) args)
    (combine stmts frs) writes ->
  concat chunks = snd (frames_chunks enc_new writes) ->
  host_run EncRzcobs tbl [] chunks = (map EvFrame frs, Waiting []).
Proof. exact end_to_end. Qed.
Print Assumptions C46_end_to_end.

Example C46_ex : table_safe ex_prog /\
  frame_means ex_addr ex_prog 3 [AvPrim (VNum 5000000000)] ex_args ex_frame.
Proof. exact (conj ex_prog_safe ex_frame_means). Qed.

(** C47.  A hand-written [format] that calls another value's [format] shows that
    value, unless it is a type with several alternatives. *)
Theorem C47_delegate : forall addr tbl t v f a,
  strip t <> RManual -> delegate_panics t = false -> no_bar (format_tag t) ->
  linked addr tbl (format_tag t) -> linked addr tbl (format_tag RManual) -> means addr tbl t v f a ->
  exists k, forall fuel, (k <= fuel)%nat -> forall rest,
    decode_ty tbl (decode_format tbl fuel) (S fuel) TFormat
      (put_istr addr (format_tag RManual) ++ format_data addr RManual (VWrites [SDelegate t v]) ++ rest)
    = Ok (AFormat (lit "{=__internal_FormatSequence}") [AFormatSequence [AFormat f a]], rest).
Proof. exact delegate_round_trip. Qed.
Print Assumptions C47_delegate.

(** [fn format(&self, f) { Some(5u8).format(f) }] *)
Theorem C47_delegate_option_refuted :
  let tbl := MkTable None
    [(1, MkEntry GInfo (lit "{=?}") []); (2, MkEntry GDerived sequence_tag []);
     (3, MkEntry GDerived (lit "None|Some({=?})") []); (4, MkEntry GPrim (lit "{=u8}") [])] [] EncRzcobs in
  let addr := find_addr (t_entries tbl) in
  decode tbl (encode_frame addr 1 None [] (lit "{=?}")
    [AvFmt RManual (VWrites [SDelegate (option_ty (RPrim (PU W8))) (VVar 1 [VNum 5])])]) = Err Malformed.
Proof. exact delegate_option. Qed.
Print Assumptions C47_delegate_option_refuted.
