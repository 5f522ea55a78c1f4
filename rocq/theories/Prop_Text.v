(** Properties C50 and C51: the text a log statement prints. *)
From Verif Require Import Base Utf8 ParserModel ParserMore DecoderModel Numerals EncodeModel EncodeSpec EncodeTop
  EncodeExamples DisplayModel DisplayExamples TextSpec TextProofs TextMain LibTypesModel TextExamples.

(** C50.  The host prints the text that the format string and the argument values say,
    and no other. *)
Theorem C50_message : forall X addr tbl index tsa args fr rest,
  frame_means addr tbl index tsa args fr ->
  let b := encode_frame addr index (option_map e_string (t_timestamp tbl)) tsa (f_format fr) args in
  exists frags, parse (f_format fr) Strict = Ok frags /\
    decode tbl (b ++ rest) = Ok (fr, length b) /\
    forall s, display_message X tbl fr = Some s <-> says_line X tbl None frags args s.
Proof. exact message_text. Qed.
Print Assumptions C50_message.

(** The timestamp likewise. *)
Theorem C50_timestamp : forall X addr tbl index tsa args fr e,
  frame_means addr tbl index tsa args fr -> t_timestamp tbl = Some e ->
  exists frags, parse (e_string e) Strict = Ok frags /\
    forall s, display_timestamp X tbl fr = Some (Some s) <-> says_line X tbl None frags tsa s.
Proof. exact timestamp_text. Qed.
Print Assumptions C50_timestamp.

Example C50_ex : exists frags, parse ex_format Strict = Ok frags /\
  says_line X0 ex_prog None frags ex_args (lit
  "S { a: 200, b: Some(4660), c: ""dis"", d: [C { x: true }, A, B(-7)], e: w 70000 0-3w 0 255, f: (f4611686018427387904, [A, " ++
  utf8_encode 128512 ++ lit "]) } 11 e [Err(A), Ok(9)] text dbg [0, 255, 1] S { a: 200, b: Some(4660), c: ""dis"", d: [C { x: true }, A, B(-7)], e: w 70000 0-3w 0 255, f: (f4611686018427387904, [A, " ++
  utf8_encode 128512 ++ lit "]) } hello").
Proof. exact message_ex. Qed.

(** A single value: it is printed with its text, and has only one. *)
Theorem C50_value : forall X addr tbl h t v s, printable X addr tbl h t v s ->
  prints X addr tbl h t v s /\ forall s', printable X addr tbl h t v s' -> s' = s.
Proof.
  intros X addr tbl h t v s P. split; [exact (printable_prints _ _ _ _ _ _ _ P)|].
  intros s' P'. exact (printable_unique _ _ _ _ _ _ _ _ P' P).
Qed.
Print Assumptions C50_value.

(** Numbers, booleans, characters and strings without hints or under [:?]. *)
Theorem C50_plain : forall X tbl own h, plain own -> plain h ->
  (forall w x, leaf_text X tbl own h (PU w) (VNum x) = Some (dec_str x)) /\
  (forall x, leaf_text X tbl own h PUsize (VNum x) = Some (dec_str x)) /\
  (forall w x, leaf_text X tbl own h (PI w) (VNum x) = Some ((if x <? 0 then lit "-" else []) ++ dec_str (Z.abs x))) /\
  (forall x, leaf_text X tbl own h PIsize (VNum x) = Some ((if x <? 0 then lit "-" else []) ++ dec_str (Z.abs x))) /\
  leaf_text X tbl own h PBool (VNum 1) = Some (lit "true") /\
  leaf_text X tbl own h PBool (VNum 0) = Some (lit "false") /\
  (forall c, leaf_text X tbl own h PChar (VNum c) = Some (utf8_encode c)) /\
  (forall s, leaf_text X tbl None None PStr (VText s) = Some s) /\
  (forall s, leaf_text X tbl own (Some HDebug) PStr (VText s) = Some (x_debug_str X s)).
Proof. exact leaf_plain. Qed.
Print Assumptions C50_plain.

(** [Debug2Format] and [Display2Format] print the text produced on the device, whatever
    hint is given, except [:?]. *)
Theorem C50_adapters : forall X addr tbl h s, linked addr tbl debug_tag -> linked addr tbl display_tag ->
  utf8_valid s = true -> h <> Some HDebug ->
  printable X addr tbl h RDebug (VText s) s /\ printable X addr tbl h RDisplay (VText s) s.
Proof. exact adapter_text. Qed.
Print Assumptions C50_adapters.

(** Under [:?], and hence in every named field, the text is quoted and escaped once more,
    although the documentation of the adapters says that hints are ignored. *)
Theorem C50_adapter_hints_refuted : forall X,
  log_shown X adapter_prog 2 "{}" [AvFmt RDebug (VText (lit "S"))] = Some (Some (lit "S")) /\
  log_shown X adapter_prog 1 "{:?}" [AvFmt RDebug (VText (lit "S"))] = Some (Some (x_debug_str X (lit "S"))) /\
  log_shown X adapter_prog 2 "{}" [AvFmt adapter_struct (VList [VText (lit "S")])] =
    Some (Some (lit "P { x: " ++ x_debug_str X (lit "S") ++ lit " }")).
Proof. exact adapter_shown. Qed.
Print Assumptions C50_adapter_hints_refuted.

(** So for every text: it is shown as the text in quotes. *)
Theorem C50_adapters_debug : forall X addr tbl s, linked addr tbl debug_tag -> linked addr tbl display_tag -> utf8_valid s = true ->
  printable X addr tbl (Some HDebug) RDebug (VText s) (x_debug_str X s) /\
  printable X addr tbl (Some HDebug) RDisplay (VText s) (x_debug_str X s).
Proof. exact adapter_debug_text. Qed.
Print Assumptions C50_adapters_debug.

(** C51.  Library types. *)
Notation lk addr tbl s := (linked addr tbl (lit s)).

Theorem C51_ranges : forall X addr tbl h t a b sa sb, linked addr tbl sequence_tag ->
  printable X addr tbl h t a sa -> printable X addr tbl h t b sb ->
  (lk addr tbl "{}..{}" -> printable X addr tbl h RManual (range t a b) (sa ++ lit ".." ++ sb)) /\
  (lk addr tbl "{}.." -> printable X addr tbl h RManual (range_from t a) (sa ++ lit "..")) /\
  (lk addr tbl ".." -> printable X addr tbl h RManual range_full (lit "..")) /\
  (lk addr tbl "{}..={}" -> printable X addr tbl h RManual (range_inclusive t a b) (sa ++ lit "..=" ++ sb)) /\
  (lk addr tbl "..{}" -> printable X addr tbl h RManual (range_to t b) (lit ".." ++ sb)) /\
  (lk addr tbl "..={}" -> printable X addr tbl h RManual (range_to_inclusive t b) (lit "..=" ++ sb)).
Proof. exact ranges_text. Qed.
Print Assumptions C51_ranges.

Theorem C51_option : forall X addr tbl h t v s, printable X addr tbl h t v s -> lk addr tbl "None|Some({=?})" ->
  printable X addr tbl h (option_ty t) (VVar 0 []) (lit "None") /\
  printable X addr tbl h (option_ty t) (VVar 1 [v]) (lit "Some(" ++ s ++ lit ")").
Proof. exact option_text. Qed.
Print Assumptions C51_option.

Theorem C51_result : forall X addr tbl h t e v s, lk addr tbl "Err({=?})|Ok({=?})" ->
  (printable X addr tbl h e v s -> printable X addr tbl h (result_ty t e) (VVar 0 [v]) (lit "Err(" ++ s ++ lit ")")) /\
  (printable X addr tbl h t v s -> printable X addr tbl h (result_ty t e) (VVar 1 [v]) (lit "Ok(" ++ s ++ lit ")")).
Proof. exact result_text. Qed.
Print Assumptions C51_result.

(** [s] for the numbers is their text under the hint in force (C50). *)
Theorem C51_duration : forall X addr tbl h secs nanos a b, linked addr tbl sequence_tag ->
  lk addr tbl "Duration {{ secs: {=u64}, nanos: {=u32} }}" -> 0 <= secs < 2 ^ 64 -> 0 <= nanos < 10 ^ 9 ->
  number_text X tbl h (PU W64) secs a -> number_text X tbl h (PU W32) nanos b ->
  printable X addr tbl h RManual (duration secs nanos) (lit "Duration { secs: " ++ a ++ lit ", nanos: " ++ b ++ lit " }").
Proof. exact time_text. Qed.
Print Assumptions C51_duration.

Theorem C51_constants : forall X addr tbl h s, linked addr tbl sequence_tag -> linked addr tbl s ->
  In s [lit "Zip(..)"; lit "BorrowError"; lit "BorrowMutError"; lit "ChunksExact(..)"; lit "Windows(..)";
        lit "AddrParseError(_)"; lit "TryFromIntError(())"; lit "TryFromSliceError(())"; lit "panicked"] ->
  printable X addr tbl h RManual (VWrites [SWrite s []]) s.
Proof. exact constants_text. Qed.
Print Assumptions C51_constants.

Theorem C51_ipv4 : forall X addr tbl h a b c d sa sb sc sd, linked addr tbl sequence_tag ->
  lk addr tbl "{}.{}.{}.{}" -> lk addr tbl "{=u8}" -> bytes_ok [a; b; c; d] ->
  number_text X tbl h (PU W8) a sa -> number_text X tbl h (PU W8) b sb ->
  number_text X tbl h (PU W8) c sc -> number_text X tbl h (PU W8) d sd ->
  printable X addr tbl h RManual (ipv4 a b c d) (sa ++ lit "." ++ sb ++ lit "." ++ sc ++ lit "." ++ sd).
Proof. exact ipv4_text. Qed.
Print Assumptions C51_ipv4.

(** All eight groups are written out. *)
Theorem C51_ipv6 : forall X addr tbl h octets, linked addr tbl sequence_tag ->
  lk addr tbl "{:02x}{:02x}:{:02x}{:02x}:{:02x}{:02x}:{:02x}{:02x}:{:02x}{:02x}:{:02x}{:02x}:{:02x}{:02x}:{:02x}{:02x}" ->
  lk addr tbl "{=u8}" -> bytes_ok octets -> length octets = 16%nat -> h <> Some HAscii ->
  printable X addr tbl h RManual (ipv6 octets) (join_text (lit ":") (groups octets)).
Proof. exact ipv6_text. Qed.
Print Assumptions C51_ipv6.

Theorem C51_socket : forall X addr tbl h ip sip port sport, linked addr tbl sequence_tag -> lk addr tbl "{=u16}" ->
  printable X addr tbl h RManual ip sip -> 0 <= port < 65536 -> number_text X tbl h (PU W16) port sport ->
  (lk addr tbl "{}:{}" -> printable X addr tbl h RManual (socket_v4 ip port) (sip ++ lit ":" ++ sport)) /\
  (lk addr tbl "[{}]:{}" -> printable X addr tbl h RManual (socket_v6 ip port) (lit "[" ++ sip ++ lit "]:" ++ sport)) /\
  (lk addr tbl "{}" -> printable X addr tbl h RManual (any_addr ip) sip).
Proof. exact socket_text. Qed.
Print Assumptions C51_socket.

Theorem C51_nonzero : forall X addr tbl h p x a s, linked addr tbl sequence_tag ->
  linked addr tbl (lit "{=" ++ prim_name p ++ lit "}") ->
  prim_means addr tbl p (VNum x) a -> leaf_text X tbl None h p (VNum x) = Some s ->
  (exists w, p = PU w \/ p = PI w \/ p = PUsize \/ p = PIsize) ->
  printable X addr tbl h RManual (nonzero p x) s.
Proof. exact nonzero_text. Qed.
Print Assumptions C51_nonzero.

Theorem C51_pointers : forall X addr tbl h x, linked addr tbl sequence_tag -> lk addr tbl "0x{:x}" -> lk addr tbl "{=usize}" ->
  0 <= x < 2 ^ 32 -> h <> Some HAscii ->
  printable X addr tbl h RManual (const_pointer x) (lit "0x" ++ num_str 16 false x) /\
  printable X addr tbl h RManual (mut_pointer x) (lit "0x" ++ num_str 16 false x) /\
  (lk addr tbl "{}" -> printable X addr tbl h RManual (non_null x) (lit "0x" ++ num_str 16 false x) /\
                       printable X addr tbl h RManual (fn_pointer x) (lit "0x" ++ num_str 16 false x)).
Proof. exact pointer_text. Qed.
Print Assumptions C51_pointers.

Theorem C51_location : forall X addr tbl h file line column a b, linked addr tbl sequence_tag ->
  lk addr tbl "{=str}:{=u32}:{=u32}" ->
  utf8_valid file = true -> Z.of_nat (length file) < 2 ^ 32 -> 0 <= line < 2 ^ 32 -> 0 <= column < 2 ^ 32 ->
  number_text X tbl h (PU W32) line a -> number_text X tbl h (PU W32) column b ->
  let s := (if is_debug_hint h then x_debug_str X file else file) ++ lit ":" ++ a ++ lit ":" ++ b in
  printable X addr tbl h RManual (location file line column) s /\
  (lk addr tbl "panicked at {}" ->
   printable X addr tbl h RManual (panic_info (Some (location file line column))) (lit "panicked at " ++ s)).
Proof. exact location_text. Qed.
Print Assumptions C51_location.

Theorem C51_layout : forall X addr tbl h size align a b, linked addr tbl sequence_tag ->
  lk addr tbl "Layout {{ size: {}, align: {} }}" -> lk addr tbl "{=usize}" -> 0 <= size < 2 ^ 32 -> 0 <= align < 2 ^ 32 ->
  number_text X tbl h PUsize size a -> number_text X tbl h PUsize align b ->
  printable X addr tbl h RManual (layout size align) (lit "Layout { size: " ++ a ++ lit ", align: " ++ b ++ lit " }").
Proof. exact layout_text. Qed.
Print Assumptions C51_layout.

(** Slices, arrays and slice iterators of any length. *)
Theorem C51_lists : forall X addr tbl h t vs ss, linked addr tbl (format_tag t) ->
  printable_all X addr tbl h t vs ss -> h <> Some HAscii \/ ~ is_u8 t -> Z.of_nat (length vs) < 2 ^ 32 ->
  (lk addr tbl "{=[?]}" -> printable X addr tbl h (RSlice t) (VList vs) (listing (lit "[") (lit "]") ss)) /\
  (linked addr tbl (format_tag (RArray (Z.of_nat (length vs)) t)) ->
     printable X addr tbl h (RArray (Z.of_nat (length vs)) t) (VList vs) (listing (lit "[") (lit "]") ss)) /\
  (linked addr tbl sequence_tag -> lk addr tbl "Iter {{ slice: {=[?]}, position: ? }}" ->
     printable X addr tbl h RManual (slice_iter t vs) (lit "Iter { slice: " ++ listing (lit "[") (lit "]") ss ++ lit ", position: ? }")).
Proof. exact list_text. Qed.
Print Assumptions C51_lists.

Theorem C51_tuples : forall X addr tbl h ts vs ss, printable_each X addr tbl h ts vs ss -> (length ts <= 12)%nat ->
  linked addr tbl (format_tag (tuple_ty ts)) ->
  printable X addr tbl h (tuple_ty ts) (VList vs) (listing (lit "(") (lit ")") ss).
Proof. exact tuple_text. Qed.
Print Assumptions C51_tuples.

Theorem C51_phantom : forall X addr tbl h, lk addr tbl "PhantomData" ->
  printable X addr tbl h phantom_ty (VList []) (lit "PhantomData").
Proof. exact phantom_text. Qed.
Print Assumptions C51_phantom.

Theorem C51_refcell : forall X addr tbl h t v s, linked addr tbl sequence_tag -> printable X addr tbl h t v s ->
  lk addr tbl "RefCell {{ value: <borrowed> }}|RefCell {{ value: {=?} }}" ->
  printable X addr tbl h (refcell_ty t) (VVar 1 [v]) (lit "RefCell { value: " ++ s ++ lit " }") /\
  printable X addr tbl h (refcell_ty t) (VVar 0 []) (lit "RefCell { value: <borrowed> }").
Proof. intros X addr tbl h t v s L P. exact (proj2 (cells_text X addr tbl h t v s L P)). Qed.
Print Assumptions C51_refcell.

(** A [Cell] is printed with a parenthesis too many. *)
Theorem C51_cell_refuted : forall X addr tbl h t v s, linked addr tbl sequence_tag -> printable X addr tbl h t v s ->
  lk addr tbl "Cell {{ value: {=?} }})" ->
  prints X addr tbl h RManual (cell t v) (lit "Cell { value: " ++ s ++ lit " })").
Proof.
  intros X addr tbl h t v s L P C. apply printable_prints. exact (proj1 (cells_text X addr tbl h t v s L P) C).
Qed.
Print Assumptions C51_cell_refuted.

Example C51_cell_ex : forall X, log_shown X lib_prog 1 "{}" [AvFmt RManual (cell (RPrim (PU W8)) (VNum 5))] =
  Some (Some (lit "Cell { value: 5 })")).
Proof. exact cell_shown. Qed.

Example C51_ex : log_shown X0 lib_prog 1 "{}"
  [AvFmt (tuple_ty [RManual; RManual; RManual])
    (VList [socket_v6 (ipv6 [32; 1; 13; 184; 0; 0; 0; 0; 0; 0; 0; 0; 0; 0; 0; 255]) 8080;
            range_inclusive (option_ty (RPrim (PU W8))) (VVar 0 []) (VVar 1 [VNum 7]);
            panic_info (Some (location (lit "src/main.rs") 12 5))])] =
  Some (Some (lit "([2001:0db8:0000:0000:0000:0000:0000:00ff]:8080, None..=Some(7), panicked at src/main.rs:12:5)")).
Proof. exact lib_shown. Qed.
