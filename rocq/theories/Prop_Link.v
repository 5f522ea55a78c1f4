(** Properties C61, C62 and C63: linking a program, and what the host makes of the linked program. *)
From Verif Require Import Base Utf8 ParserModel DecoderModel DecoderPanic EncodeModel EncodeSpec Numerals DisplayModel TextSpec TextMain RzcobsModel StreamModel
  LogFormatModel LogFormatSpec LogFormatBuiltin Prop_LogFormat SymbolModel LocationModel SinkModel SinkSpec SinkMain SinkExamples HostModel HostSpec
  LoggerModel LoggerSpec LoggerMain DeviceModel DeviceSpec DeviceProofs DeviceLive DeviceRun DeviceMain DeviceExamples
  TableModel TableSpec FlagsModel FlagsSpec LinkModel LinkSpec LinkProofs LinkMain LinkTable LinkLevels LinkSize LinkRoom LinkHost LinkDevice LinkExamples.
From Verif Require RttModel LinkExact.

(** C61.  The host accepts every linked program, and with the encoding of the device. *)
Theorem C61_accepted : forall p k, program_ok p -> link p = Ok k -> forall sec f, binary p k sec f ->
  exists t, parse_elf true f = Ok (Some t) /\ chosen_encoding (p_features p) = Some (t_encoding t).
Proof. intros p k OK L sec f B. exact (accepted p k OK L sec f B). Qed.
Print Assumptions C61_accepted.

(** Every used string has an index, and the host finds it there, with its level. *)
Theorem C61_index : forall p k, program_ok p -> link p = Ok k -> forall u kind g s,
  In u (p_uses p) -> u_live u = true -> interns u kind g s -> exists i, index_of k u kind s i.
Proof. exact index_exists. Qed.
Print Assumptions C61_index.

Theorem C61_string : forall p k, program_ok p -> link p = Ok k -> forall sec f, binary p k sec f ->
  forall check t, parse_elf check f = Ok (Some t) -> forall u kind g s i,
  In u (p_uses p) -> u_live u = true -> interns u kind g s -> index_of k u kind s i ->
  0 < i < 65534 /\ get_with_level t i = Some (tag_level g, s).
Proof. exact string_read. Qed.
Print Assumptions C61_string.

(** Different invocations have different indices. *)
Theorem C61_distinct : forall p k, program_ok p -> link p = Ok k -> forall i j u v kind g s kind' g' s' x y,
  nth_error (p_uses p) i = Some u -> nth_error (p_uses p) j = Some v -> i <> j ->
  interns u kind g s -> interns v kind' g' s' -> index_of k u kind s x -> index_of k v kind' s' y -> x <> y.
Proof. exact indices_differ. Qed.
Print Assumptions C61_distinct.

(** The host knows nothing else, and the timestamp of the program. *)
Theorem C61_nothing_else : forall p k, program_ok p -> link p = Ok k -> forall sec f, binary p k sec f ->
  forall check t, parse_elf check f = Ok (Some t) -> forall a e, lookup_entry a (t_entries t) = Some e ->
  exists u kind, In u (p_uses p) /\ u_live u = true /\ interns u kind (e_tag e) (e_string e) /\ at_address k (mangled (u_at u) kind (e_string e)) a.
Proof. exact string_known. Qed.
Print Assumptions C61_nothing_else.

Theorem C61_timestamp : forall p k, program_ok p -> link p = Ok k -> forall sec f, binary p k sec f ->
  forall check t, parse_elf check f = Ok (Some t) -> forall s, (exists e, t_timestamp t = Some e /\ e_string e = s) <-> uses_timestamp p s.
Proof. exact timestamp_iff. Qed.
Print Assumptions C61_timestamp.

(** The markers of a level are around the strings of its log statements and no others. *)
Theorem C61_levels : forall p k, program_ok p -> link p = Ok k -> forall l u kind g s a,
  In u (p_uses p) -> interns u kind g s -> at_address k (mangled (u_at u) kind s) a ->
  (marker (level_start l) (im_markers k) <= a < marker (level_end l) (im_markers k) <-> u_macro u = ULog l s).
Proof. exact levels. Qed.
Print Assumptions C61_levels.

(** A statement that is executed is read as this statement. *)
Theorem C61_statement : forall p k, program_ok p -> link p = Ok k -> forall sec f, binary p k sec f ->
  forall check t, parse_elf check f = Ok (Some t) -> forall u kind g s i ts addr tys ttys args rargs targs rtargs rest,
  In u (p_uses p) -> u_live u = true -> interns u kind g s -> index_of k u kind s i -> timestamp_is p ts ->
  arg_types s Strict tys -> means_args addr t tys args rargs ->
  match ts with Some x => arg_types x Strict ttys /\ means_args addr t ttys targs rtargs | None => rtargs = [] end ->
  let b := encode_frame addr i ts targs s args in
  decode t (b ++ rest) = Ok (MkFrame (tag_level g) i ts rtargs s rargs, length b).
Proof. exact statement_read. Qed.
Print Assumptions C61_statement.

(** The addresses of the other strings are as C13, C14 and C46 ask for. *)
Theorem C61_linked : forall p k, program_ok p -> link p = Ok k -> forall sec f, binary p k sec f ->
  forall check t, parse_elf check f = Ok (Some t) -> forall addr s,
  (exists u kind g, In u (p_uses p) /\ u_live u = true /\ interns u kind g s /\ tag_level g = None /\ index_of k u kind s (addr s)) -> linked addr t s.
Proof. exact strings_linked. Qed.
Print Assumptions C61_linked.

(** The flags of the types of the program are known, used or not. *)
Theorem C61_flags : forall p k, program_ok p -> link p = Ok k -> forall sec f, binary p k sec f ->
  forall check t, parse_elf check f = Ok (Some t) -> forall X u ident w fls addr h x names,
  (forall u v ident w fls w' fls', In u (p_uses p) -> In v (p_uses p) -> u_macro u = UBitflags ident w fls ->
    u_macro v = UBitflags ident w' fls' -> u_at u = u_at v -> w = w') ->
  let b := flags_at (u_at u) ident w fls in
  In u (p_uses p) -> u_live u = true -> u_macro u = UBitflags ident w fls -> index_of k u (lit "bitflags") (format_tag (flags_type b)) (addr (format_tag (flags_type b))) ->
  0 <= x < 2 ^ (8 * Z.of_nat (width_bytes w)) -> flags_of x (enabled b) names ->
  prints X addr t h (flags_type b) (VNum x) (match enabled b with [] => dec_str x | _ => flags_text names end).
Proof. exact flags_shown. Qed.
Print Assumptions C61_flags.

(** A called function of the logger, the timestamp or the panic handler is defined once, or it is the default. *)
Theorem C61_called : forall p k, program_ok p -> link p = Ok k -> forall n,
  In n [lit "_defmt_acquire"; lit "_defmt_flush"; lit "_defmt_release"; lit "_defmt_write"; lit "_defmt_timestamp"; lit "_defmt_panic"] ->
  In n (p_calls p) -> ~ In n (p_exports p) ->
  (definitions p n = 1%nat /\ In (n, n) (im_calls k)) \/
  (definitions p n = 0%nat /\ n = lit "_defmt_timestamp" /\ In (n, lit "__defmt_default_timestamp") (im_calls k)) \/
  (definitions p n = 0%nat /\ n = lit "_defmt_panic" /\ feat_avoid_default_panic (p_features p) = false /\
   In (n, lit "__defmt_default_panic") (im_calls k)).
Proof. exact called_what. Qed.
Print Assumptions C61_called.

Theorem C61_at_most_one : forall p k, program_ok p -> link p = Ok k -> forall n, (definitions p n <= 1)%nat.
Proof. exact at_most_one. Qed.
Print Assumptions C61_at_most_one.

Example C61_ex : program_ok sample_program /\ link sample_program = Ok sample_image /\ binary sample_program sample_image 7 sample_file /\
  parse_elf true sample_file = Ok (Some sample_table) /\
  map (fun x => (fst x, e_tag (snd x), e_string (snd x))) (t_entries sample_table) =
  [(1, GPrim, lit "{=u16}"); (2, GInfo, lit "n = {=u8}"); (3, GInfo, lit "n = {=u8}"); (4, GError, lit "n = {=u8}"); (5, GPrintln, lit "hi");
   (6, GBitflags, lit "{=u8:__internal_bitflags_Flags@driver@4@driver}")] /\
  map snd (t_bitflags sample_table) = [[(lit "A", 1); (lit "C", 4)]] /\
  map snd (im_markers sample_image) = [2; 2; 2; 2; 2; 4; 4; 4; 4; 5; 50].
Proof.
  destruct sample_indices as (A & _ & _ & B & _ & C & _).
  split; [exact sample_ok|]. split; [exact sample_linked|]. split; [exact sample_binary|]. split; [exact sample_parsed|]. auto.
Qed.

Example C61_errors :
  link (bare [MkUse (app_at 1) ULogger true; MkUse (lib_at 2) ULogger true] []) = Err Duplicate /\
  link (bare [MkUse (app_at 1) (UPrintln (lit "x")) true; MkUse (app_at 1) (UPrintln (lit "x")) true] []) = Err Duplicate /\
  link (bare [] [lit "_defmt_acquire"]) = Err Undefined /\
  link (MkProgram (MkFeatures false false true) 8 [] [] [lit "_defmt_panic"]) = Err Undefined.
Proof. destruct not_linked as (_ & A & _ & B & C & D & _). auto. Qed.

(** C62.  Every used string takes one index and every enabled flag sixteen. *)
Theorem C62_budget : forall p k, program_ok p -> link p = Ok k -> strings p + 16 * flag_count p <= 65530.
Proof. exact budget. Qed.
Print Assumptions C62_budget.

(** A program without flags and timestamp is linked if and only if it has at most 65530 used strings and its names are in order. *)
Theorem C62_plain : forall p, program_ok p ->
  (forall u, In u (p_uses p) -> match u_macro u with UBitflags _ _ _ | UTimestamp _ => False | _ => True end) ->
  (exists k, link p = Ok k) <-> chosen_encoding (p_features p) <> None /\ NoDup (defined p) /\ resolvable p /\ strings p <= 65530.
Proof. exact capacity. Qed.
Print Assumptions C62_plain.

(** With flags and a timestamp it is linked if there is room for the padding as well. *)
Theorem C62_enough : forall p, program_ok p -> chosen_encoding (p_features p) <> None -> NoDup (defined p) -> resolvable p ->
  strings p + (15 + p_align p) * flag_count p <= 65522 -> exists k, link p = Ok k.
Proof. exact enough_room. Qed.
Print Assumptions C62_enough.

(** Exactly the programs whose used strings, flags and timestamp end before 65534 are linked, where flags begin at a multiple of
    their alignment; and which error the others get. *)
Theorem C62_capacity : forall p, program_ok p ->
  (exists k, link p = Ok k) <-> chosen_encoding (p_features p) <> None /\ NoDup (defined p) /\ resolvable p /\ LinkExact.extent p < 65534.
Proof. exact LinkExact.capacity_exact. Qed.
Print Assumptions C62_capacity.

Theorem C62_errors : forall p e, program_ok p -> link p = Err e <->
  match e with
  | TwoEncodings => feat_raw (p_features p) = true /\ feat_rzcobs (p_features p) = true
  | Duplicate => chosen_encoding (p_features p) <> None /\ ~ NoDup (defined p)
  | Undefined => chosen_encoding (p_features p) <> None /\ NoDup (defined p) /\ ~ resolvable p
  | TooMany => chosen_encoding (p_features p) <> None /\ NoDup (defined p) /\ resolvable p /\ 65534 <= LinkExact.extent p
  end.
Proof. exact LinkExact.link_errors. Qed.
Print Assumptions C62_errors.

Example C62_capacity_ex : LinkExact.extent sample_program = 50 /\ LinkExact.first_strings sample_program = 4 /\
  flat_map (LinkExact.cells (p_align sample_program)) (p_uses sample_program) =
    [(1, 1); (1, 1); (8, 16); (8, 16); (1, 1); (4, 4)].
Proof. repeat split. Qed.

(** Fewer strings than the message of the linker script says are too many. *)
Theorem C62_message_refuted : exists p, program_ok p /\ (forall u, In u (p_uses p) -> exists s, u_macro u = UPrintln s) /\
  chosen_encoding (p_features p) <> None /\ NoDup (defined p) /\ resolvable p /\ strings p < 65534 /\ link p = Err TooMany.
Proof. exact strings_rejected. Qed.
Print Assumptions C62_message_refuted.

(** One string and 4096 flags are too many. *)
Theorem C62_flags_refuted : exists p, program_ok p /\ chosen_encoding (p_features p) <> None /\ NoDup (defined p) /\ resolvable p /\
  strings p = 1 /\ flag_count p = 4096 /\ link p = Err TooMany.
Proof. exact flags_rejected. Qed.
Print Assumptions C62_flags_refuted.

(** The sections for the end are not at the end: nothing is behind the end marker, and strings can be behind flags. *)
Theorem C62_before_end : forall p k st a, program_ok p -> link p = Ok k -> In (st, a) (im_placed k) ->
  a + Z.of_nat (length (st_data st)) <= marker end_marker (im_markers k).
Proof. exact before_end. Qed.
Print Assumptions C62_before_end.

Theorem C62_end_refuted : exists p k flag a text b, program_ok p /\ link p = Ok k /\ In (flag, a) (im_placed k) /\ st_section flag = lit ".defmt.end" /\
  In (text, b) (im_placed k) /\ st_section text = lit ".defmt." ++ st_name text /\ a < b < marker end_marker (im_markers k).
Proof. exact end_not_last. Qed.
Print Assumptions C62_end_refuted.

(** The flags are kept, used or not. *)
Theorem C62_kept : forall p k u ident w fls n fl, program_ok p -> link p = Ok k -> In u (p_uses p) -> u_macro u = UBitflags ident w fls ->
  nth_error fls n = Some fl -> fl_enabled fl = true ->
  exists st a, In (st, a) (im_placed k) /\ st_section st = lit ".defmt.end" /\ st_data st = le_bytes 16 (fl_value fl) /\
    st_name st = static_name (flags_at (u_at u) ident w fls) (Z.of_nat n) fl.
Proof. exact flags_kept. Qed.
Print Assumptions C62_kept.

Example C62_ex : strings sample_program = 6 /\ flag_count sample_program = 2 /\
  map (fun x => (snd x, length (st_data (fst x)))) (im_placed sample_image) =
    [(1, 1%nat); (2, 1%nat); (3, 1%nat); (4, 1%nat); (5, 1%nat); (6, 1%nat); (8, 16%nat); (24, 16%nat); (40, 1%nat); (44, 4%nat); (48, 1%nat); (49, 1%nat)].
Proof. destruct sample_indices as (_ & _ & _ & _ & A & _). split; [reflexivity|]. split; [reflexivity|exact A]. Qed.

(** C63.  From the macros to the terminal: every statement of every context of a linked program is printed by defmt-print. *)
Theorem C63_program : forall p k, program_ok p -> link p = Ok k -> forall sec f, binary p k sec f ->
  forall check t, parse_elf check f = Ok (Some t) ->
  forall X Y addr ts host_segs locs current_dir skipped size msg progs items enc run who,
    program_safe p -> timestamp_is p ts -> chosen_encoding (p_features p) = Some enc ->
    programs_ok msg progs -> Forall calm progs -> 2 <= size -> external_ok Y -> wide_enough Y ->
    (forall i tasks, nth_error progs i = Some tasks -> Forall2 (executes p k addr t ts) (spoken msg tasks) (items i)) ->
    (forall i x, In x (items i) -> DeviceSpec.readable X Y t x) ->
    device_boot size progs (run O) -> device_fair size enc msg run who ->
    exists n, forall chunks hs, concat chunks = RttModel.r_delivered (d_chan (run n)) -> Forall some_bytes chunks ->
      exists order evs, (forall i x, In (i, x) order -> (i < length progs)%nat) /\
        (forall i, (i < length progs)%nat -> items i = of_context i order) /\
        defmt_print false false Stdin (Loads t) (HostSpec.reads chunks ++ Read (Ok []) :: hs) = (map (Event t) evs, Finished true) /\
        forall times, length times = length order -> exists o,
          print_events false X t locs current_dir skipped false
            (no_clock (text_sink Y false (builtin_segments FDefault false (match ts with Some _ => true | None => false end) false) host_segs false))
            (combine times evs) = Ok o /\ stderr_of o = [] /\
          stdout_of o = as_lines (map (fun o => default_line (match ts with Some _ => true | None => false end) (f_level (sd_frame (snd o))) (sd_time (snd o)) (sd_message (snd o))) order).
Proof. exact program_shown. Qed.
Print Assumptions C63_program.

Example C63_ex : program_ok small_program /\ link small_program = Ok small_image /\ binary small_program small_image 2 small_file /\
  parse_elf true small_file = Ok (Some small_table) /\ program_safe small_program /\ timestamp_is small_program (Some (lit "{=u64:us}")) /\
  (forall i tasks, nth_error dev_progs i = Some tasks -> Forall2 (executes small_program small_image sink_addr small_table (Some (lit "{=u64:us}"))) (spoken None tasks) (dev_items i)) /\
  (forall i x, In x (dev_items i) -> DeviceSpec.readable D0 Y0 small_table x) /\
  device_boot 4 dev_progs (dev_run 0) /\ device_fair 4 EncRzcobs None dev_run (turn_of 4 EncRzcobs None dev_start).
Proof.
  split; [exact small_ok|]. split; [exact small_linked|]. split; [exact small_binary|]. split; [exact small_parsed|]. split; [exact small_safe|]. split; [exact small_time|].
  split; [exact small_executes|]. split; [exact small_readable|]. split; [exact dev_boots|exact dev_fair].
Qed.
