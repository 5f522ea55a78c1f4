(** Properties C55, C60 and C63 for any log format, with or without colours. *)
From Verif Require Import Base Utf8 ParserModel DecoderModel DecoderPanic EncodeModel EncodeSpec EncodeTop DisplayModel TextSpec RzcobsModel StreamModel
  LogFormatModel LogFormatSpec LogFormatExamples LogFormatBuiltin Prop_LogFormat SymbolModel SymbolProofs LocationModel SinkModel SinkSpec SinkProofs SinkMain SinkExamples
  HostModel HostSpec LoggerModel LoggerSpec LoggerMain DeviceModel DeviceSpec DeviceProofs DeviceLive DeviceRun DeviceExamples SinkFormats
  EnvFilterModel EnvFilterSpec TableModel TableSpec FlagsModel FlagsSpec LinkModel LinkSpec LinkLevels LinkHost LinkDevice LinkFormats LoggerSpec.
From Verif Require RttModel.

(** C55.  The statements of the program are printed if and only if the format has a line for each of them ([frame_line]: for
    [println!] the message), and these lines are printed; the host panics exactly at the first for which it has none. *)
Theorem C55_format : forall X Y addr tbl colors segs host_segs locs dir skipped show verbose stmts frs chunks texts times,
  table_safe tbl -> executed addr tbl stmts frs chunks -> printed_as X tbl stmts frs texts -> Forall (fun t => byte_text (fst t)) texts -> length times = length frs ->
  let shown := print_events verbose X tbl locs dir skipped show (no_clock (text_sink Y colors segs host_segs verbose))
    (combine times (fst (host_run EncRzcobs tbl [] chunks))) in
  (forall o, shown = Ok o <-> exists ls, Forall2 (fun ft s => frame_line Y colors segs locs dir ft = Ok s) (combine frs texts) ls /\
     o = map (fun s => Stdout (s ++ [10])) ls) /\
  (shown = Panic <-> exists before ft after ls, combine frs texts = before ++ ft :: after /\
     Forall2 (fun ft s => frame_line Y colors segs locs dir ft = Ok s) before ls /\ frame_line Y colors segs locs dir ft = Panic).
Proof. exact format_run. Qed.
Print Assumptions C55_format.

Definition own_format : list segment :=
  Eval vm_compute in match parse_log_format Y0 (lit "{t} [{L:>7}] {f}:{l:4} {m} | {s}") with Ok l => l | _ => [] end.
Example C55_format_ex : parse_log_format Y0 (lit "{t} [{L:>7}] {f}:{l:4} {m} | {s}") = Ok own_format /\
  map (frame_line Y0 false own_format sink_locs (lit "/w")) (combine sink_frames sink_texts) =
    [Ok (lit "0.005000 [   WARN] main.rs:12   app::net::run | x = 200 a""b"); Ok (lit "hi")].
Proof. split; vm_compute; reflexivity. Qed.

(** C60.  In every fair run there comes the moment when all statements of all contexts are shown in the format, each once. *)
Theorem C60_format : forall X Y addr tbl colors segs host_segs locs dir skipped show verbose size msg progs items k run who,
  programs_ok msg progs -> Forall calm progs -> 2 <= size -> table_safe tbl -> t_encoding tbl = k ->
  (forall i ts, nth_error progs i = Some ts -> Forall2 (says addr tbl) (spoken msg ts) (items i)) ->
  (forall i x, In x (items i) -> says_statement X tbl (sd_time_args x) (sd_args x) (sd_frame x) (sd_time x) (sd_message x) /\ byte_text (sd_time x) /\
     exists s, line_of Y colors segs locs dir x = Ok s) ->
  device_boot size progs (run O) -> device_fair size k msg run who ->
  exists n, forall chunks hs, concat chunks = RttModel.r_delivered (d_chan (run n)) -> Forall some_bytes chunks ->
    exists order evs ls, (forall i x, In (i, x) order -> (i < length progs)%nat) /\
      (forall i, (i < length progs)%nat -> items i = of_context i order) /\
      defmt_print false false Stdin (Loads tbl) (HostSpec.reads chunks ++ Read (Ok []) :: hs) = (map (Event tbl) evs, Finished true) /\
      Forall2 (fun o s => line_of Y colors segs locs dir (snd o) = Ok s) order ls /\
      forall times, length times = length order -> exists o,
        print_events verbose X tbl locs dir skipped show (no_clock (text_sink Y colors segs host_segs verbose)) (combine times evs) = Ok o /\
        stderr_of o = [] /\ stdout_of o = as_lines ls.
Proof. exact terminal_format. Qed.
Print Assumptions C60_format.

(** At any moment it shows complete statements, those of each context in the order of its program and without gaps. *)
Theorem C60_format_so_far : forall X Y addr tbl colors segs host_segs locs dir skipped show verbose size msg progs items k,
  programs_ok msg progs -> table_safe tbl -> t_encoding tbl = k ->
  (forall i ts, nth_error progs i = Some ts -> Forall2 (says addr tbl) (spoken msg ts) (items i)) ->
  (forall i x, In x (items i) -> says_statement X tbl (sd_time_args x) (sd_args x) (sd_frame x) (sd_time x) (sd_message x) /\ byte_text (sd_time x) /\
     exists s, line_of Y colors segs locs dir x = Ok s) ->
  forall d chunks s, k = EncRzcobs \/ Forall calm progs -> device_reaches size k msg progs d -> concat chunks = RttModel.r_delivered (d_chan d) ->
  s <> Stdin \/ Forall some_bytes chunks ->
  exists order evs buf ls, (forall i x, In (i, x) order -> (i < length progs)%nat) /\
    (forall i, (i < length progs)%nat -> exists more, items i = of_context i order ++ more) /\
    defmt_print false false s (Loads tbl) (HostSpec.reads chunks) = (map (Event tbl) evs, Running tbl buf) /\
    Forall2 (fun o s => line_of Y colors segs locs dir (snd o) = Ok s) order ls /\
    forall times, length times = length order -> exists o,
      print_events verbose X tbl locs dir skipped show (no_clock (text_sink Y colors segs host_segs verbose)) (combine times evs) = Ok o /\
      stderr_of o = [] /\ stdout_of o = as_lines ls.
Proof. exact format_so_far. Qed.
Print Assumptions C60_format_so_far.

Example C60_format_ex : forall i x, In x (dev_items i) -> exists s, line_of Y0 true (builtin_segments FOneLine true true false) sink_locs (lit "/w") x = Ok s.
Proof. intros i x I. destruct i as [|[|i]]; cbn in I; repeat (destruct I as [<-|I]; [eexists; vm_compute; reflexivity|]); destruct I. Qed.

(** C63.  The same for linked programs, from the macros in the source. *)
Theorem C63_format : forall p k, program_ok p -> link p = Ok k -> forall sec f, binary p k sec f ->
  forall check t, parse_elf check f = Ok (Some t) ->
  forall X Y addr ts colors segs host_segs locs dir skipped show verbose size msg progs items enc run who,
    program_safe p -> timestamp_is p ts -> chosen_encoding (p_features p) = Some enc ->
    programs_ok msg progs -> Forall calm progs -> 2 <= size ->
    (forall i tasks, nth_error progs i = Some tasks -> Forall2 (executes p k addr t ts) (spoken msg tasks) (items i)) ->
    (forall i x, In x (items i) -> says_statement X t (sd_time_args x) (sd_args x) (sd_frame x) (sd_time x) (sd_message x) /\ byte_text (sd_time x) /\
       exists s, line_of Y colors segs locs dir x = Ok s) ->
    device_boot size progs (run O) -> device_fair size enc msg run who ->
    exists n, forall chunks hs, concat chunks = RttModel.r_delivered (d_chan (run n)) -> Forall some_bytes chunks ->
      exists order evs ls, (forall i x, In (i, x) order -> (i < length progs)%nat) /\
        (forall i, (i < length progs)%nat -> items i = of_context i order) /\
        defmt_print false false Stdin (Loads t) (HostSpec.reads chunks ++ Read (Ok []) :: hs) = (map (Event t) evs, Finished true) /\
        Forall2 (fun o s => line_of Y colors segs locs dir (snd o) = Ok s) order ls /\
        forall times, length times = length order -> exists o,
          print_events verbose X t locs dir skipped show (no_clock (text_sink Y colors segs host_segs verbose)) (combine times evs) = Ok o /\
          stderr_of o = [] /\ stdout_of o = as_lines ls.
Proof. exact program_format. Qed.
Print Assumptions C63_format.

(** And at any moment: complete statements, those of each context in order and without gaps. *)
Theorem C63_format_so_far : forall p k, program_ok p -> link p = Ok k -> forall sec f, binary p k sec f ->
  forall check t, parse_elf check f = Ok (Some t) ->
  forall X Y addr ts colors segs host_segs locs dir skipped show verbose size msg progs items enc,
    program_safe p -> timestamp_is p ts -> chosen_encoding (p_features p) = Some enc -> programs_ok msg progs ->
    (forall i tasks, nth_error progs i = Some tasks -> Forall2 (executes p k addr t ts) (spoken msg tasks) (items i)) ->
    (forall i x, In x (items i) -> says_statement X t (sd_time_args x) (sd_args x) (sd_frame x) (sd_time x) (sd_message x) /\ byte_text (sd_time x) /\
       exists s, line_of Y colors segs locs dir x = Ok s) ->
    forall d chunks s, enc = EncRzcobs \/ Forall calm progs -> device_reaches size enc msg progs d -> concat chunks = RttModel.r_delivered (d_chan d) ->
    s <> Stdin \/ Forall some_bytes chunks ->
    exists order evs buf ls, (forall i x, In (i, x) order -> (i < length progs)%nat) /\
      (forall i, (i < length progs)%nat -> exists more, items i = of_context i order ++ more) /\
      defmt_print false false s (Loads t) (HostSpec.reads chunks) = (map (Event t) evs, Running t buf) /\
      Forall2 (fun o s => line_of Y colors segs locs dir (snd o) = Ok s) order ls /\
      forall times, length times = length order -> exists o,
        print_events verbose X t locs dir skipped show (no_clock (text_sink Y colors segs host_segs verbose)) (combine times evs) = Ok o /\
        stderr_of o = [] /\ stdout_of o = as_lines ls.
Proof. exact program_format_so_far. Qed.
Print Assumptions C63_format_so_far.
