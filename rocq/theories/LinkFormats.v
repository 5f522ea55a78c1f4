(** From the macro invocations of a program to the terminal, in any log format (C63). *)
From Verif Require Import Base Utf8 ParserModel DecoderModel DecoderPanic EncodeModel EncodeSpec EncodeTop Numerals DisplayModel TextSpec RzcobsModel StreamModel
  LogFormatModel LogFormatSpec LogFormatBuiltin SymbolModel SymbolProofs LocationModel SinkModel SinkSpec SinkMain HostModel HostSpec
  LoggerModel LoggerSpec LoggerMain DeviceModel DeviceSpec DeviceProofs DeviceLive DeviceRun DeviceMain SinkFormats
  EnvFilterModel EnvFilterSpec TableModel TableSpec TableProofs TableMain FlagsModel FlagsSpec LinkModel LinkSpec LinkProofs LinkMain LinkTable LinkLevels LinkHost LinkDevice.
From Verif Require RttModel.

Theorem program_format : forall p k, program_ok p -> link p = Ok k -> forall sec f, binary p k sec f ->
  forall check t, parse_elf check f = Ok (Some t) ->
  forall X Y addr ts colors segs host_segs locs dir skipped show verbose size msg progs items enc run who,
    program_safe p -> timestamp_is p ts -> chosen_encoding (p_features p) = Some enc ->
    programs_ok msg progs -> Forall calm progs -> 2 <= size ->
    (forall i tasks, nth_error progs i = Some tasks -> Forall2 (executes p k addr t ts) (spoken msg tasks) (items i)) ->
    (forall i x, In x (items i) -> says_statement X t (sd_time_args x) (sd_args x) (sd_frame x) (sd_time x) (sd_message x) /\ byte_text (sd_time x) /\
       exists s, line_of Y colors segs locs dir x = Ok s) ->
    device_boot size progs (run O) -> device_fair size enc msg run who ->
    exists n, forall chunks hs, concat chunks = RttModel.r_delivered (d_chan (run n)) -> Forall some_bytes chunks ->
      exists order evs ls, (forall i x, In (i, x) order -> (i < length progs)%nat) /\
        (forall i, (i < length progs)%nat -> items i = of_context i order) /\
        defmt_print false false Stdin (Loads t) (HostSpec.reads chunks ++ Read (Ok []) :: hs) = (map (Event t) evs, Finished true) /\
        Forall2 (fun o s => line_of Y colors segs locs dir (snd o) = Ok s) order ls /\
        forall times, length times = length order -> exists o,
          print_events verbose X t locs dir skipped show (no_clock (text_sink Y colors segs host_segs verbose)) (combine times evs) = Ok o /\
          stderr_of o = [] /\ stdout_of o = as_lines ls.
Proof.
  intros p k OK L sec f B check t P X Y addr ts colors segs host_segs locs dir skipped show verbose size msg progs items enc run who S T En H1 H2 H3 Ex Rd Bt Fr.
  rewrite (device_encoding p k OK L sec f B check t P) in En. injection En as En.
  apply (terminal_format X Y addr t colors segs host_segs locs dir skipped show verbose size msg progs items enc run who); auto.
  - exact (linked_safe p k OK L sec f B check t P S).
  - intros i tasks Ni. specialize (Ex i tasks Ni). clear - Ex OK L B P T. induction Ex; constructor; auto. eapply executed_says; eauto.
Qed.

Theorem program_format_so_far : forall p k, program_ok p -> link p = Ok k -> forall sec f, binary p k sec f ->
  forall check t, parse_elf check f = Ok (Some t) ->
  forall X Y addr ts colors segs host_segs locs dir skipped show verbose size msg progs items enc,
    program_safe p -> timestamp_is p ts -> chosen_encoding (p_features p) = Some enc -> programs_ok msg progs ->
    (forall i tasks, nth_error progs i = Some tasks -> Forall2 (executes p k addr t ts) (spoken msg tasks) (items i)) ->
    (forall i x, In x (items i) -> says_statement X t (sd_time_args x) (sd_args x) (sd_frame x) (sd_time x) (sd_message x) /\ byte_text (sd_time x) /\
       exists s, line_of Y colors segs locs dir x = Ok s) ->
    forall d chunks s, enc = EncRzcobs \/ Forall calm progs -> device_reaches size enc msg progs d -> concat chunks = RttModel.r_delivered (d_chan d) ->
    s <> Stdin \/ Forall some_bytes chunks ->
    exists order evs buf ls, (forall i x, In (i, x) order -> (i < length progs)%nat) /\
      (forall i, (i < length progs)%nat -> exists more, items i = of_context i order ++ more) /\
      defmt_print false false s (Loads t) (HostSpec.reads chunks) = (map (Event t) evs, Running t buf) /\
      Forall2 (fun o s => line_of Y colors segs locs dir (snd o) = Ok s) order ls /\
      forall times, length times = length order -> exists o,
        print_events verbose X t locs dir skipped show (no_clock (text_sink Y colors segs host_segs verbose)) (combine times evs) = Ok o /\
        stderr_of o = [] /\ stdout_of o = as_lines ls.
Proof.
  intros p k OK L sec f B check t P X Y addr ts colors segs host_segs locs dir skipped show verbose size msg progs items enc S T En H1 Ex Rd d chunks s Cm R C Hs.
  rewrite (device_encoding p k OK L sec f B check t P) in En. injection En as En.
  apply (fun a b => format_so_far X Y addr t colors segs host_segs locs dir skipped show verbose size msg progs items enc H1 a En b Rd d chunks s Cm R C Hs).
  - exact (linked_safe p k OK L sec f B check t P S).
  - intros i tasks Ni. specialize (Ex i tasks Ni). clear - Ex OK L B P T. induction Ex; constructor; auto. eapply executed_says; eauto.
Qed.
