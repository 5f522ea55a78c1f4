(** From the macro invocations of a program to the terminal: programs that panic, and hosts that attach late (C66, C76). *)
From Verif Require Import Base Utf8 ParserModel DecoderModel DecoderPanic EncodeModel EncodeSpec EncodeTop Numerals DisplayModel TextSpec RzcobsModel StreamModel StreamSpec
  LogFormatModel LogFormatSpec LogFormatBuiltin SymbolModel SymbolProofs LocationModel SinkModel SinkSpec SinkMain HostModel HostSpec
  LoggerModel LoggerSpec LoggerMain DeviceModel DeviceSpec DeviceProofs DeviceLive DeviceRun DeviceMain SinkFormats
  HaltModel HaltProofs HaltLive HaltMain HaltFormats AttachModel AttachLife AttachLive AttachMain AttachFormats
  EnvFilterModel EnvFilterSpec TableModel TableSpec TableProofs TableMain FlagsModel FlagsSpec LinkModel LinkSpec LinkProofs LinkMain LinkTable LinkLevels LinkHost LinkDevice.
From Verif Require RttModel.

Theorem program_panic : forall p k, program_ok p -> link p = Ok k -> forall sec f, binary p k sec f ->
  forall check t, parse_elf check f = Ok (Some t) ->
  forall X Y addr ts colors segs host_segs locs dir skipped show verbose size msg progs items enc run who,
  program_safe p -> timestamp_is p ts -> chosen_encoding (p_features p) = Some enc ->
  programs_ok msg progs -> Forall brave progs -> (forall body, msg = Some body -> calm_body body) ->
  2 <= size ->
  (forall i tasks, nth_error progs i = Some tasks -> Forall2 (executes p k addr t ts) (spoken msg tasks) (items i)) ->
  (forall i x, In x (items i) -> says_statement X t (sd_time_args x) (sd_args x) (sd_frame x) (sd_time x) (sd_message x) /\ byte_text (sd_time x) /\
     exists s, line_of Y colors segs locs dir x = Ok s) ->
  device_boot size progs (run O) -> core_fair size enc msg run who -> single_core run who ->
  exists n, forall chunks hs, concat chunks = RttModel.r_delivered (d_chan (run n)) -> Forall some_bytes chunks ->
    exists order evs ls, (forall i x, In (i, x) order -> (i < length progs)%nat) /\
      (forall i, (i < length progs)%nat -> exists more, items i = of_context i order ++ more) /\
      defmt_print false false Stdin (Loads t) (HostSpec.reads chunks ++ Read (Ok []) :: hs) = (map (Event t) evs, Finished true) /\
      Forall2 (fun o s => line_of Y colors segs locs dir (snd o) = Ok s) order ls /\
      (forall times, length times = length order -> exists o,
        print_events verbose X t locs dir skipped show (no_clock (text_sink Y colors segs host_segs verbose)) (combine times evs) = Ok o /\
        stderr_of o = [] /\ stdout_of o = as_lines ls) /\
      (((forall m i, ~ panics_at run who m i) /\ forall i tasks, nth_error progs i = Some tasks -> panics tasks = false /\ items i = of_context i order) \/
       exists m i, panics_at run who m i /\ next_op (d_sys (run n)) i = Some OHalt /\ items i = of_context i order /\
         match msg with
         | Some body => concat (fst (attempt body)) <> [] -> exists above x above_lines line, order = above ++ [(i, x)] /\ ls = above_lines ++ [line] /\
             says addr t (fst (attempt body)) x /\ line_of Y colors segs locs dir x = Ok line
         | None => True
         end).
Proof.
  intros p k OK L sec f B check t P X Y addr ts colors segs host_segs locs dir skipped show verbose size msg progs items enc run who S T En H1 H2 H3 H4 Ex Rd Bt Fr Sc.
  rewrite (device_encoding p k OK L sec f B check t P) in En. injection En as En.
  apply (fun a b => panic_format X Y addr t colors segs host_segs locs dir skipped show verbose size msg progs items enc run who H1 H2 H3 H4 a En b Rd Bt Fr Sc).
  - exact (linked_safe p k OK L sec f B check t P S).
  - intros i tasks Ni. specialize (Ex i tasks Ni). clear - Ex OK L B P T. induction Ex; constructor; auto. eapply executed_says; eauto.
Qed.

Theorem program_late : forall p k, program_ok p -> link p = Ok k -> forall sec f, binary p k sec f ->
  forall check t, parse_elf check f = Ok (Some t) ->
  forall X Y addr ts colors segs host_segs locs dir skipped show verbose size msg progs items,
  program_safe p -> timestamp_is p ts -> chosen_encoding (p_features p) = Some EncRzcobs ->
  programs_ok msg progs ->
  (forall i tasks, nth_error progs i = Some tasks -> Forall2 (executes p k addr t ts) (spoken msg tasks) (items i)) ->
  (forall i x, In x (items i) -> says_statement X t (sd_time_args x) (sd_args x) (sd_frame x) (sd_time x) (sd_message x) /\ byte_text (sd_time x) /\
     exists s, line_of Y colors segs locs dir x = Ok s) ->
  forall run who d1, Forall calm progs -> 2 <= size -> lives size EncRzcobs msg progs d1 -> RttModel.r_connected (d_chan d1) = false ->
  run O = attach d1 -> session_fair size EncRzcobs msg run who ->
  exists n, forall chunks hs, concat chunks = RttModel.r_delivered (d_chan (run n)) -> Forall some_bytes chunks ->
    exists unseen seen missed order junk,
      out (d_sys (run n)) = transmitted EncRzcobs (map snd (unseen ++ seen)) /\
      (forall a x z, unseen = a ++ x :: z -> non_empty (concat (snd x)) = true ->
         (length (transmitted EncRzcobs (map snd a)) < length (out (d_sys d1)) - length (RttModel.data (RttModel.r_ops (d_chan d1))))%nat) /\
      Forall2 (fun h o => fst h = fst o /\ says addr t (snd h) (snd o)) (filter (fun h => non_empty (concat (snd h))) unseen) missed /\
      Forall2 (fun h o => fst h = fst o /\ says addr t (snd h) (snd o)) (filter (fun h => non_empty (concat (snd h))) seen) order /\ (length junk <= 1)%nat /\
      (forall i, (i < length progs)%nat -> items i = of_context i missed ++ of_context i order) /\
      defmt_print false false Stdin (Loads t) (HostSpec.reads chunks ++ Read (Ok []) :: hs) =
        (map (Event t) (junk ++ map EvFrame (map (fun o : nat * said => sd_frame (snd o)) order)), Finished true) /\
      exists ls, Forall2 (fun o s => line_of Y colors segs locs dir (snd o) = Ok s) order ls /\
      forall jt times o0, length jt = length junk -> length times = length order ->
      print_events verbose X t locs dir skipped show (no_clock (text_sink Y colors segs host_segs verbose))
        (combine jt junk) = Ok o0 ->
      exists o, print_events verbose X t locs dir skipped show (no_clock (text_sink Y colors segs host_segs verbose))
        (combine (jt ++ times) (junk ++ map EvFrame (map (fun o : nat * said => sd_frame (snd o)) order))) = Ok (o0 ++ o) /\ stderr_of o = [] /\
        stdout_of o = as_lines ls.
Proof.
  intros p k OK L sec f B check t P X Y addr ts colors segs host_segs locs dir skipped show verbose size msg progs items S T En H1 Ex Rd.
  rewrite (device_encoding p k OK L sec f B check t P) in En. injection En as En.
  apply (fun a b => late_format X Y addr t colors segs host_segs locs dir skipped show verbose size msg progs items H1 a En b Rd).
  - exact (linked_safe p k OK L sec f B check t P S).
  - intros i tasks Ni. specialize (Ex i tasks Ni). clear - Ex OK L B P T. induction Ex; constructor; auto. eapply executed_says; eauto.
Qed.
