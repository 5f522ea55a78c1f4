(** Property C76: the message of a panic is the last line of the terminal. *)
From Verif Require Import Base Utf8 ParserModel DecoderModel DecoderPanic DisplayExamples EncodeModel EncodeSpec EncodeTop DisplayModel TextSpec RzcobsModel StreamModel
  LogFormatModel LogFormatSpec LogFormatBuiltin LogFormatExamples Prop_LogFormat SymbolModel LocationModel SinkModel SinkSpec SinkMain SinkExamples HostModel HostSpec
  LoggerModel LoggerSpec LoggerMain DeviceModel DeviceSpec DeviceProofs DeviceLive DeviceRun DeviceMain DeviceExamples HaltModel HaltProofs HaltLive HaltRun HaltMain HaltExamples SinkFormats ProgramJson HaltFormats.
From Verif Require RttModel SchemaModel.

(** C76.  With each of the three loggers, and whatever the other contexts are doing: a context that panics between log statements, and
    that is not waiting for the critical section of another one, gets to the hard fault, having sent its own earlier messages and the panic message whole. *)
Theorem C76_words : forall lg k msg progs s i, programs_ok msg progs -> Forall brave progs -> (forall body, msg = Some body -> calm_body body) ->
  reachable lg k msg progs s -> panicked s = false -> next_op s i = Some OPanic -> owner s = None \/ owner s = Some i ->
  exists n s' hist ts, solo lg k msg i n s = Some s' /\ (0 < n)%nat /\ next_op s' i = Some OHalt /\ panicked s' = true /\ taken s' = false /\
    nth_error progs i = Some ts /\ panics ts = true /\
    out s' = transmitted k (map snd (hist ++ last_words msg i)) /\
    (forall j w, In (j, w) hist -> (j < length progs)%nat) /\
    attempts msg ts = complete (by_ctx i (hist ++ last_words msg i)) /\
    forall j tj, nth_error progs j = Some tj -> exists more, attempts msg tj = complete (by_ctx j (hist ++ last_words msg i)) ++ more.
Proof. exact words_of_panic. Qed.
Print Assumptions C76_words.

(** In every fair run on one core there comes the moment when the host has everything; then either nobody has panicked and
    all are at their ends, or the one that panicked is in the hard fault and its message was the last one. *)
Theorem C76_rest : forall size k msg progs run who, programs_ok msg progs -> Forall brave progs -> (forall body, msg = Some body -> calm_body body) ->
  2 <= size -> device_boot size progs (run O) -> core_fair size k msg run who -> single_core run who ->
  exists n, returned (d_chan (run n)) /\ RttModel.r_delivered (d_chan (run n)) = out (d_sys (run n)) /\
    ((panicked (d_sys (run n)) = false /\ finished (d_sys (run n)) /\
      exists hist, out (d_sys (run n)) = transmitted k (map snd hist) /\ (forall j w, In (j, w) hist -> (j < length progs)%nat) /\
        forall i ts, nth_error progs i = Some ts -> panics ts = false /\ attempts msg ts = complete (by_ctx i hist)) \/
     exists t i ts hist, (t < n)%nat /\ panics_at run who t i /\ next_op (d_sys (run n)) i = Some OHalt /\ nth_error progs i = Some ts /\ panics ts = true /\
       out (d_sys (run n)) = transmitted k (map snd (hist ++ last_words msg i)) /\ (forall j w, In (j, w) hist -> (j < length progs)%nat) /\
       attempts msg ts = complete (by_ctx i (hist ++ last_words msg i)) /\
       forall j tj, nth_error progs j = Some tj -> exists more, attempts msg tj = complete (by_ctx j (hist ++ last_words msg i)) ++ more).
Proof. exact comes_to_rest. Qed.
Print Assumptions C76_rest.

(** The terminal at this moment: one line for each statement; after a panic the last one is the panic message. *)
Theorem C76_terminal : forall X Y addr tbl host_segs locs current_dir skipped size msg progs items k run who,
  programs_ok msg progs -> Forall brave progs -> (forall body, msg = Some body -> calm_body body) ->
  2 <= size -> table_safe tbl -> t_encoding tbl = k -> external_ok Y -> wide_enough Y ->
  (forall i ts, nth_error progs i = Some ts -> Forall2 (says addr tbl) (spoken msg ts) (items i)) ->
  (forall i x, In x (items i) -> readable X Y tbl x) ->
  device_boot size progs (run O) -> core_fair size k msg run who -> single_core run who ->
  exists n, forall chunks hs, concat chunks = RttModel.r_delivered (d_chan (run n)) -> Forall some_bytes chunks ->
    exists order evs, (forall i x, In (i, x) order -> (i < length progs)%nat) /\
      (forall i, (i < length progs)%nat -> exists more, items i = of_context i order ++ more) /\
      defmt_print false false Stdin (Loads tbl) (HostSpec.reads chunks ++ Read (Ok []) :: hs) = (map (Event tbl) evs, Finished true) /\
      (forall times, length times = length order -> exists o,
        print_events false X tbl locs current_dir skipped false
          (no_clock (text_sink Y false (builtin_segments FDefault false (match t_timestamp tbl with Some _ => true | None => false end) false) host_segs false))
          (combine times evs) = Ok o /\ stderr_of o = [] /\
        stdout_of o = as_lines (map (fun o => line_for tbl (snd o)) order)) /\
      (((forall t i, ~ panics_at run who t i) /\ forall i ts, nth_error progs i = Some ts -> panics ts = false /\ items i = of_context i order) \/
       exists t i, panics_at run who t i /\ next_op (d_sys (run n)) i = Some OHalt /\ items i = of_context i order /\
         match msg with
         | Some body => concat (fst (attempt body)) <> [] -> exists above x, order = above ++ [(i, x)] /\ says addr tbl (fst (attempt body)) x
         | None => True
         end).
Proof. exact panic_shown. Qed.
Print Assumptions C76_terminal.

(** The same in any log format, with or without colours: the last line is that of the panic message. *)
Theorem C76_format : forall X Y addr tbl colors segs host_segs locs dir skipped show verbose size msg progs items k run who,
  programs_ok msg progs -> Forall brave progs -> (forall body, msg = Some body -> calm_body body) ->
  2 <= size -> table_safe tbl -> t_encoding tbl = k ->
  (forall i ts, nth_error progs i = Some ts -> Forall2 (says addr tbl) (spoken msg ts) (items i)) ->
  (forall i x, In x (items i) -> says_statement X tbl (sd_time_args x) (sd_args x) (sd_frame x) (sd_time x) (sd_message x) /\ byte_text (sd_time x) /\
     exists s, line_of Y colors segs locs dir x = Ok s) ->
  device_boot size progs (run O) -> core_fair size k msg run who -> single_core run who ->
  exists n, forall chunks hs, concat chunks = RttModel.r_delivered (d_chan (run n)) -> Forall some_bytes chunks ->
    exists order evs ls, (forall i x, In (i, x) order -> (i < length progs)%nat) /\
      (forall i, (i < length progs)%nat -> exists more, items i = of_context i order ++ more) /\
      defmt_print false false Stdin (Loads tbl) (HostSpec.reads chunks ++ Read (Ok []) :: hs) = (map (Event tbl) evs, Finished true) /\
      Forall2 (fun o s => line_of Y colors segs locs dir (snd o) = Ok s) order ls /\
      (forall times, length times = length order -> exists o,
        print_events verbose X tbl locs dir skipped show (no_clock (text_sink Y colors segs host_segs verbose)) (combine times evs) = Ok o /\
        stderr_of o = [] /\ stdout_of o = as_lines ls) /\
      (((forall t i, ~ panics_at run who t i) /\ forall i ts, nth_error progs i = Some ts -> panics ts = false /\ items i = of_context i order) \/
       exists t i, panics_at run who t i /\ next_op (d_sys (run n)) i = Some OHalt /\ items i = of_context i order /\
         match msg with
         | Some body => concat (fst (attempt body)) <> [] -> exists above x above_lines line, order = above ++ [(i, x)] /\ ls = above_lines ++ [line] /\
             says addr tbl (fst (attempt body)) x /\ line_of Y colors segs locs dir x = Ok line
         | None => True
         end).
Proof. exact panic_format. Qed.
Print Assumptions C76_format.

(** With --json: a consumer reads back these statements, and after a panic the last one is the panic message. *)
Theorem C76_json : forall X Y addr tbl host_segs locs dir skipped size msg progs items k run who,
  programs_ok msg progs -> Forall brave progs -> (forall body, msg = Some body -> calm_body body) ->
  2 <= size -> table_safe tbl -> t_encoding tbl = k -> locs_text locs dir ->
  (forall i ts, nth_error progs i = Some ts -> Forall2 (says addr tbl) (spoken msg ts) (items i)) ->
  (forall i x, In x (items i) -> tellable X tbl x) ->
  device_boot size progs (run O) -> core_fair size k msg run who -> single_core run who ->
  exists n, forall chunks hs, concat chunks = RttModel.r_delivered (d_chan (run n)) -> Forall some_bytes chunks ->
    exists order evs, (forall i x, In (i, x) order -> (i < length progs)%nat) /\
      (forall i, (i < length progs)%nat -> exists more, items i = of_context i order ++ more) /\
      defmt_print false true Stdin (Loads tbl) (HostSpec.reads chunks ++ Read (Ok []) :: hs) = (Schema :: map (Event tbl) evs, Finished true) /\
      (forall times, Forall (fun now => - 2 ^ 63 <= now) times -> length times = length order -> exists out fs,
        print_events false X tbl locs dir skipped false (json_sink Y false host_segs false) (combine times evs) = Ok out /\
        SchemaModel.read_output (schema_line ++ stdout_of out) = Ok fs /\ Forall2 (tells_of locs dir) (combine order times) fs) /\
      (((forall t i, ~ panics_at run who t i) /\ forall i ts, nth_error progs i = Some ts -> panics ts = false /\ items i = of_context i order) \/
       exists t i, panics_at run who t i /\ next_op (d_sys (run n)) i = Some OHalt /\ items i = of_context i order /\
         match msg with
         | Some body => concat (fst (attempt body)) <> [] -> exists above x, order = above ++ [(i, x)] /\ says addr tbl (fst (attempt body)) x
         | None => True
         end).
Proof. exact panic_told. Qed.
Print Assumptions C76_json.

(** There are such runs for every such device. *)
Theorem C76_fair_exists : forall size k msg progs d0, programs_ok msg progs -> Forall (fun ts => existsb is_halt (comp Rtt ts) = false) progs ->
  2 <= size -> device_boot size progs d0 ->
  core_fair size k msg (core_turns size k msg core_free d0) (core_who size k msg core_free d0) /\
  single_core (core_turns size k msg core_free d0) (core_who size k msg core_free d0).
Proof. exact core_turns_fair. Qed.
Print Assumptions C76_fair_exists.

Example C76_ex : programs_ok halt_msg halt_progs /\ Forall brave halt_progs /\ (forall body, halt_msg = Some body -> calm_body body) /\
  table_safe sink_prog /\ t_encoding sink_prog = EncRzcobs /\ external_ok Y0 /\ wide_enough Y0 /\
  (forall i ts, nth_error halt_progs i = Some ts -> Forall2 (says sink_addr sink_prog) (spoken halt_msg ts) (halt_items i)) /\
  (forall i x, In x (halt_items i) -> readable D0 Y0 sink_prog x) /\
  device_boot 4 halt_progs (halt_run 0) /\ core_fair 4 EncRzcobs halt_msg halt_run halt_who /\ single_core halt_run halt_who /\
  (exists t, panics_at halt_run halt_who t 0) /\ next_op (d_sys (halt_run 500)) 0 = Some OHalt /\ next_op (d_sys (halt_run 500)) 1 = Some OWork /\
  fst (defmt_print false false Stdin (Loads sink_prog) (HostSpec.reads (map (fun b => [b]) (RttModel.r_delivered (d_chan (halt_run 500)))) ++ [Read (Ok [])])) =
    map (Event sink_prog) (map EvFrame (map sd_frame (dev_items 0 ++ dev_items 1))) /\
  map (line_for sink_prog) (dev_items 0 ++ dev_items 1) = [lit "0.005000 WARN  x = 200 a""b"; lit "hi"].
Proof.
  split; [exact halt_ok|]. split; [exact halt_brave|]. split; [exact halt_calm|]. split; [exact sink_safe|]. split; [reflexivity|]. split; [exact Prop_LogFormat.X0_ok|].
  split; [vm_compute; discriminate|]. split; [exact halt_says|]. split; [exact halt_readable|]. split; [exact halt_boots|]. split; [apply halt_fair|]. split; [apply halt_fair|]. exact halt_end.
Qed.

Example C76_format_ex : (forall i x, In x (halt_items i) -> says_statement D0 sink_prog (sd_time_args x) (sd_args x) (sd_frame x) (sd_time x) (sd_message x) /\
    byte_text (sd_time x) /\ exists s, line_of Y0 true (builtin_segments FOneLine true true false) sink_locs (lit "/w") x = Ok s) /\
  (forall i x, In x (halt_items i) -> tellable D0 sink_prog x).
Proof.
  assert (E : forall i x, In x (halt_items i) -> byte_text (sd_message x) /\ exists s, line_of Y0 true (builtin_segments FOneLine true true false) sink_locs (lit "/w") x = Ok s).
  { intros i x H. destruct i as [|[|i]]; cbn in H; repeat (destruct H as [<-|H]; [split; [vm_compute; repeat constructor; discriminate|eexists; vm_compute; reflexivity]|]); destruct H. }
  split; intros i x H; destruct (halt_readable i x H) as (A & _ & B & _); destruct (E i x H) as (C & D); [split; [exact A|split; [exact B|exact D]]|].
  split; [exact A|split; [exact B|exact C]].
Qed.

(** A panic inside a log statement (in the user code of a [Format] implementation, say) prints nothing: the handler's own log statement
    finds the logger taken, and no context ever sends a byte again. *)
Theorem C76_inside : forall lg k msg progs s i s1, programs_ok msg progs -> reachable lg k msg progs s ->
  next_op s i = Some OPanic -> owner s = Some i -> taken s = true -> step lg k msg i s = Some s1 ->
  forall n s', runs lg k msg n s1 s' -> out s' = out s.
Proof. exact panic_inside. Qed.
Print Assumptions C76_inside.

Example C76_inside_ex : exists s s1 s2 n, programs_ok inside_msg inside_progs /\ reachable Rtt EncRzcobs inside_msg inside_progs s /\
  next_op s 0 = Some OPanic /\ owner s = Some 0%nat /\ taken s = true /\
  step Rtt EncRzcobs inside_msg 0 s = Some s1 /\ runs Rtt EncRzcobs inside_msg n s1 s2 /\
  next_op s2 0 = Some OHalt /\ (forall i, step Rtt EncRzcobs inside_msg i s2 = None) /\ out s2 = [0; 1].
Proof. exact inside_ex. Qed.
