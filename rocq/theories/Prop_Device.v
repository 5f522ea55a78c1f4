(** Properties C59 and C60: the whole way from the contexts of a device with defmt-rtt to the terminal. *)
From Verif Require Import Base Utf8 ParserModel DecoderModel DecoderPanic EncodeModel EncodeSpec DisplayModel RzcobsModel StreamModel
  LogFormatModel LogFormatSpec LogFormatBuiltin Prop_LogFormat SymbolModel LocationModel SinkModel SinkSpec SinkMain SinkExamples HostModel HostSpec
  LoggerModel LoggerSpec LoggerMain DeviceModel DeviceSpec DeviceProofs DeviceLive DeviceRun DeviceMain DeviceExamples.
From Verif Require RttModel RttProofs.

(** C59.  A context calls the channel only while no other call is in progress, and in the critical section. *)
Theorem C59_one_caller : forall size k msg progs, programs_ok msg progs -> forall d i d', device_reaches size k msg progs d ->
  device_step size k msg (DeviceModel.Context i) d d' -> RttModel.r_ops (d_chan d') <> RttModel.r_ops (d_chan d) ->
  returned (d_chan d) /\ owner (d_sys d) = Some i.
Proof. exact one_caller. Qed.
Print Assumptions C59_one_caller.

(** At every moment: what the host has, what it has not read yet, what the call in progress still
    has to write and its further pieces are together what the contexts have logged. *)
Theorem C59_lossless : forall size k msg progs, programs_ok msg progs -> forall d, device_reaches size k msg progs d ->
  reachable Rtt k msg progs (d_sys d) /\ RttModel.r_dev (d_chan d) <> RttModel.DFault /\
  exists unread, Z.of_nat (length unread) = (RttModel.r_write (d_chan d) - RttModel.r_read (d_chan d)) mod size /\
    RttProofs.holds size (RttModel.r_mem (d_chan d)) (RttModel.r_read (d_chan d)) unread /\
    RttModel.r_delivered (d_chan d) ++ unread ++ RttProofs.pending (RttModel.r_dev (d_chan d)) ++ RttModel.data (RttModel.r_ops (d_chan d)) = out (d_sys d).
Proof. exact device_lossless. Qed.
Print Assumptions C59_lossless.

(** When a flush returns, the host has everything that any context has logged. *)
Theorem C59_flushed : forall size k msg progs, programs_ok msg progs -> forall d d' r0, device_reaches size k msg progs d ->
  RttModel.r_dev (d_chan d) = RttModel.DFlushW r0 -> device_step size k msg Channel d d' -> RttModel.r_dev (d_chan d') = RttModel.DNext ->
  RttModel.r_delivered (d_chan d') = out (d_sys d').
Proof. exact device_flushed. Qed.
Print Assumptions C59_flushed.

Example C59_flushed_ex : exists r0, programs_ok None dev_progs /\ device_reaches 4 EncRzcobs None dev_progs (dev_run 264) /\
  RttModel.r_dev (d_chan (dev_run 264)) = RttModel.DFlushW r0 /\
  device_step 4 EncRzcobs None Channel (dev_run 264) (dev_run 265) /\ RttModel.r_dev (d_chan (dev_run 265)) = RttModel.DNext /\
  length (out (d_sys (dev_run 265))) = 13%nat.
Proof. destruct dev_flush as (r0 & A). exists r0. split; [exact dev_ok|]. split; [apply dev_reaches|exact A]. Qed.

(** In every fair run all contexts get to their ends, and the host gets everything. *)
Theorem C59_arrives : forall size k msg progs run who, programs_ok msg progs -> Forall calm progs -> 2 <= size ->
  device_boot size progs (run O) -> device_fair size k msg run who ->
  exists n, finished (d_sys (run n)) /\ returned (d_chan (run n)) /\ RttModel.r_delivered (d_chan (run n)) = out (d_sys (run n)).
Proof. exact everything_arrives. Qed.
Print Assumptions C59_arrives.

(** There is a fair run from every start. *)
Theorem C59_fair_exists : forall size k msg progs d, programs_ok msg progs -> 2 <= size -> device_boot size progs d ->
  exists run who, run O = d /\ device_fair size k msg run who.
Proof.
  intros size k msg progs d H1 H2 H3. exists (device_turns size k msg d), (turn_of size k msg d). split; [reflexivity|].
  exact (device_turns_fair size k msg progs d H1 H2 H3).
Qed.
Print Assumptions C59_fair_exists.

Example C59_ex : device_boot 4 dev_progs (dev_run 0) /\ Forall calm dev_progs /\
  (RttModel.r_delivered (d_chan (dev_run 200)) = firstn 10 (out (d_sys (dev_run 200))) /\ length (out (d_sys (dev_run 200))) = 11%nat /\
   owner (d_sys (dev_run 200)) = Some 0%nat /\ next_op (d_sys (dev_run 200)) 1 = Some OEnter) /\
  finished (d_sys (dev_run 500)) /\ RttModel.r_delivered (d_chan (dev_run 500)) = out (d_sys (dev_run 500)).
Proof. split; [exact dev_boots|]. split; [exact dev_calm|]. split; [exact dev_middle|]. split; apply dev_end. Qed.

(** C60.  At every moment of every run, defmt-print shows complete statements: one line for each, those of each context in
    the order of its program and without gaps.  In the raw encoding this is said of programs whose messages are not cut off by a panic. *)
Theorem C60_so_far : forall X Y addr tbl host_segs locs current_dir skipped size msg progs items k,
  programs_ok msg progs -> table_safe tbl -> t_encoding tbl = k -> external_ok Y -> wide_enough Y ->
  (forall i ts, nth_error progs i = Some ts -> Forall2 (says addr tbl) (spoken msg ts) (items i)) ->
  (forall i x, In x (items i) -> readable X Y tbl x) ->
  forall d chunks s, k = EncRzcobs \/ Forall calm progs -> device_reaches size k msg progs d -> concat chunks = RttModel.r_delivered (d_chan d) ->
  s <> Stdin \/ Forall some_bytes chunks ->
  exists order evs buf, (forall i x, In (i, x) order -> (i < length progs)%nat) /\
    (forall i, (i < length progs)%nat -> exists more, items i = of_context i order ++ more) /\
    defmt_print false false s (Loads tbl) (HostSpec.reads chunks) = (map (Event tbl) evs, Running tbl buf) /\
    forall times, length times = length order -> exists o,
      print_events false X tbl locs current_dir skipped false
        (no_clock (text_sink Y false (builtin_segments FDefault false (match t_timestamp tbl with Some _ => true | None => false end) false) host_segs false))
        (combine times evs) = Ok o /\ stderr_of o = [] /\
      stdout_of o = as_lines (map (fun o => line_for tbl (snd o)) order).
Proof. exact shown_so_far. Qed.
Print Assumptions C60_so_far.

(** In every fair run there comes the moment when all statements of all contexts are shown, each in one line and nothing else. *)
Theorem C60_terminal : forall X Y addr tbl host_segs locs current_dir skipped size msg progs items k run who,
  programs_ok msg progs -> Forall calm progs -> 2 <= size -> table_safe tbl -> t_encoding tbl = k -> external_ok Y -> wide_enough Y ->
  (forall i ts, nth_error progs i = Some ts -> Forall2 (says addr tbl) (spoken msg ts) (items i)) ->
  (forall i x, In x (items i) -> readable X Y tbl x) ->
  device_boot size progs (run O) -> device_fair size k msg run who ->
  exists n, forall chunks hs, concat chunks = RttModel.r_delivered (d_chan (run n)) -> Forall some_bytes chunks ->
    exists order evs, (forall i x, In (i, x) order -> (i < length progs)%nat) /\
      (forall i, (i < length progs)%nat -> items i = of_context i order) /\
      defmt_print false false Stdin (Loads tbl) (HostSpec.reads chunks ++ Read (Ok []) :: hs) = (map (Event tbl) evs, Finished true) /\
      forall times, length times = length order -> exists o,
        print_events false X tbl locs current_dir skipped false
          (no_clock (text_sink Y false (builtin_segments FDefault false (match t_timestamp tbl with Some _ => true | None => false end) false) host_segs false))
          (combine times evs) = Ok o /\ stderr_of o = [] /\
        stdout_of o = as_lines (map (fun o => line_for tbl (snd o)) order).
Proof. exact terminal_complete. Qed.
Print Assumptions C60_terminal.

Example C60_ex : programs_ok None dev_progs /\ Forall calm dev_progs /\ table_safe sink_prog /\ t_encoding sink_prog = EncRzcobs /\ external_ok Y0 /\ wide_enough Y0 /\
  (forall i ts, nth_error dev_progs i = Some ts -> Forall2 (says sink_addr sink_prog) (spoken None ts) (dev_items i)) /\
  (forall i x, In x (dev_items i) -> readable D0 Y0 sink_prog x) /\
  device_boot 4 dev_progs (dev_run 0) /\ device_fair 4 EncRzcobs None dev_run (turn_of 4 EncRzcobs None dev_start) /\
  fst (defmt_print false false Stdin (Loads sink_prog) (HostSpec.reads (map (fun b => [b]) (RttModel.r_delivered (d_chan (dev_run 500)))) ++ [Read (Ok [])])) =
    map (Event sink_prog) (map EvFrame (map sd_frame (dev_items 0 ++ dev_items 1))) /\
  map (line_for sink_prog) (dev_items 0 ++ dev_items 1) = [lit "0.005000 WARN  x = 200 a""b"; lit "hi"].
Proof.
  split; [exact dev_ok|]. split; [exact dev_calm|]. split; [exact sink_safe|]. split; [reflexivity|]. split; [exact Prop_LogFormat.X0_ok|]. split; [vm_compute; discriminate|].
  split; [exact dev_says|]. split; [exact dev_readable|]. split; [exact dev_boots|]. split; [exact dev_fair|]. split; apply dev_end.
Qed.

(** With the raw encoding: a message that has come in part is not shown, in the end both are. *)
Example C60_raw_ex : device_fair 4 EncRaw None raw_dev (turn_of 4 EncRaw None dev_start) /\
  RttModel.r_delivered (d_chan (raw_dev 600)) = concat (map (@concat Z) sink_writes) /\
  length (RttModel.r_delivered (d_chan (raw_dev 400))) = 21%nat /\
  fst (defmt_print false false Tcp (Loads raw_prog) (HostSpec.reads [RttModel.r_delivered (d_chan (raw_dev 400))])) =
    map (Event raw_prog) (map EvFrame (map sd_frame (dev_items 0))) /\
  fst (defmt_print false false Stdin (Loads raw_prog) (HostSpec.reads (map (fun b => [b]) (RttModel.r_delivered (d_chan (raw_dev 600)))) ++ [Read (Ok [])])) =
    map (Event raw_prog) (map EvFrame (map sd_frame (dev_items 0 ++ dev_items 1))).
Proof. split; [exact raw_dev_fair|]. apply raw_dev_end. Qed.
