(** Property C66: a host that attaches to a device that is already running. *)
From Verif Require Import Base Utf8 ParserModel DecoderModel DecoderPanic EncodeModel EncodeSpec EncodeTop DisplayModel TextSpec RzcobsModel StreamModel StreamSpec
  LogFormatModel LogFormatSpec LogFormatBuiltin Prop_LogFormat SymbolModel LocationModel SinkModel SinkSpec SinkMain SinkExamples HostModel HostSpec
  LoggerModel LoggerSpec LoggerMain DeviceModel DeviceSpec DeviceProofs DeviceLive DeviceRun DeviceMain DeviceExamples
  AttachModel AttachLife AttachLive AttachRun AttachMain AttachExamples SinkFormats ProgramJson AttachFormats.
From Verif Require RttModel RttProofs SchemaModel.

(** At every moment of every session, what the host has got is one gapless piece of what the
    contexts have logged; everything written after attaching is in it or still to come, and
    nothing that was logged before the session is shown twice. *)
Theorem C66_piece : forall size k msg progs, programs_ok msg progs -> forall d1 d, lives size k msg progs d1 -> RttModel.r_connected (d_chan d1) = false ->
  session size k msg (attach d1) d -> reachable Rtt k msg progs (d_sys d) /\ RttModel.r_dev (d_chan d) <> RttModel.DFault /\
  exists lost x rest, lost ++ x ++ RttModel.data (RttModel.r_ops (d_chan d1)) = out (d_sys d1) /\
    out (d_sys d) = lost ++ RttModel.r_delivered (d_chan d) ++ rest /\
    (trimming (RttModel.r_dev (d_chan d)) = false ->
     exists unread, rest = unread ++ RttProofs.pending (RttModel.r_dev (d_chan d)) ++ RttModel.data (RttModel.r_ops (d_chan d)) /\
       Z.of_nat (length unread) = (RttModel.r_write (d_chan d) - RttModel.r_read (d_chan d)) mod size /\
       RttProofs.holds size (RttModel.r_mem (d_chan d)) (RttModel.r_read (d_chan d)) unread).
Proof. exact session_piece. Qed.
Print Assumptions C66_piece.

(** The first host gets everything from the start if what was logged before it came fits into the buffer. *)
Theorem C66_early : forall size k msg progs, programs_ok msg progs -> forall d0 d1 d, reset size progs d0 ->
  session size k msg d0 d1 -> session size k msg (attach d1) d -> Z.of_nat (length (out (d_sys d1))) < size ->
  exists rest, out (d_sys d) = RttModel.r_delivered (d_chan d) ++ rest.
Proof. exact early_kept. Qed.
Print Assumptions C66_early.

(** In every fair session all contexts get to their ends, and the host gets everything from some point not later than the attaching. *)
Theorem C66_arrives : forall size k msg progs run who d1, programs_ok msg progs -> Forall calm progs -> 2 <= size ->
  lives size k msg progs d1 -> RttModel.r_connected (d_chan d1) = false -> run O = attach d1 -> session_fair size k msg run who ->
  exists n lost x, lost ++ x ++ RttModel.data (RttModel.r_ops (d_chan d1)) = out (d_sys d1) /\
    finished (d_sys (run n)) /\ returned (d_chan (run n)) /\ out (d_sys (run n)) = lost ++ RttModel.r_delivered (d_chan (run n)).
Proof. exact late_arrives. Qed.
Print Assumptions C66_arrives.

(** There is a fair session from every moment at which a host can attach. *)
Theorem C66_fair_exists : forall size k msg progs, programs_ok msg progs -> 2 <= size ->
  forall d1, lives size k msg progs d1 -> RttModel.r_connected (d_chan d1) = false -> exists run who, run O = attach d1 /\ session_fair size k msg run who.
Proof. exact session_exists. Qed.
Print Assumptions C66_fair_exists.

(** At every moment of a session, defmt-print shows at most one event for the remains of a message, and then complete
    statements, one line for each.  Every statement that is not shown, other than the last ones that are still on their way,
    had begun before the host attached. *)
Theorem C66_shown : forall X Y addr tbl host_segs locs current_dir skipped size msg progs items,
  programs_ok msg progs -> table_safe tbl -> t_encoding tbl = EncRzcobs -> external_ok Y -> wide_enough Y ->
  (forall i ts, nth_error progs i = Some ts -> Forall2 (says addr tbl) (spoken msg ts) (items i)) ->
  (forall i x, In x (items i) -> readable X Y tbl x) ->
  forall d1 d chunks s, lives size EncRzcobs msg progs d1 -> RttModel.r_connected (d_chan d1) = false ->
  session size EncRzcobs msg (attach d1) d -> concat chunks = RttModel.r_delivered (d_chan d) -> s <> Stdin \/ Forall some_bytes chunks ->
  exists open hist unseen seen later order junk buf, hist = unseen ++ seen ++ later /\
    out (d_sys d) = match open with None => transmitted EncRzcobs (map snd hist) | Some w => transmitted_part EncRzcobs (map snd hist) w end /\
    (forall i ts, nth_error progs i = Some ts -> exists more, attempts msg ts = complete (by_ctx i hist) ++ more) /\
    (forall a x z, unseen = a ++ x :: z -> non_empty (concat (snd x)) = true ->
       (length (transmitted EncRzcobs (map snd a)) < length (out (d_sys d1)) - length (RttModel.data (RttModel.r_ops (d_chan d1))))%nat) /\
    Forall2 (fun h o => fst h = fst o /\ says addr tbl (snd h) (snd o)) (filter (fun h => non_empty (concat (snd h))) seen) order /\ (length junk <= 1)%nat /\
    defmt_print false false s (Loads tbl) (HostSpec.reads chunks) =
      (map (Event tbl) (junk ++ map EvFrame (map (fun o : nat * said => sd_frame (snd o)) order)), Running tbl buf) /\
    forall jt times o0, length jt = length junk -> length times = length order ->
      print_events false X tbl locs current_dir skipped false
        (no_clock (text_sink Y false (builtin_segments FDefault false (match t_timestamp tbl with Some _ => true | None => false end) false) host_segs false))
        (combine jt junk) = Ok o0 ->
      exists o, print_events false X tbl locs current_dir skipped false
        (no_clock (text_sink Y false (builtin_segments FDefault false (match t_timestamp tbl with Some _ => true | None => false end) false) host_segs false))
        (combine (jt ++ times) (junk ++ map EvFrame (map (fun o : nat * said => sd_frame (snd o)) order))) = Ok (o0 ++ o) /\ stderr_of o = [] /\
        stdout_of o = as_lines (map (fun o : nat * said => line_for tbl (snd o)) order).
Proof. exact session_shown. Qed.
Print Assumptions C66_shown.

(** In every fair session there comes the moment when each statement is either shown or had begun before the host attached:
    those of each context are a first part that is not shown and a second part that is. *)
Theorem C66_terminal : forall X Y addr tbl host_segs locs current_dir skipped size msg progs items,
  programs_ok msg progs -> table_safe tbl -> t_encoding tbl = EncRzcobs -> external_ok Y -> wide_enough Y ->
  (forall i ts, nth_error progs i = Some ts -> Forall2 (says addr tbl) (spoken msg ts) (items i)) ->
  (forall i x, In x (items i) -> readable X Y tbl x) ->
  forall run who d1, Forall calm progs -> 2 <= size -> lives size EncRzcobs msg progs d1 -> RttModel.r_connected (d_chan d1) = false ->
  run O = attach d1 -> session_fair size EncRzcobs msg run who ->
  exists n, forall chunks hs, concat chunks = RttModel.r_delivered (d_chan (run n)) -> Forall some_bytes chunks ->
    exists unseen seen missed order junk,
      out (d_sys (run n)) = transmitted EncRzcobs (map snd (unseen ++ seen)) /\
      (forall a x z, unseen = a ++ x :: z -> non_empty (concat (snd x)) = true ->
         (length (transmitted EncRzcobs (map snd a)) < length (out (d_sys d1)) - length (RttModel.data (RttModel.r_ops (d_chan d1))))%nat) /\
      Forall2 (fun h o => fst h = fst o /\ says addr tbl (snd h) (snd o)) (filter (fun h => non_empty (concat (snd h))) unseen) missed /\
      Forall2 (fun h o => fst h = fst o /\ says addr tbl (snd h) (snd o)) (filter (fun h => non_empty (concat (snd h))) seen) order /\ (length junk <= 1)%nat /\
      (forall i, (i < length progs)%nat -> items i = of_context i missed ++ of_context i order) /\
      defmt_print false false Stdin (Loads tbl) (HostSpec.reads chunks ++ Read (Ok []) :: hs) =
        (map (Event tbl) (junk ++ map EvFrame (map (fun o : nat * said => sd_frame (snd o)) order)), Finished true) /\
      forall jt times o0, length jt = length junk -> length times = length order ->
      print_events false X tbl locs current_dir skipped false
        (no_clock (text_sink Y false (builtin_segments FDefault false (match t_timestamp tbl with Some _ => true | None => false end) false) host_segs false))
        (combine jt junk) = Ok o0 ->
      exists o, print_events false X tbl locs current_dir skipped false
        (no_clock (text_sink Y false (builtin_segments FDefault false (match t_timestamp tbl with Some _ => true | None => false end) false) host_segs false))
        (combine (jt ++ times) (junk ++ map EvFrame (map (fun o : nat * said => sd_frame (snd o)) order))) = Ok (o0 ++ o) /\ stderr_of o = [] /\
        stdout_of o = as_lines (map (fun o : nat * said => line_for tbl (snd o)) order).
Proof. exact late_terminal. Qed.
Print Assumptions C66_terminal.

(** Everything is shown, and nothing else, when all that was logged before the first host came fits into the buffer. *)
Theorem C66_early_terminal : forall X Y addr tbl host_segs locs current_dir skipped size msg progs items,
  programs_ok msg progs -> table_safe tbl -> t_encoding tbl = EncRzcobs -> external_ok Y -> wide_enough Y ->
  (forall i ts, nth_error progs i = Some ts -> Forall2 (says addr tbl) (spoken msg ts) (items i)) ->
  (forall i x, In x (items i) -> readable X Y tbl x) ->
  forall run who d0 d1, Forall calm progs -> 2 <= size -> reset size progs d0 -> session size EncRzcobs msg d0 d1 ->
  Z.of_nat (length (out (d_sys d1))) < size -> run O = attach d1 -> session_fair size EncRzcobs msg run who ->
  exists n, forall chunks hs, concat chunks = RttModel.r_delivered (d_chan (run n)) -> Forall some_bytes chunks ->
    exists order, (forall i, (i < length progs)%nat -> items i = of_context i order) /\
      defmt_print false false Stdin (Loads tbl) (HostSpec.reads chunks ++ Read (Ok []) :: hs) =
        (map (Event tbl) (map EvFrame (map (fun o : nat * said => sd_frame (snd o)) order)), Finished true) /\
      forall times, length times = length order ->
        exists o, print_events false X tbl locs current_dir skipped false
          (no_clock (text_sink Y false (builtin_segments FDefault false (match t_timestamp tbl with Some _ => true | None => false end) false) host_segs false))
          (combine times (map EvFrame (map (fun o : nat * said => sd_frame (snd o)) order))) = Ok o /\ stderr_of o = [] /\
          stdout_of o = as_lines (map (fun o : nat * said => line_for tbl (snd o)) order).
Proof. exact early_terminal. Qed.
Print Assumptions C66_early_terminal.

(** The three statements above in any log format, with or without colours.  At every moment of a session: *)
Theorem C66_shown_format : forall X Y addr tbl colors segs host_segs locs dir skipped show verbose size msg progs items,
  programs_ok msg progs -> table_safe tbl -> t_encoding tbl = EncRzcobs ->
  (forall i ts, nth_error progs i = Some ts -> Forall2 (says addr tbl) (spoken msg ts) (items i)) ->
  (forall i x, In x (items i) -> says_statement X tbl (sd_time_args x) (sd_args x) (sd_frame x) (sd_time x) (sd_message x) /\ byte_text (sd_time x) /\
     exists s, line_of Y colors segs locs dir x = Ok s) ->
  forall d1 d chunks s, lives size EncRzcobs msg progs d1 -> RttModel.r_connected (d_chan d1) = false ->
  session size EncRzcobs msg (attach d1) d -> concat chunks = RttModel.r_delivered (d_chan d) -> s <> Stdin \/ Forall some_bytes chunks ->
  exists open hist unseen seen later order junk buf, hist = unseen ++ seen ++ later /\
    out (d_sys d) = match open with None => transmitted EncRzcobs (map snd hist) | Some w => transmitted_part EncRzcobs (map snd hist) w end /\
    (forall i ts, nth_error progs i = Some ts -> exists more, attempts msg ts = complete (by_ctx i hist) ++ more) /\
    (forall a x z, unseen = a ++ x :: z -> non_empty (concat (snd x)) = true ->
       (length (transmitted EncRzcobs (map snd a)) < length (out (d_sys d1)) - length (RttModel.data (RttModel.r_ops (d_chan d1))))%nat) /\
    Forall2 (fun h o => fst h = fst o /\ says addr tbl (snd h) (snd o)) (filter (fun h => non_empty (concat (snd h))) seen) order /\ (length junk <= 1)%nat /\
    defmt_print false false s (Loads tbl) (HostSpec.reads chunks) =
      (map (Event tbl) (junk ++ map EvFrame (map (fun o : nat * said => sd_frame (snd o)) order)), Running tbl buf) /\
    exists ls, Forall2 (fun o s => line_of Y colors segs locs dir (snd o) = Ok s) order ls /\
      forall jt times o0, length jt = length junk -> length times = length order ->
      print_events verbose X tbl locs dir skipped show (no_clock (text_sink Y colors segs host_segs verbose))
        (combine jt junk) = Ok o0 ->
      exists o, print_events verbose X tbl locs dir skipped show (no_clock (text_sink Y colors segs host_segs verbose))
        (combine (jt ++ times) (junk ++ map EvFrame (map (fun o : nat * said => sd_frame (snd o)) order))) = Ok (o0 ++ o) /\ stderr_of o = [] /\
        stdout_of o = as_lines ls.
Proof. exact session_format. Qed.
Print Assumptions C66_shown_format.

(** In the end: *)
Theorem C66_format : forall X Y addr tbl colors segs host_segs locs dir skipped show verbose size msg progs items,
  programs_ok msg progs -> table_safe tbl -> t_encoding tbl = EncRzcobs ->
  (forall i ts, nth_error progs i = Some ts -> Forall2 (says addr tbl) (spoken msg ts) (items i)) ->
  (forall i x, In x (items i) -> says_statement X tbl (sd_time_args x) (sd_args x) (sd_frame x) (sd_time x) (sd_message x) /\ byte_text (sd_time x) /\
     exists s, line_of Y colors segs locs dir x = Ok s) ->
  forall run who d1, Forall calm progs -> 2 <= size -> lives size EncRzcobs msg progs d1 -> RttModel.r_connected (d_chan d1) = false ->
  run O = attach d1 -> session_fair size EncRzcobs msg run who ->
  exists n, forall chunks hs, concat chunks = RttModel.r_delivered (d_chan (run n)) -> Forall some_bytes chunks ->
    exists unseen seen missed order junk,
      out (d_sys (run n)) = transmitted EncRzcobs (map snd (unseen ++ seen)) /\
      (forall a x z, unseen = a ++ x :: z -> non_empty (concat (snd x)) = true ->
         (length (transmitted EncRzcobs (map snd a)) < length (out (d_sys d1)) - length (RttModel.data (RttModel.r_ops (d_chan d1))))%nat) /\
      Forall2 (fun h o => fst h = fst o /\ says addr tbl (snd h) (snd o)) (filter (fun h => non_empty (concat (snd h))) unseen) missed /\
      Forall2 (fun h o => fst h = fst o /\ says addr tbl (snd h) (snd o)) (filter (fun h => non_empty (concat (snd h))) seen) order /\ (length junk <= 1)%nat /\
      (forall i, (i < length progs)%nat -> items i = of_context i missed ++ of_context i order) /\
      defmt_print false false Stdin (Loads tbl) (HostSpec.reads chunks ++ Read (Ok []) :: hs) =
        (map (Event tbl) (junk ++ map EvFrame (map (fun o : nat * said => sd_frame (snd o)) order)), Finished true) /\
      exists ls, Forall2 (fun o s => line_of Y colors segs locs dir (snd o) = Ok s) order ls /\
      forall jt times o0, length jt = length junk -> length times = length order ->
      print_events verbose X tbl locs dir skipped show (no_clock (text_sink Y colors segs host_segs verbose))
        (combine jt junk) = Ok o0 ->
      exists o, print_events verbose X tbl locs dir skipped show (no_clock (text_sink Y colors segs host_segs verbose))
        (combine (jt ++ times) (junk ++ map EvFrame (map (fun o : nat * said => sd_frame (snd o)) order))) = Ok (o0 ++ o) /\ stderr_of o = [] /\
        stdout_of o = as_lines ls.
Proof. exact late_format. Qed.
Print Assumptions C66_format.

(** And when nothing is lost: *)
Theorem C66_early_format : forall X Y addr tbl colors segs host_segs locs dir skipped show verbose size msg progs items,
  programs_ok msg progs -> table_safe tbl -> t_encoding tbl = EncRzcobs ->
  (forall i ts, nth_error progs i = Some ts -> Forall2 (says addr tbl) (spoken msg ts) (items i)) ->
  (forall i x, In x (items i) -> says_statement X tbl (sd_time_args x) (sd_args x) (sd_frame x) (sd_time x) (sd_message x) /\ byte_text (sd_time x) /\
     exists s, line_of Y colors segs locs dir x = Ok s) ->
  forall run who d0 d1, Forall calm progs -> 2 <= size -> reset size progs d0 -> session size EncRzcobs msg d0 d1 ->
  Z.of_nat (length (out (d_sys d1))) < size -> run O = attach d1 -> session_fair size EncRzcobs msg run who ->
  exists n, forall chunks hs, concat chunks = RttModel.r_delivered (d_chan (run n)) -> Forall some_bytes chunks ->
    exists order, (forall i, (i < length progs)%nat -> items i = of_context i order) /\
      defmt_print false false Stdin (Loads tbl) (HostSpec.reads chunks ++ Read (Ok []) :: hs) =
        (map (Event tbl) (map EvFrame (map (fun o : nat * said => sd_frame (snd o)) order)), Finished true) /\
      exists ls, Forall2 (fun o s => line_of Y colors segs locs dir (snd o) = Ok s) order ls /\
      forall times, length times = length order ->
        exists o, print_events verbose X tbl locs dir skipped show (no_clock (text_sink Y colors segs host_segs verbose))
          (combine times (map EvFrame (map (fun o : nat * said => sd_frame (snd o)) order))) = Ok o /\ stderr_of o = [] /\
          stdout_of o = as_lines ls.
Proof. exact early_format. Qed.
Print Assumptions C66_early_format.

(** With --json: a consumer reads back the statements that are shown. *)
Theorem C66_json : forall X Y addr tbl host_segs locs dir skipped size msg progs items,
  programs_ok msg progs -> table_safe tbl -> t_encoding tbl = EncRzcobs ->
  (forall i ts, nth_error progs i = Some ts -> Forall2 (says addr tbl) (spoken msg ts) (items i)) ->
  (forall i x, In x (items i) -> tellable X tbl x) -> locs_text locs dir ->
  forall run who d1, Forall calm progs -> 2 <= size -> lives size EncRzcobs msg progs d1 -> RttModel.r_connected (d_chan d1) = false ->
  run O = attach d1 -> session_fair size EncRzcobs msg run who ->
  exists n, forall chunks hs, concat chunks = RttModel.r_delivered (d_chan (run n)) -> Forall some_bytes chunks ->
    exists unseen seen missed order junk,
      out (d_sys (run n)) = transmitted EncRzcobs (map snd (unseen ++ seen)) /\
      (forall a x z, unseen = a ++ x :: z -> non_empty (concat (snd x)) = true ->
         (length (transmitted EncRzcobs (map snd a)) < length (out (d_sys d1)) - length (RttModel.data (RttModel.r_ops (d_chan d1))))%nat) /\
      Forall2 (fun h o => fst h = fst o /\ says addr tbl (snd h) (snd o)) (filter (fun h => non_empty (concat (snd h))) unseen) missed /\
      Forall2 (fun h o => fst h = fst o /\ says addr tbl (snd h) (snd o)) (filter (fun h => non_empty (concat (snd h))) seen) order /\ (length junk <= 1)%nat /\
      (forall i, (i < length progs)%nat -> items i = of_context i missed ++ of_context i order) /\
      defmt_print false true Stdin (Loads tbl) (HostSpec.reads chunks ++ Read (Ok []) :: hs) =
        (Schema :: map (Event tbl) (junk ++ map EvFrame (map (fun o : nat * said => sd_frame (snd o)) order)), Finished true) /\
      forall jt times o0, length jt = length junk -> length times = length order -> Forall (fun now => - 2 ^ 63 <= now) times ->
      print_events false X tbl locs dir skipped false (json_sink Y false host_segs false) (combine jt junk) = Ok o0 ->
      exists o fs, print_events false X tbl locs dir skipped false (json_sink Y false host_segs false)
        (combine (jt ++ times) (junk ++ map EvFrame (map (fun o : nat * said => sd_frame (snd o)) order))) = Ok (o0 ++ o) /\
        SchemaModel.read_output (schema_line ++ stdout_of o) = Ok fs /\ Forall2 (tells_of locs dir) (combine order times) fs.
Proof. exact late_json. Qed.
Print Assumptions C66_json.

Theorem C66_early_json : forall X Y addr tbl host_segs locs dir skipped size msg progs items,
  programs_ok msg progs -> table_safe tbl -> t_encoding tbl = EncRzcobs ->
  (forall i ts, nth_error progs i = Some ts -> Forall2 (says addr tbl) (spoken msg ts) (items i)) ->
  (forall i x, In x (items i) -> tellable X tbl x) -> locs_text locs dir ->
  forall run who d0 d1, Forall calm progs -> 2 <= size -> reset size progs d0 -> session size EncRzcobs msg d0 d1 ->
  Z.of_nat (length (out (d_sys d1))) < size -> run O = attach d1 -> session_fair size EncRzcobs msg run who ->
  exists n, forall chunks hs, concat chunks = RttModel.r_delivered (d_chan (run n)) -> Forall some_bytes chunks ->
    exists order, (forall i, (i < length progs)%nat -> items i = of_context i order) /\
      defmt_print false true Stdin (Loads tbl) (HostSpec.reads chunks ++ Read (Ok []) :: hs) =
        (Schema :: map (Event tbl) (map EvFrame (map (fun o : nat * said => sd_frame (snd o)) order)), Finished true) /\
      forall times, length times = length order -> Forall (fun now => - 2 ^ 63 <= now) times ->
        exists o fs, print_events false X tbl locs dir skipped false (json_sink Y false host_segs false)
          (combine times (map EvFrame (map (fun o : nat * said => sd_frame (snd o)) order))) = Ok o /\
          SchemaModel.read_output (schema_line ++ stdout_of o) = Ok fs /\ Forall2 (tells_of locs dir) (combine order times) fs.
Proof. exact early_json. Qed.
Print Assumptions C66_early_json.

(** The host of [late_after] attached while a write that does not wait was overwriting its own beginning; it
    gets the end of the first message, of which nothing is shown, and the second one. *)
Example C66_ex : lives 4 EncRzcobs None dev_progs late_before /\ RttModel.r_connected (d_chan late_before) = false /\
  session 4 EncRzcobs None (attach late_before) late_after /\ trimming (RttModel.r_dev (d_chan late_before)) = true /\
  out (d_sys late_before) = [0; 1; 136; 19; 114; 200; 3; 103; 97; 34; 98] /\
  finished (d_sys late_after) /\ RttModel.r_dev (d_chan late_after) = RttModel.DNext /\
  RttModel.r_delivered (d_chan late_after) = [97; 34; 98; 113; 0; 0; 2; 137; 19; 114; 127; 0] /\
  out (d_sys late_after) = [0; 1; 136; 19; 114; 200; 3; 103] ++ RttModel.r_delivered (d_chan late_after) /\
  fst (defmt_print false false Stdin (Loads sink_prog) (HostSpec.reads (map (fun b => [b]) (RttModel.r_delivered (d_chan late_after))) ++ [Read (Ok [])])) =
    map (Event sink_prog) (EvSkipped :: map EvFrame (map sd_frame (dev_items 1))).
Proof. split; [exact late_lives|]. split; [reflexivity|]. split; [exact late_session2|exact late_seen]. Qed.

Example C66_early_ex : reset 4 dev_progs late_start /\ session 4 EncRzcobs None late_start early_before /\ length (out (d_sys early_before)) = 3%nat /\
  finished (d_sys early_after) /\ RttModel.r_delivered (d_chan early_after) = out (d_sys early_after) /\ length (out (d_sys early_after)) = 20%nat.
Proof. split; [exact late_reset|]. split; [exact early_session1|exact early_seen]. Qed.

Example C66_terminal_ex : programs_ok None dev_progs /\ Forall calm dev_progs /\ table_safe sink_prog /\ t_encoding sink_prog = EncRzcobs /\ external_ok Y0 /\ wide_enough Y0 /\
  (forall i ts, nth_error dev_progs i = Some ts -> Forall2 (says sink_addr sink_prog) (spoken None ts) (dev_items i)) /\
  (forall i x, In x (dev_items i) -> readable D0 Y0 sink_prog x) /\
  lives 4 EncRzcobs None dev_progs late_before /\ RttModel.r_connected (d_chan late_before) = false /\
  exists run who, run O = attach late_before /\ session_fair 4 EncRzcobs None run who.
Proof.
  split; [exact dev_ok|]. split; [exact dev_calm|]. split; [exact sink_safe|]. split; [reflexivity|]. split; [exact Prop_LogFormat.X0_ok|]. split; [vm_compute; discriminate|].
  split; [exact dev_says|]. split; [exact dev_readable|]. split; [exact late_lives|]. split; [reflexivity|].
  exact (session_exists 4 EncRzcobs None dev_progs dev_ok ltac:(lia) late_before late_lives eq_refl).
Qed.

Example C66_format_ex : forall i x, In x (dev_items i) -> says_statement D0 sink_prog (sd_time_args x) (sd_args x) (sd_frame x) (sd_time x) (sd_message x) /\
    byte_text (sd_time x) /\ exists s, line_of Y0 true (builtin_segments FOneLine true true false) sink_locs (lit "/w") x = Ok s.
Proof.
  intros i x H. destruct (dev_readable i x H) as (A & _ & B & _). split; [exact A|]. split; [exact B|].
  destruct i as [|[|i]]; cbn in H; repeat (destruct H as [<-|H]; [eexists; vm_compute; reflexivity|]); destruct H.
Qed.

Example C66_json_ex : (forall i x, In x (dev_items i) -> tellable D0 sink_prog x) /\ locs_text sink_locs (lit "/w").
Proof.
  split.
  - intros i x H. destruct (dev_readable i x H) as (A & _ & B & _). split; [exact A|]. split; [exact B|].
    destruct i as [|[|i]]; cbn in H; repeat (destruct H as [<-|H]; [vm_compute; repeat constructor; discriminate|]); destruct H.
  - intros fr. unfold location_info. cbn [sink_locs]. cbn [loc_get].
    destruct (f_index fr =? 1); [|destruct (f_index fr =? 2); [|split; exact I]]; split; vm_compute; repeat constructor; discriminate.
Qed.

(** The device reads the mode once per write ([channel.rs:29-33]).  If the host attaches during a write that does not
    wait for it, and reads before that write has ended, bytes of later writes are lost, although these do wait, and although
    the flush after them returns. *)
Theorem C66_race_refuted : exists size ops s0 s1 s2, RttModel.start size s0 ops /\ RttModel.r_connected s0 = false /\ RttModel.steps size false s0 s1 /\
  RttModel.r_ops s1 = [RttModel.OWrite [5; 6; 7]; RttModel.OFlush] /\
  RttModel.steps size false (attached s1) s2 /\ RttModel.r_dev s2 = RttModel.DNext /\ RttModel.r_ops s2 = [] /\ RttModel.r_host s2 = RttModel.HIdle /\
  RttModel.r_read s2 = RttModel.r_write s2 /\ RttModel.r_delivered s2 = [1; 2; 3].
Proof.
  exists 4, race_ops, race_start, race_attach, race_end. destruct race_runs as (A & B & C). destruct race_lost as (D & _ & E).
  split; [exact A|]. split; [reflexivity|]. split; [exact B|]. split; [exact D|]. split; [exact C|exact E].
Qed.
Print Assumptions C66_race_refuted.
