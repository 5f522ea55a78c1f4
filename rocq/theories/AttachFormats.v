(** A host that attaches late, in any log format and as JSON (C66). *)
From Verif Require Import Base Utf8 ParserModel DecoderModel DecoderProofs DecoderPanic EncodeModel EncodeSpec EncodeProofs EncodeTop DisplayModel TextSpec RzcobsModel StreamModel StreamSpec StreamProofs
  LogFormatModel LogFormatSpec LogFormatBuiltin SymbolModel LocationModel SinkModel SinkSpec SinkProofs SinkMain HostModel HostSpec HostProofs
  LoggerModel LoggerSpec LoggerProofs LoggerMain DeviceModel DeviceSpec DeviceProofs DeviceLive DeviceMain SinkFormats ProgramJson AttachModel AttachLife AttachLive AttachRun AttachMain.
From Verif Require RttModel RttProofs SchemaModel SchemaProofs.

(** The lines of the statements in this format, below whatever is printed for the rest of a message. *)
Definition shows_format (X : externals) (Y : external) (tbl : table) colors segs host_segs locs dir skipped show verbose (junk : list event) (order : list (nat * said)) : Prop :=
  exists ls, Forall2 (fun o s => line_of Y colors segs locs dir (snd o) = Ok s) order ls /\
    forall jt times o0, length jt = length junk -> length times = length order ->
      print_events verbose X tbl locs dir skipped show (no_clock (text_sink Y colors segs host_segs verbose)) (combine jt junk) = Ok o0 ->
      exists o, print_events verbose X tbl locs dir skipped show (no_clock (text_sink Y colors segs host_segs verbose))
        (combine (jt ++ times) (junk ++ map EvFrame (map (fun o : nat * said => sd_frame (snd o)) order))) = Ok (o0 ++ o) /\ stderr_of o = [] /\ stdout_of o = as_lines ls.

Definition has_line (X : externals) (Y : external) (tbl : table) colors segs locs dir (x : said) : Prop :=
  says_statement X tbl (sd_time_args x) (sd_args x) (sd_frame x) (sd_time x) (sd_message x) /\ byte_text (sd_time x) /\ exists s, line_of Y colors segs locs dir x = Ok s.

Lemma format_lines : forall X Y addr tbl colors segs host_segs locs dir skipped show verbose junk order,
  (forall i x, In (i, x) order -> has_line X Y tbl colors segs locs dir x) -> (forall i x, In (i, x) order -> exists w, says addr tbl w x) ->
  shows_format X Y tbl colors segs host_segs locs dir skipped show verbose junk order.
Proof.
  intros X Y addr tbl colors segs host_segs locs dir skipped show verbose junk order R W.
  destruct (order_printed X Y addr tbl colors segs host_segs locs dir skipped show verbose order W R) as (ls & Fl & P).
  exists ls. split; [exact Fl|]. intros jt times o0 L1 L2 J. destruct (P times L2) as (o & E1 & E2). exists o. split; [|exact E2].
  rewrite combine_app by auto. eapply print_app; eauto.
Qed.

Theorem session_format : forall X Y addr tbl colors segs host_segs locs dir skipped show verbose size msg progs items,
  programs_ok msg progs -> table_safe tbl -> t_encoding tbl = EncRzcobs ->
  (forall i ts, nth_error progs i = Some ts -> Forall2 (says addr tbl) (spoken msg ts) (items i)) ->
  (forall i x, In x (items i) -> says_statement X tbl (sd_time_args x) (sd_args x) (sd_frame x) (sd_time x) (sd_message x) /\ byte_text (sd_time x) /\
     exists s, line_of Y colors segs locs dir x = Ok s) ->
  forall d1 d chunks s, lives size EncRzcobs msg progs d1 -> RttModel.r_connected (d_chan d1) = false ->
  session size EncRzcobs msg (attach d1) d -> concat chunks = RttModel.r_delivered (d_chan d) -> s <> Stdin \/ Forall some_bytes chunks ->
  exists open hist unseen seen later order junk buf, hist = unseen ++ seen ++ later /\
    out (d_sys d) = match open with None => transmitted EncRzcobs (map snd hist) | Some w => transmitted_part EncRzcobs (map snd hist) w end /\
    (forall i ts, nth_error progs i = Some ts -> exists more, attempts msg ts = complete (by_ctx i hist) ++ more) /\
    (forall a x z, unseen = a ++ x :: z -> non_empty (concat (snd x)) = true ->
       (length (transmitted EncRzcobs (map snd a)) < length (out (d_sys d1)) - length (RttModel.data (RttModel.r_ops (d_chan d1))))%nat) /\
    Forall2 (fun h o => fst h = fst o /\ says addr tbl (snd h) (snd o)) (filter (fun h => non_empty (concat (snd h))) seen) order /\ (length junk <= 1)%nat /\
    defmt_print false false s (Loads tbl) (HostSpec.reads chunks) =
      (map (Event tbl) (junk ++ map EvFrame (map (fun o : nat * said => sd_frame (snd o)) order)), Running tbl buf) /\
    exists ls, Forall2 (fun o s => line_of Y colors segs locs dir (snd o) = Ok s) order ls /\
      forall jt times o0, length jt = length junk -> length times = length order ->
      print_events verbose X tbl locs dir skipped show (no_clock (text_sink Y colors segs host_segs verbose))
        (combine jt junk) = Ok o0 ->
      exists o, print_events verbose X tbl locs dir skipped show (no_clock (text_sink Y colors segs host_segs verbose))
        (combine (jt ++ times) (junk ++ map EvFrame (map (fun o : nat * said => sd_frame (snd o)) order))) = Ok (o0 ++ o) /\ stderr_of o = [] /\
        stdout_of o = as_lines ls.
Proof.
  intros X Y addr tbl colors segs host_segs locs dir skipped show verbose size msg progs items.
  exact (fun H1 H2 H3 H4 H5 => session_frames addr tbl size msg progs items H1 H2 H3 H4 false (has_line X Y tbl colors segs locs dir)
    (shows_format X Y tbl colors segs host_segs locs dir skipped show verbose) H5 (format_lines X Y addr tbl colors segs host_segs locs dir skipped show verbose)).
Qed.

Theorem late_format : forall X Y addr tbl colors segs host_segs locs dir skipped show verbose size msg progs items,
  programs_ok msg progs -> table_safe tbl -> t_encoding tbl = EncRzcobs ->
  (forall i ts, nth_error progs i = Some ts -> Forall2 (says addr tbl) (spoken msg ts) (items i)) ->
  (forall i x, In x (items i) -> says_statement X tbl (sd_time_args x) (sd_args x) (sd_frame x) (sd_time x) (sd_message x) /\ byte_text (sd_time x) /\
     exists s, line_of Y colors segs locs dir x = Ok s) ->
  forall run who d1, Forall calm progs -> 2 <= size -> lives size EncRzcobs msg progs d1 -> RttModel.r_connected (d_chan d1) = false ->
  run O = attach d1 -> session_fair size EncRzcobs msg run who ->
  exists n, forall chunks hs, concat chunks = RttModel.r_delivered (d_chan (run n)) -> Forall some_bytes chunks ->
    exists unseen seen missed order junk,
      out (d_sys (run n)) = transmitted EncRzcobs (map snd (unseen ++ seen)) /\
      (forall a x z, unseen = a ++ x :: z -> non_empty (concat (snd x)) = true ->
         (length (transmitted EncRzcobs (map snd a)) < length (out (d_sys d1)) - length (RttModel.data (RttModel.r_ops (d_chan d1))))%nat) /\
      Forall2 (fun h o => fst h = fst o /\ says addr tbl (snd h) (snd o)) (filter (fun h => non_empty (concat (snd h))) unseen) missed /\
      Forall2 (fun h o => fst h = fst o /\ says addr tbl (snd h) (snd o)) (filter (fun h => non_empty (concat (snd h))) seen) order /\ (length junk <= 1)%nat /\
      (forall i, (i < length progs)%nat -> items i = of_context i missed ++ of_context i order) /\
      defmt_print false false Stdin (Loads tbl) (HostSpec.reads chunks ++ Read (Ok []) :: hs) =
        (map (Event tbl) (junk ++ map EvFrame (map (fun o : nat * said => sd_frame (snd o)) order)), Finished true) /\
      exists ls, Forall2 (fun o s => line_of Y colors segs locs dir (snd o) = Ok s) order ls /\
      forall jt times o0, length jt = length junk -> length times = length order ->
      print_events verbose X tbl locs dir skipped show (no_clock (text_sink Y colors segs host_segs verbose))
        (combine jt junk) = Ok o0 ->
      exists o, print_events verbose X tbl locs dir skipped show (no_clock (text_sink Y colors segs host_segs verbose))
        (combine (jt ++ times) (junk ++ map EvFrame (map (fun o : nat * said => sd_frame (snd o)) order))) = Ok (o0 ++ o) /\ stderr_of o = [] /\
        stdout_of o = as_lines ls.
Proof.
  intros X Y addr tbl colors segs host_segs locs dir skipped show verbose size msg progs items.
  exact (fun H1 H2 H3 H4 H5 => late_frames addr tbl size msg progs items H1 H2 H3 H4 false (has_line X Y tbl colors segs locs dir)
    (shows_format X Y tbl colors segs host_segs locs dir skipped show verbose) H5 (format_lines X Y addr tbl colors segs host_segs locs dir skipped show verbose)).
Qed.

Theorem early_format : forall X Y addr tbl colors segs host_segs locs dir skipped show verbose size msg progs items,
  programs_ok msg progs -> table_safe tbl -> t_encoding tbl = EncRzcobs ->
  (forall i ts, nth_error progs i = Some ts -> Forall2 (says addr tbl) (spoken msg ts) (items i)) ->
  (forall i x, In x (items i) -> says_statement X tbl (sd_time_args x) (sd_args x) (sd_frame x) (sd_time x) (sd_message x) /\ byte_text (sd_time x) /\
     exists s, line_of Y colors segs locs dir x = Ok s) ->
  forall run who d0 d1, Forall calm progs -> 2 <= size -> reset size progs d0 -> session size EncRzcobs msg d0 d1 ->
  Z.of_nat (length (out (d_sys d1))) < size -> run O = attach d1 -> session_fair size EncRzcobs msg run who ->
  exists n, forall chunks hs, concat chunks = RttModel.r_delivered (d_chan (run n)) -> Forall some_bytes chunks ->
    exists order, (forall i, (i < length progs)%nat -> items i = of_context i order) /\
      defmt_print false false Stdin (Loads tbl) (HostSpec.reads chunks ++ Read (Ok []) :: hs) =
        (map (Event tbl) (map EvFrame (map (fun o : nat * said => sd_frame (snd o)) order)), Finished true) /\
      exists ls, Forall2 (fun o s => line_of Y colors segs locs dir (snd o) = Ok s) order ls /\
      forall times, length times = length order ->
        exists o, print_events verbose X tbl locs dir skipped show (no_clock (text_sink Y colors segs host_segs verbose))
          (combine times (map EvFrame (map (fun o : nat * said => sd_frame (snd o)) order))) = Ok o /\ stderr_of o = [] /\
          stdout_of o = as_lines ls.
Proof.
  intros X Y addr tbl colors segs host_segs locs dir skipped show verbose size msg progs items.
  intros H1 H2 H3 H4 H5 run who d0 d1 Hcalm Hs Rst S1 Sm E0 Hf.
  destruct ((fun H1 H2 H3 H4 H5 => early_frames addr tbl size msg progs items H1 H2 H3 H4 false (has_line X Y tbl colors segs locs dir)
    (shows_format X Y tbl colors segs host_segs locs dir skipped show verbose) H5 (format_lines X Y addr tbl colors segs host_segs locs dir skipped show verbose)) H1 H2 H3 H4 H5 run who d0 d1 Hcalm Hs Rst S1 Sm E0 Hf) as (n & N).
  exists n. intros chunks hs C Hb. destruct (N chunks hs C Hb) as (order & A1 & A2 & ls & A3 & A4). exists order. split; [exact A1|]. split; [exact A2|]. exists ls. split; [exact A3|].
  intros times L. destruct (A4 [] times [] eq_refl L eq_refl) as (o & B1 & B2 & B3). exists o. auto.
Qed.

(** The statements read back by a consumer of the JSON lines, those behind whatever is printed for the rest of a message. *)
Definition shows_json (X : externals) (Y : external) (tbl : table) host_segs locs dir skipped (junk : list event) (order : list (nat * said)) : Prop :=
  forall jt times o0, length jt = length junk -> length times = length order -> Forall (fun now => - 2 ^ 63 <= now) times ->
    print_events false X tbl locs dir skipped false (json_sink Y false host_segs false) (combine jt junk) = Ok o0 ->
    exists o fs, print_events false X tbl locs dir skipped false (json_sink Y false host_segs false)
      (combine (jt ++ times) (junk ++ map EvFrame (map (fun o : nat * said => sd_frame (snd o)) order))) = Ok (o0 ++ o) /\
      SchemaModel.read_output (schema_line ++ stdout_of o) = Ok fs /\ Forall2 (tells_of locs dir) (combine order times) fs.

Lemma json_lines : forall X Y addr tbl host_segs locs dir skipped, locs_text locs dir -> forall junk order,
  (forall i x, In (i, x) order -> tellable X tbl x) -> (forall i x, In (i, x) order -> exists w, says addr tbl w x) ->
  shows_json X Y tbl host_segs locs dir skipped junk order.
Proof.
  intros X Y addr tbl host_segs locs dir skipped HL junk order R W jt times o0 L1 L2 Hn J.
  destruct (order_told X Y addr tbl locs dir skipped host_segs order times HL W R Hn L2) as (o & fs & E1 & E2 & E3). exists o, fs. split; [|auto].
  rewrite combine_app by auto. eapply print_app; eauto.
Qed.

Theorem late_json : forall X Y addr tbl host_segs locs dir skipped size msg progs items,
  programs_ok msg progs -> table_safe tbl -> t_encoding tbl = EncRzcobs ->
  (forall i ts, nth_error progs i = Some ts -> Forall2 (says addr tbl) (spoken msg ts) (items i)) ->
  (forall i x, In x (items i) -> tellable X tbl x) -> locs_text locs dir ->
  forall run who d1, Forall calm progs -> 2 <= size -> lives size EncRzcobs msg progs d1 -> RttModel.r_connected (d_chan d1) = false ->
  run O = attach d1 -> session_fair size EncRzcobs msg run who ->
  exists n, forall chunks hs, concat chunks = RttModel.r_delivered (d_chan (run n)) -> Forall some_bytes chunks ->
    exists unseen seen missed order junk,
      out (d_sys (run n)) = transmitted EncRzcobs (map snd (unseen ++ seen)) /\
      (forall a x z, unseen = a ++ x :: z -> non_empty (concat (snd x)) = true ->
         (length (transmitted EncRzcobs (map snd a)) < length (out (d_sys d1)) - length (RttModel.data (RttModel.r_ops (d_chan d1))))%nat) /\
      Forall2 (fun h o => fst h = fst o /\ says addr tbl (snd h) (snd o)) (filter (fun h => non_empty (concat (snd h))) unseen) missed /\
      Forall2 (fun h o => fst h = fst o /\ says addr tbl (snd h) (snd o)) (filter (fun h => non_empty (concat (snd h))) seen) order /\ (length junk <= 1)%nat /\
      (forall i, (i < length progs)%nat -> items i = of_context i missed ++ of_context i order) /\
      defmt_print false true Stdin (Loads tbl) (HostSpec.reads chunks ++ Read (Ok []) :: hs) =
        (Schema :: map (Event tbl) (junk ++ map EvFrame (map (fun o : nat * said => sd_frame (snd o)) order)), Finished true) /\
      forall jt times o0, length jt = length junk -> length times = length order -> Forall (fun now => - 2 ^ 63 <= now) times ->
      print_events false X tbl locs dir skipped false (json_sink Y false host_segs false) (combine jt junk) = Ok o0 ->
      exists o fs, print_events false X tbl locs dir skipped false (json_sink Y false host_segs false)
        (combine (jt ++ times) (junk ++ map EvFrame (map (fun o : nat * said => sd_frame (snd o)) order))) = Ok (o0 ++ o) /\
        SchemaModel.read_output (schema_line ++ stdout_of o) = Ok fs /\ Forall2 (tells_of locs dir) (combine order times) fs.
Proof.
  intros X Y addr tbl host_segs locs dir skipped size msg progs items H1 H2 H3 H4 H5 HL.
  exact (late_frames addr tbl size msg progs items H1 H2 H3 H4 true (tellable X tbl)
    (shows_json X Y tbl host_segs locs dir skipped) H5 (json_lines X Y addr tbl host_segs locs dir skipped HL)).
Qed.

Theorem early_json : forall X Y addr tbl host_segs locs dir skipped size msg progs items,
  programs_ok msg progs -> table_safe tbl -> t_encoding tbl = EncRzcobs ->
  (forall i ts, nth_error progs i = Some ts -> Forall2 (says addr tbl) (spoken msg ts) (items i)) ->
  (forall i x, In x (items i) -> tellable X tbl x) -> locs_text locs dir ->
  forall run who d0 d1, Forall calm progs -> 2 <= size -> reset size progs d0 -> session size EncRzcobs msg d0 d1 ->
  Z.of_nat (length (out (d_sys d1))) < size -> run O = attach d1 -> session_fair size EncRzcobs msg run who ->
  exists n, forall chunks hs, concat chunks = RttModel.r_delivered (d_chan (run n)) -> Forall some_bytes chunks ->
    exists order, (forall i, (i < length progs)%nat -> items i = of_context i order) /\
      defmt_print false true Stdin (Loads tbl) (HostSpec.reads chunks ++ Read (Ok []) :: hs) =
        (Schema :: map (Event tbl) (map EvFrame (map (fun o : nat * said => sd_frame (snd o)) order)), Finished true) /\
      forall times, length times = length order -> Forall (fun now => - 2 ^ 63 <= now) times ->
        exists o fs, print_events false X tbl locs dir skipped false (json_sink Y false host_segs false)
          (combine times (map EvFrame (map (fun o : nat * said => sd_frame (snd o)) order))) = Ok o /\
          SchemaModel.read_output (schema_line ++ stdout_of o) = Ok fs /\ Forall2 (tells_of locs dir) (combine order times) fs.
Proof.
  intros X Y addr tbl host_segs locs dir skipped size msg progs items H1 H2 H3 H4 H5 HL.
  intros run who d0 d1 Hcalm Hs Rst S1 Sm E0 Hf.
  destruct ((early_frames addr tbl size msg progs items H1 H2 H3 H4 true (tellable X tbl)
    (shows_json X Y tbl host_segs locs dir skipped) H5 (json_lines X Y addr tbl host_segs locs dir skipped HL)) run who d0 d1 Hcalm Hs Rst S1 Sm E0 Hf) as (n & N).
  exists n. intros chunks hs C Hb. destruct (N chunks hs C Hb) as (order & A1 & A2 & A4). exists order. split; [exact A1|]. split; [exact A2|].
  intros times L Hn. exact (A4 [] times [] eq_refl L Hn eq_refl).
Qed.
