(** The panic message is the last line of the terminal in any log format, and the last object on stdout with --json (C76). *)
From Verif Require Import Base Utf8 ParserModel DecoderModel DecoderProofs DecoderPanic EncodeModel EncodeSpec EncodeProofs EncodeTop DisplayModel TextSpec RzcobsModel StreamModel StreamSpec StreamProofs
  LogFormatModel LogFormatSpec LogFormatBuiltin SymbolModel LocationModel SinkModel SinkSpec SinkProofs SinkMain HostModel HostSpec HostProofs
  LoggerModel LoggerSpec LoggerProofs LoggerMain DeviceModel DeviceSpec DeviceProofs DeviceLive DeviceMain SinkFormats ProgramJson HaltModel HaltProofs HaltLive HaltMain.
From Verif Require RttModel RttProofs SchemaModel SchemaProofs.

Theorem panic_format : forall X Y addr tbl colors segs host_segs locs dir skipped show verbose size msg progs items k run who,
  programs_ok msg progs -> Forall brave progs -> (forall body, msg = Some body -> calm_body body) ->
  2 <= size -> table_safe tbl -> t_encoding tbl = k ->
  (forall i ts, nth_error progs i = Some ts -> Forall2 (says addr tbl) (spoken msg ts) (items i)) ->
  (forall i x, In x (items i) -> says_statement X tbl (sd_time_args x) (sd_args x) (sd_frame x) (sd_time x) (sd_message x) /\ byte_text (sd_time x) /\
     exists s, line_of Y colors segs locs dir x = Ok s) ->
  device_boot size progs (run O) -> core_fair size k msg run who -> single_core run who ->
  exists n, forall chunks hs, concat chunks = RttModel.r_delivered (d_chan (run n)) -> Forall some_bytes chunks ->
    exists order evs ls, (forall i x, In (i, x) order -> (i < length progs)%nat) /\
      (forall i, (i < length progs)%nat -> exists more, items i = of_context i order ++ more) /\
      defmt_print false false Stdin (Loads tbl) (HostSpec.reads chunks ++ Read (Ok []) :: hs) = (map (Event tbl) evs, Finished true) /\
      Forall2 (fun o s => line_of Y colors segs locs dir (snd o) = Ok s) order ls /\
      (forall times, length times = length order -> exists o,
        print_events verbose X tbl locs dir skipped show (no_clock (text_sink Y colors segs host_segs verbose)) (combine times evs) = Ok o /\
        stderr_of o = [] /\ stdout_of o = as_lines ls) /\
      (((forall t i, ~ panics_at run who t i) /\ forall i ts, nth_error progs i = Some ts -> panics ts = false /\ items i = of_context i order) \/
       exists t i, panics_at run who t i /\ next_op (d_sys (run n)) i = Some OHalt /\ items i = of_context i order /\
         match msg with
         | Some body => concat (fst (attempt body)) <> [] -> exists above x above_lines line, order = above ++ [(i, x)] /\ ls = above_lines ++ [line] /\
             says addr tbl (fst (attempt body)) x /\ line_of Y colors segs locs dir x = Ok line
         | None => True
         end).
Proof.
  intros X Y addr tbl colors segs host_segs locs dir skipped show verbose size msg progs items k run who Hok Hbr Hm Hs Ht Hk Hi Hr Hb Hf Hc.
  destruct (panic_frames addr tbl size msg progs items k run who Hok Hbr Hm Hs Ht Hk Hi Hb Hf Hc) as (n & N). exists n. intros chunks hs C Sb.
  destruct (N false chunks hs C Sb) as (order & In1 & O2 & Run & Sy & Cs).
  assert (Hr' : forall i x, In (i, x) order -> says_statement X tbl (sd_time_args x) (sd_args x) (sd_frame x) (sd_time x) (sd_message x) /\ byte_text (sd_time x) /\
     exists s, line_of Y colors segs locs dir x = Ok s).
  { intros i x H. apply (Hr i). destruct (O2 i (In1 i x H)) as (more & ->). apply in_or_app. left. now apply in_of_context. }
  destruct (order_printed X Y addr tbl colors segs host_segs locs dir skipped show verbose order Sy Hr') as (ls & Fl & P).
  exists order, (frames_of order), ls. repeat (split; [assumption|]).
  destruct Cs as [Cs|(t & i & H1 & H2 & H3 & H4)]; [left; exact Cs|right]. exists t, i. repeat (split; [assumption|]).
  destruct msg as [body|]; [|exact Logic.I]. intros Ne. destruct (H4 Ne) as (above & x & -> & Sx).
  apply Forall2_app_inv_l in Fl as (l1 & l2 & _ & F2 & ->). inversion F2 as [|a line ? l' E F3]; subst. inversion F3; subst. exists above, x, l1, line. auto.
Qed.

(** With --json: the statements a consumer reads back, the panic message being the last. *)
Theorem panic_told : forall X Y addr tbl host_segs locs dir skipped size msg progs items k run who,
  programs_ok msg progs -> Forall brave progs -> (forall body, msg = Some body -> calm_body body) ->
  2 <= size -> table_safe tbl -> t_encoding tbl = k -> locs_text locs dir ->
  (forall i ts, nth_error progs i = Some ts -> Forall2 (says addr tbl) (spoken msg ts) (items i)) ->
  (forall i x, In x (items i) -> tellable X tbl x) ->
  device_boot size progs (run O) -> core_fair size k msg run who -> single_core run who ->
  exists n, forall chunks hs, concat chunks = RttModel.r_delivered (d_chan (run n)) -> Forall some_bytes chunks ->
    exists order evs, (forall i x, In (i, x) order -> (i < length progs)%nat) /\
      (forall i, (i < length progs)%nat -> exists more, items i = of_context i order ++ more) /\
      defmt_print false true Stdin (Loads tbl) (HostSpec.reads chunks ++ Read (Ok []) :: hs) = (Schema :: map (Event tbl) evs, Finished true) /\
      (forall times, Forall (fun now => - 2 ^ 63 <= now) times -> length times = length order -> exists out fs,
        print_events false X tbl locs dir skipped false (json_sink Y false host_segs false) (combine times evs) = Ok out /\
        SchemaModel.read_output (schema_line ++ stdout_of out) = Ok fs /\ Forall2 (tells_of locs dir) (combine order times) fs) /\
      (((forall t i, ~ panics_at run who t i) /\ forall i ts, nth_error progs i = Some ts -> panics ts = false /\ items i = of_context i order) \/
       exists t i, panics_at run who t i /\ next_op (d_sys (run n)) i = Some OHalt /\ items i = of_context i order /\
         match msg with
         | Some body => concat (fst (attempt body)) <> [] -> exists above x, order = above ++ [(i, x)] /\ says addr tbl (fst (attempt body)) x
         | None => True
         end).
Proof.
  intros X Y addr tbl host_segs locs dir skipped size msg progs items k run who Hok Hbr Hm Hs Ht Hk HL Hi Te Hb Hf Hc.
  destruct (panic_frames addr tbl size msg progs items k run who Hok Hbr Hm Hs Ht Hk Hi Hb Hf Hc) as (n & N). exists n. intros chunks hs C Sb.
  destruct (N true chunks hs C Sb) as (order & In1 & O2 & Run & Sy & Cs). exists order, (frames_of order). split; [exact In1|]. split; [exact O2|]. split; [exact Run|].
  split; [|exact Cs]. intros times Hn L. eapply order_told; eauto.
  intros i x H. apply (Te i). destruct (O2 i (In1 i x H)) as (more & ->). apply in_or_app. left. now apply in_of_context.
Qed.
