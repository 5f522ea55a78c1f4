(** Properties C66 and C76 for linked programs, from the macros in the source. *)
From Verif Require Import Base Utf8 ParserModel DecoderModel DecoderPanic EncodeModel EncodeSpec EncodeTop Numerals DisplayModel TextSpec RzcobsModel StreamModel StreamSpec
  LogFormatModel LogFormatSpec LogFormatBuiltin SymbolModel SymbolProofs LocationModel SinkModel SinkSpec SinkMain HostModel HostSpec
  LoggerModel LoggerSpec LoggerMain DeviceModel DeviceSpec DeviceProofs DeviceLive DeviceRun DeviceMain SinkFormats
  HaltModel HaltProofs HaltLive HaltMain HaltFormats AttachModel AttachLife AttachLive AttachMain AttachFormats
  EnvFilterModel EnvFilterSpec TableModel TableSpec TableProofs TableMain FlagsModel FlagsSpec LinkModel LinkSpec LinkProofs LinkMain LinkTable LinkLevels LinkHost LinkDevice LinkSessions
  DisplayExamples LogFormatExamples SinkExamples DeviceExamples HaltRun HaltExamples AttachRun AttachExamples LinkExamples.
From Verif Require RttModel.

(** C76.  A linked program that panics, in any log format: the line of the panic message is the last one. *)
Theorem C76_program : forall p k, program_ok p -> link p = Ok k -> forall sec f, binary p k sec f ->
  forall check t, parse_elf check f = Ok (Some t) ->
  forall X Y addr ts colors segs host_segs locs dir skipped show verbose size msg progs items enc run who,
  program_safe p -> timestamp_is p ts -> chosen_encoding (p_features p) = Some enc ->
  programs_ok msg progs -> Forall brave progs -> (forall body, msg = Some body -> calm_body body) ->
  2 <= size ->
  (forall i tasks, nth_error progs i = Some tasks -> Forall2 (executes p k addr t ts) (spoken msg tasks) (items i)) ->
  (forall i x, In x (items i) -> says_statement X t (sd_time_args x) (sd_args x) (sd_frame x) (sd_time x) (sd_message x) /\ byte_text (sd_time x) /\
     exists s, line_of Y colors segs locs dir x = Ok s) ->
  device_boot size progs (run O) -> core_fair size enc msg run who -> single_core run who ->
  exists n, forall chunks hs, concat chunks = RttModel.r_delivered (d_chan (run n)) -> Forall some_bytes chunks ->
    exists order evs ls, (forall i x, In (i, x) order -> (i < length progs)%nat) /\
      (forall i, (i < length progs)%nat -> exists more, items i = of_context i order ++ more) /\
      defmt_print false false Stdin (Loads t) (HostSpec.reads chunks ++ Read (Ok []) :: hs) = (map (Event t) evs, Finished true) /\
      Forall2 (fun o s => line_of Y colors segs locs dir (snd o) = Ok s) order ls /\
      (forall times, length times = length order -> exists o,
        print_events verbose X t locs dir skipped show (no_clock (text_sink Y colors segs host_segs verbose)) (combine times evs) = Ok o /\
        stderr_of o = [] /\ stdout_of o = as_lines ls) /\
      (((forall m i, ~ panics_at run who m i) /\ forall i tasks, nth_error progs i = Some tasks -> panics tasks = false /\ items i = of_context i order) \/
       exists m i, panics_at run who m i /\ next_op (d_sys (run n)) i = Some OHalt /\ items i = of_context i order /\
         match msg with
         | Some body => concat (fst (attempt body)) <> [] -> exists above x above_lines line, order = above ++ [(i, x)] /\ ls = above_lines ++ [line] /\
             says addr t (fst (attempt body)) x /\ line_of Y colors segs locs dir x = Ok line
         | None => True
         end).
Proof. exact program_panic. Qed.
Print Assumptions C76_program.

(** C66.  A linked program to which a host attaches late, in any log format. *)
Theorem C66_program : forall p k, program_ok p -> link p = Ok k -> forall sec f, binary p k sec f ->
  forall check t, parse_elf check f = Ok (Some t) ->
  forall X Y addr ts colors segs host_segs locs dir skipped show verbose size msg progs items,
  program_safe p -> timestamp_is p ts -> chosen_encoding (p_features p) = Some EncRzcobs ->
  programs_ok msg progs ->
  (forall i tasks, nth_error progs i = Some tasks -> Forall2 (executes p k addr t ts) (spoken msg tasks) (items i)) ->
  (forall i x, In x (items i) -> says_statement X t (sd_time_args x) (sd_args x) (sd_frame x) (sd_time x) (sd_message x) /\ byte_text (sd_time x) /\
     exists s, line_of Y colors segs locs dir x = Ok s) ->
  forall run who d1, Forall calm progs -> 2 <= size -> lives size EncRzcobs msg progs d1 -> RttModel.r_connected (d_chan d1) = false ->
  run O = attach d1 -> session_fair size EncRzcobs msg run who ->
  exists n, forall chunks hs, concat chunks = RttModel.r_delivered (d_chan (run n)) -> Forall some_bytes chunks ->
    exists unseen seen missed order junk,
      out (d_sys (run n)) = transmitted EncRzcobs (map snd (unseen ++ seen)) /\
      (forall a x z, unseen = a ++ x :: z -> non_empty (concat (snd x)) = true ->
         (length (transmitted EncRzcobs (map snd a)) < length (out (d_sys d1)) - length (RttModel.data (RttModel.r_ops (d_chan d1))))%nat) /\
      Forall2 (fun h o => fst h = fst o /\ says addr t (snd h) (snd o)) (filter (fun h => non_empty (concat (snd h))) unseen) missed /\
      Forall2 (fun h o => fst h = fst o /\ says addr t (snd h) (snd o)) (filter (fun h => non_empty (concat (snd h))) seen) order /\ (length junk <= 1)%nat /\
      (forall i, (i < length progs)%nat -> items i = of_context i missed ++ of_context i order) /\
      defmt_print false false Stdin (Loads t) (HostSpec.reads chunks ++ Read (Ok []) :: hs) =
        (map (Event t) (junk ++ map EvFrame (map (fun o : nat * said => sd_frame (snd o)) order)), Finished true) /\
      exists ls, Forall2 (fun o s => line_of Y colors segs locs dir (snd o) = Ok s) order ls /\
      forall jt times o0, length jt = length junk -> length times = length order ->
      print_events verbose X t locs dir skipped show (no_clock (text_sink Y colors segs host_segs verbose))
        (combine jt junk) = Ok o0 ->
      exists o, print_events verbose X t locs dir skipped show (no_clock (text_sink Y colors segs host_segs verbose))
        (combine (jt ++ times) (junk ++ map EvFrame (map (fun o : nat * said => sd_frame (snd o)) order))) = Ok (o0 ++ o) /\ stderr_of o = [] /\
        stdout_of o = as_lines ls.
Proof. exact program_late. Qed.
Print Assumptions C66_program.

Lemma executes_concat : forall p k addr t ts w w' x, concat w = concat w' -> executes p k addr t ts w x -> executes p k addr t ts w' x.
Proof. intros p k addr t ts w w' x E H. unfold executes in *. rewrite <- E. exact H. Qed.

Lemma small_panics : forall i tasks, nth_error halt_progs i = Some tasks ->
  Forall2 (executes small_program small_image sink_addr small_table (Some (lit "{=u64:us}"))) (spoken halt_msg tasks) (halt_items i).
Proof.
  pose proof (small_executes 0 _ eq_refl) as E0. inversion E0 as [|? ? ? ? M1 _]; subst. pose proof (small_executes 1 _ eq_refl) as E1. inversion E1 as [|? ? ? ? M2 _]; subst.
  intros [|[|[|i]]] ts E; try (cbn in E; discriminate); injection E as <-.
  - constructor; [eapply executes_concat; [|exact M1]; vm_compute; reflexivity|]. constructor; [eapply executes_concat; [|exact M2]; vm_compute; reflexivity|constructor].
  - constructor; [|constructor]. eapply executes_concat; [|exact M1]. vm_compute. reflexivity.
Qed.

Lemma small_lines : forall i x, In x (dev_items i) -> says_statement D0 small_table (sd_time_args x) (sd_args x) (sd_frame x) (sd_time x) (sd_message x) /\
  byte_text (sd_time x) /\ exists s, line_of Y0 true (builtin_segments FOneLine true true false) sink_locs (lit "/w") x = Ok s.
Proof.
  intros i x H. destruct (small_readable i x H) as (A & _ & B & _). split; [exact A|]. split; [exact B|].
  destruct i as [|[|i]]; cbn in H; repeat (destruct H as [<-|H]; [eexists; vm_compute; reflexivity|]); destruct H.
Qed.

Example C76_program_ex : chosen_encoding (p_features small_program) = Some EncRzcobs /\
  (forall i tasks, nth_error halt_progs i = Some tasks ->
     Forall2 (executes small_program small_image sink_addr small_table (Some (lit "{=u64:us}"))) (spoken halt_msg tasks) (halt_items i)) /\
  (forall i x, In x (halt_items i) -> says_statement D0 small_table (sd_time_args x) (sd_args x) (sd_frame x) (sd_time x) (sd_message x) /\
     byte_text (sd_time x) /\ exists s, line_of Y0 true (builtin_segments FOneLine true true false) sink_locs (lit "/w") x = Ok s).
Proof.
  split; [reflexivity|]. split; [exact small_panics|].
  intros [|[|i]] x H; cbn [halt_items] in H; [|exact (small_lines 0 x H)|contradiction]. apply in_app_or in H as [H|H]; [exact (small_lines 0 x H)|exact (small_lines 1 x H)].
Qed.

Example C66_program_ex : exists run who, run O = attach late_before /\ session_fair 4 EncRzcobs None run who /\
  exists n, forall chunks, concat chunks = RttModel.r_delivered (d_chan (run n)) -> Forall some_bytes chunks -> exists missed order,
    forall i, (i < 2)%nat -> dev_items i = of_context i missed ++ of_context i order.
Proof.
  destruct (session_exists 4 EncRzcobs None dev_progs dev_ok ltac:(lia) late_before late_lives eq_refl) as (run & who & R0 & Fr). exists run, who. split; [exact R0|]. split; [exact Fr|].
  destruct (program_late small_program small_image small_ok small_linked 2 small_file small_binary true small_table small_parsed D0 Y0 sink_addr (Some (lit "{=u64:us}"))
    true (builtin_segments FOneLine true true false) [] sink_locs (lit "/w") [] false false 4 None dev_progs dev_items small_safe small_time eq_refl dev_ok small_executes small_lines
    run who late_before dev_calm ltac:(lia) late_lives eq_refl R0 Fr) as (n & N).
  exists n. intros chunks C Sb. destruct (N chunks [] C Sb) as (_ & _ & missed & order & _ & _ & _ & _ & _ & _ & A & _). exists missed, order. exact A.
Qed.
