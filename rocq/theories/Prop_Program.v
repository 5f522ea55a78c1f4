(** Property C73, from the macros of a linked program to the consumer of the JSON output. *)
From Verif Require Import Base Utf8 ParserModel DecoderModel DecoderPanic EncodeModel EncodeSpec EncodeTop EncodeExamples DisplayModel DisplayExamples TextSpec RzcobsModel StreamModel
  LogFormatModel LogFormatSpec LogFormatExamples SymbolModel LocationModel SinkModel SinkSpec SinkMain SinkExamples HostModel HostSpec
  LoggerModel LoggerSpec LoggerMain DeviceModel DeviceSpec DeviceProofs DeviceLive DeviceRun DeviceMain DeviceExamples
  EnvFilterModel EnvFilterSpec TableModel TableSpec TableProofs TableMain FlagsModel FlagsSpec LinkModel LinkSpec LinkProofs LinkMain LinkTable LinkLevels LinkHost LinkDevice LinkExamples ProgramJson.
From Verif Require RttModel SchemaModel SchemaProofs.

(** Every statement of every context of a linked program is a frame of the schema for the consumer: its
    message, time, level and place; those of each context in the order of its program; and nothing else. *)
Theorem C73_program : forall p k, program_ok p -> link p = Ok k -> forall sec f, binary p k sec f ->
  forall check t, parse_elf check f = Ok (Some t) ->
  forall X Y addr ts host_segs locs dir skipped size msg progs items enc run who,
    program_safe p -> timestamp_is p ts -> chosen_encoding (p_features p) = Some enc ->
    programs_ok msg progs -> Forall calm progs -> 2 <= size -> locs_text locs dir ->
    (forall i tasks, nth_error progs i = Some tasks -> Forall2 (executes p k addr t ts) (spoken msg tasks) (items i)) ->
    (forall i x, In x (items i) -> tellable X t x) ->
    device_boot size progs (run O) -> device_fair size enc msg run who ->
    exists n, forall chunks hs, concat chunks = RttModel.r_delivered (d_chan (run n)) -> Forall some_bytes chunks ->
      exists order evs, (forall i x, In (i, x) order -> (i < length progs)%nat) /\
        (forall i, (i < length progs)%nat -> items i = of_context i order) /\
        defmt_print false true Stdin (Loads t) (HostSpec.reads chunks ++ Read (Ok []) :: hs) = (Schema :: map (Event t) evs, Finished true) /\
        forall times, Forall (fun now => - 2 ^ 63 <= now) times -> length times = length order -> exists out fs,
          print_events false X t locs dir skipped false (json_sink Y false host_segs false) (combine times evs) = Ok out /\
          SchemaModel.read_output (schema_line ++ stdout_of out) = Ok fs /\ Forall2 (tells_of locs dir) (combine order times) fs.
Proof. exact program_told. Qed.
Print Assumptions C73_program.

(** At any moment of the run the consumer has read complete statements, those of each context from its first one on without gaps. *)
Theorem C73_so_far : forall p k, program_ok p -> link p = Ok k -> forall sec f, binary p k sec f ->
  forall check t, parse_elf check f = Ok (Some t) ->
  forall X Y addr ts host_segs locs dir skipped size msg progs items enc,
    program_safe p -> timestamp_is p ts -> chosen_encoding (p_features p) = Some enc ->
    programs_ok msg progs -> locs_text locs dir ->
    (forall i tasks, nth_error progs i = Some tasks -> Forall2 (executes p k addr t ts) (spoken msg tasks) (items i)) ->
    (forall i x, In x (items i) -> tellable X t x) ->
    forall d chunks s, enc = EncRzcobs \/ Forall calm progs -> device_reaches size enc msg progs d -> concat chunks = RttModel.r_delivered (d_chan d) ->
    s <> Stdin \/ Forall some_bytes chunks ->
    exists order evs buf, (forall i x, In (i, x) order -> (i < length progs)%nat) /\
      (forall i, (i < length progs)%nat -> exists more, items i = of_context i order ++ more) /\
      defmt_print false true s (Loads t) (HostSpec.reads chunks) = (Schema :: map (Event t) evs, Running t buf) /\
      forall times, Forall (fun now => - 2 ^ 63 <= now) times -> length times = length order -> exists out fs,
        print_events false X t locs dir skipped false (json_sink Y false host_segs false) (combine times evs) = Ok out /\
        SchemaModel.read_output (schema_line ++ stdout_of out) = Ok fs /\ Forall2 (tells_of locs dir) (combine order times) fs.
Proof. exact program_told_so_far. Qed.
Print Assumptions C73_so_far.

Lemma small_tellable : forall i x, In x (dev_items i) -> tellable D0 small_table x.
Proof.
  intros i x I. destruct (small_readable i x I) as (A & _ & B & _). split; [exact A|]. split; [exact B|].
  destruct i as [|[|i]]; [| |destruct I]; destruct I as [<-|[]]; vm_compute; repeat constructor; discriminate.
Qed.

Example C73_program_ex : (forall i x, In x (dev_items i) -> tellable D0 small_table x) /\ locs_text sink_locs (lit "/w") /\
  exists out fs, print_events false D0 small_table sink_locs (lit "/w") [] false (json_sink Y0 false [] false)
      (combine [1700; 1800] (frames_of [(1%nat, nth 0 (dev_items 1) (nth 0 (dev_items 0) (MkSaid 0 [] [] (MkFrame None 0 None [] [] []) [] []))); (0%nat, nth 0 (dev_items 0) (MkSaid 0 [] [] (MkFrame None 0 None [] [] []) [] []))])) = Ok out /\
    SchemaModel.read_output (schema_line ++ stdout_of out) = Ok fs /\
    map SchemaModel.jf_data fs = [lit "hi"; lit "x = 200 a""b"] /\ map SchemaModel.jf_level fs = [None; Some LWarn] /\
    map SchemaModel.jf_host fs = [1700; 1800] /\ map SchemaModel.jf_target fs = [lit "0.005001"; lit "0.005000"].
Proof.
  split; [exact small_tellable|]. split.
  - intros fr. unfold location_info. cbn [sink_locs]. cbn [loc_get].
    destruct (f_index fr =? 1); [|destruct (f_index fr =? 2); [|split; exact I]]; split; vm_compute; repeat constructor; discriminate.
  - do 2 eexists. split; [vm_compute; reflexivity|]. split; [vm_compute; reflexivity|]. vm_compute. auto.
Qed.
