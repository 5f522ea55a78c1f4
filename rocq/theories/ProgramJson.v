(** From the macro invocations of a program to a consumer of the JSON output (C73). *)
From Verif Require Import Base Utf8 ParserModel DecoderModel DecoderPanic EncodeModel EncodeSpec EncodeTop Numerals DisplayModel TextSpec RzcobsModel StreamModel
  LogFormatModel LogFormatSpec LogFormatBuiltin SymbolModel SymbolProofs LocationModel SinkModel SinkSpec SinkMain HostModel HostSpec HostProofs
  LoggerModel LoggerSpec LoggerMain DeviceModel DeviceSpec DeviceProofs DeviceLive DeviceRun DeviceMain
  EnvFilterModel EnvFilterSpec TableModel TableSpec TableProofs TableMain FlagsModel FlagsSpec LinkModel LinkSpec LinkProofs LinkMain LinkTable LinkLevels LinkHost LinkDevice.
From Verif Require RttModel SchemaModel SchemaProofs.

(** The texts of a statement, for JSON. *)
Definition tellable (X : externals) (t : table) (x : said) : Prop :=
  says_statement X t (sd_time_args x) (sd_args x) (sd_frame x) (sd_time x) (sd_message x) /\ byte_text (sd_time x) /\ byte_text (sd_message x).

(** The frame of the schema [f] tells the statement [x], shown at the time [now]. *)
Definition tells_of (locs : option (list (Z * location))) (dir : bytes) (b : nat * said * Z) (f : SchemaModel.json_frame) : Prop :=
  let '(_, x, now) := b in SchemaProofs.told locs dir (sd_frame x, (sd_time x, sd_message x), now) f.

Lemma order_told : forall X Y addr tbl locs dir skipped host_segs order times,
  (forall fr, let '(file, _, m) := location_info locs fr dir in opt_text file /\ opt_text m) ->
  (forall i x, In (i, x) order -> exists w, says addr tbl w x) -> (forall i x, In (i, x) order -> tellable X tbl x) ->
  Forall (fun now => - 2 ^ 63 <= now) times -> length times = length order ->
  exists out fs, print_events false X tbl locs dir skipped false (json_sink Y false host_segs false) (combine times (frames_of order)) = Ok out /\
    SchemaModel.read_output (schema_line ++ stdout_of out) = Ok fs /\ Forall2 (tells_of locs dir) (combine order times) fs.
Proof.
  intros X Y addr tbl locs dir skipped hs order times HL Sy Te Hn Lt.
  destruct (SchemaProofs.consumer_events X tbl Y locs dir skipped hs (map (fun o : nat * said => sd_frame (snd o)) order)
    (map (fun o : nat * said => (sd_time (snd o), sd_message (snd o))) order) times HL) as (out & ls & fs & E & E1 & E2 & E3 & E4); auto.
  - clear - Sy Te. induction order as [|[i x] order IH]; constructor.
    + cbn [fst snd]. destruct (Te i x (or_introl eq_refl)) as (R1 & _). destruct (Sy i x (or_introl eq_refl)) as (w & _ & M). eapply timestamp_says; eauto.
    + apply IH; intros j y H; [apply (Sy j)|apply (Te j)]; now right.
  - apply Forall_forall. intros t H. apply in_map_iff in H as ([i x] & <- & H). cbn [fst snd]. destruct (Te i x H) as (_ & A & B). split; auto.
  - now rewrite map_length.
  - exists out, fs. split; [exact E|]. split; [now apply (SchemaProofs.output_read out ls fs)|].
    clear - E4 Lt. revert times fs Lt E4. induction order as [|[i x] order IH]; intros [|now times] fs Lt F; try discriminate; cbn [map combine snd] in *.
    + inversion F. constructor.
    + inversion F; subst. constructor; [assumption|]. apply IH; auto.
Qed.

Theorem program_told : forall p k, program_ok p -> link p = Ok k -> forall sec f, binary p k sec f ->
  forall check t, parse_elf check f = Ok (Some t) ->
  forall X Y addr ts host_segs locs dir skipped size msg progs items enc run who,
    program_safe p -> timestamp_is p ts -> chosen_encoding (p_features p) = Some enc ->
    programs_ok msg progs -> Forall calm progs -> 2 <= size -> locs_text locs dir ->
    (forall i tasks, nth_error progs i = Some tasks -> Forall2 (executes p k addr t ts) (spoken msg tasks) (items i)) ->
    (forall i x, In x (items i) -> tellable X t x) ->
    device_boot size progs (run O) -> device_fair size enc msg run who ->
    exists n, forall chunks hs, concat chunks = RttModel.r_delivered (d_chan (run n)) -> Forall some_bytes chunks ->
      exists order evs, (forall i x, In (i, x) order -> (i < length progs)%nat) /\
        (forall i, (i < length progs)%nat -> items i = of_context i order) /\
        defmt_print false true Stdin (Loads t) (HostSpec.reads chunks ++ Read (Ok []) :: hs) = (Schema :: map (Event t) evs, Finished true) /\
        forall times, Forall (fun now => - 2 ^ 63 <= now) times -> length times = length order -> exists out fs,
          print_events false X t locs dir skipped false (json_sink Y false host_segs false) (combine times evs) = Ok out /\
          SchemaModel.read_output (schema_line ++ stdout_of out) = Ok fs /\ Forall2 (tells_of locs dir) (combine order times) fs.
Proof.
  intros p k OK L sec f B check t P X Y addr ts host_segs locs dir skipped size msg progs items enc run who S T En H1 H2 H3 HL Ex Te Bt Fr.
  rewrite (device_encoding p k OK L sec f B check t P) in En. injection En as En.
  assert (Sy : forall i tasks, nth_error progs i = Some tasks -> Forall2 (says addr t) (spoken msg tasks) (items i)).
  { intros i tasks Ni. specialize (Ex i tasks Ni). clear - Ex OK L B P T. induction Ex; constructor; auto. eapply executed_says; eauto. }
  destruct (everything_arrives size enc msg progs run who H1 H2 H3 Bt Fr) as (n & Fi & _ & D). exists n. intros chunks hs C Sb.
  assert (R : device_reaches size enc msg progs (run n)).
  { exists (run O). split; auto. clear - Fr. induction n as [|n IH]; [constructor|]. econstructor; [exact IH|]. destruct Fr as (H & _). apply H. }
  destruct (frames_in_the_end addr t enc size msg progs items H1 (linked_safe p k OK L sec f B check t P S) En Sy true (run n) chunks hs R H2 Fi D C Sb) as (order & O1 & O2 & O3 & O4).
  exists order, (frames_of order). split; [exact O1|]. split; [exact O3|]. split; [exact O4|]. intros times Hn Lt.
  apply (order_told X Y addr); auto. intros i x H. apply (Te i). rewrite (O3 i (O1 i x H)). apply in_of_context. exact H.
Qed.

(** At any moment the consumer has complete statements, those of each context in order. *)
Theorem program_told_so_far : forall p k, program_ok p -> link p = Ok k -> forall sec f, binary p k sec f ->
  forall check t, parse_elf check f = Ok (Some t) ->
  forall X Y addr ts host_segs locs dir skipped size msg progs items enc,
    program_safe p -> timestamp_is p ts -> chosen_encoding (p_features p) = Some enc ->
    programs_ok msg progs -> locs_text locs dir ->
    (forall i tasks, nth_error progs i = Some tasks -> Forall2 (executes p k addr t ts) (spoken msg tasks) (items i)) ->
    (forall i x, In x (items i) -> tellable X t x) ->
    forall d chunks s, enc = EncRzcobs \/ Forall calm progs -> device_reaches size enc msg progs d -> concat chunks = RttModel.r_delivered (d_chan d) ->
    s <> Stdin \/ Forall some_bytes chunks ->
    exists order evs buf, (forall i x, In (i, x) order -> (i < length progs)%nat) /\
      (forall i, (i < length progs)%nat -> exists more, items i = of_context i order ++ more) /\
      defmt_print false true s (Loads t) (HostSpec.reads chunks) = (Schema :: map (Event t) evs, Running t buf) /\
      forall times, Forall (fun now => - 2 ^ 63 <= now) times -> length times = length order -> exists out fs,
        print_events false X t locs dir skipped false (json_sink Y false host_segs false) (combine times evs) = Ok out /\
        SchemaModel.read_output (schema_line ++ stdout_of out) = Ok fs /\ Forall2 (tells_of locs dir) (combine order times) fs.
Proof.
  intros p k OK L sec f B check t P X Y addr ts host_segs locs dir skipped size msg progs items enc S T En H1 HL Ex Te d chunks s Cm R C Hs.
  rewrite (device_encoding p k OK L sec f B check t P) in En. injection En as En.
  assert (Sy : forall i tasks, nth_error progs i = Some tasks -> Forall2 (says addr t) (spoken msg tasks) (items i)).
  { intros i tasks Ni. specialize (Ex i tasks Ni). clear - Ex OK L B P T. induction Ex; constructor; auto. eapply executed_says; eauto. }
  destruct (frames_so_far addr t enc size msg progs items H1 (linked_safe p k OK L sec f B check t P S) En Sy true d chunks s Cm R C Hs) as (order & buf & O1 & O2 & O3 & O4).
  exists order, (frames_of order), buf. split; [exact O1|]. split; [exact O3|]. split; [exact O4|]. intros times Hn Lt.
  apply (order_told X Y addr); auto. intros i x H. apply (Te i). destruct (O3 i (O1 i x H)) as (more & ->). apply in_or_app. left. now apply in_of_context.
Qed.
