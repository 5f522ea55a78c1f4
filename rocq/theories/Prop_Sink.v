(** Property C55: frames reach the output of the host unchanged, as text and as JSON. *)
From Verif Require Import Base Utf8 ParserModel DecoderModel DecoderPanic EncodeModel EncodeSpec EncodeTop DisplayModel TextSpec RzcobsModel StreamModel
  LogFormatModel LogFormatSpec LogFormatExamples LogFormatBuiltin Prop_LogFormat SymbolModel LocationModel SinkModel SinkSpec SinkProofs SinkMain SinkExamples.

(** JSON that is written is read back, and takes one line. *)
Theorem C55_json_exact : forall j, json_ok j -> json_document (json_text j) = Some j /\ one_line (json_text j).
Proof. intros j H. exact (conj (document_read j H) (json_line j H)). Qed.
Print Assumptions C55_json_exact.

Example C55_json_ex : json_document (json_text sample) = Some sample.
Proof. vm_compute. reflexivity. Qed.

(** Level and timestamp travel through the target of the record, reading which never gets stuck. *)
Theorem C55_payload : forall l ts, byte_text ts -> read_payload (json_text (payload_json l ts)) = Ok (l, ts).
Proof. exact payload_read. Qed.
Print Assumptions C55_payload.

Theorem C55_payload_total : forall s, (exists p, read_payload s = Ok p) \/ read_payload s = Err tt.
Proof. exact payload_total. Qed.
Print Assumptions C55_payload_total.

(** As text: the formatted record with the level, time, place and message of the frame; for [println!] only the message. *)
Theorem C55_text : forall Y colors segs host_segs verbose X tbl fr file line m ts msg,
  timestamp_text X tbl fr = Some ts -> display_message X tbl fr = Some msg -> byte_text ts ->
  bind (log_defmt X tbl fr file line m) (text_sink Y colors segs host_segs verbose) =
  match f_level fr with
  | Some l => s <- format_record Y colors segs (MkRecord false (Some l) ts file line m msg) ;; Ok [Stdout (s ++ [10])]
  | None => Ok [Stdout (msg ++ [10])]
  end.
Proof. exact text_sink_frame. Qed.
Print Assumptions C55_text.

(** As JSON: one line that says all of this. *)
Theorem C55_json : forall Y colors host_segs verbose now X tbl fr file line m ts msg,
  timestamp_text X tbl fr = Some ts -> display_message X tbl fr = Some msg ->
  byte_text ts -> byte_text msg -> opt_text file -> opt_text m ->
  exists s j, bind (log_defmt X tbl fr file line m) (json_sink Y colors host_segs verbose now) = Ok [Stdout (s ++ [10])] /\
    one_line s /\ json_document s = Some j /\ reports now (f_level fr) ts msg file line m j.
Proof. exact json_sink_frame. Qed.
Print Assumptions C55_json.

(** Records of the host go to the standard error, and only if asked for. *)
Theorem C55_host : forall Y colors segs host_segs verbose now lr, is_defmt_frame (lr_target lr) = false ->
  let out := if verbose : bool then s <- format_record Y colors host_segs (host_record lr) ;; Ok [Stderr (s ++ [10])] else Ok [] in
  text_sink Y colors segs host_segs verbose lr = out /\ json_sink Y colors host_segs verbose now lr = out.
Proof. exact host_sink. Qed.
Print Assumptions C55_host.

(** But a record of the host whose target looks like that of a frame makes the sinks panic, *)
Theorem C55_host_refuted : exists lr, forall Y colors segs host_segs verbose now,
  text_sink Y colors segs host_segs verbose lr = Panic /\ json_sink Y colors host_segs verbose now lr = Panic.
Proof. exists (MkLogRecord (lit "defmt@home") (lit "hello") LInfo None None None). intros Y colors segs hs [] now; split; reflexivity. Qed.
Print Assumptions C55_host_refuted.

(** and notes on damaged frames get among the JSON lines when they are asked for. *)
Theorem C55_json_refuted : exists line rest, forall Y host_segs X tbl locs dir now,
  exists out, print_events false X tbl locs dir (lit "where") true (json_sink Y false host_segs false) [(now, EvSkipped)] = Ok out /\
    stdout_of out = as_lines (line :: rest) /\ json_document line = None.
Proof.
  exists (lit "(HOST) malformed frame skipped"), [lit "where"]. intros Y hs X tbl locs dir now. eexists. split; [reflexivity|].
  split; [vm_compute; reflexivity|vm_compute; reflexivity].
Qed.
Print Assumptions C55_json_refuted.

(** Otherwise the output is one JSON line for each frame, whatever frames are damaged. *)
Theorem C55_json_events : forall Y X tbl locs dir skipped host_segs evs out, all_bytes X tbl locs dir ->
  print_events false X tbl locs dir skipped false (json_sink Y false host_segs false) evs = Ok out ->
  exists ls, stderr_of out = [] /\ stdout_of out = as_lines ls /\ length ls = length (filter is_frame evs) /\
    Forall (fun s => one_line s /\ exists j, json_document s = Some j) ls.
Proof. exact json_events. Qed.
Print Assumptions C55_json_events.

(** From the program to the terminal, with the default format: every statement is printed with
    its time, level and message, in order, and nothing else is printed. *)
Theorem C55_default : forall X Y addr tbl host_segs locs current_dir skipped stmts frs chunks texts times segs,
  table_safe tbl -> external_ok Y -> wide_enough Y ->
  executed addr tbl stmts frs chunks -> printed_as X tbl stmts frs texts -> Forall (fun t => ordinary Y (snd t)) texts -> Forall (timely Y) texts ->
  length times = length frs ->
  parse_log_format Y (formatter_string FDefault false (match t_timestamp tbl with Some _ => true | None => false end) false) = Ok segs ->
  exists out, print_events false X tbl locs current_dir skipped false (no_clock (text_sink Y false segs host_segs false))
      (combine times (fst (host_run EncRzcobs tbl [] chunks))) = Ok out /\
    stderr_of out = [] /\
    stdout_of out = as_lines (map (fun ft => default_line (match t_timestamp tbl with Some _ => true | None => false end)
      (f_level (fst ft)) (fst (snd ft)) (snd (snd ft))) (combine frs texts)).
Proof. exact default_run. Qed.
Print Assumptions C55_default.

Example C55_default_ex : table_safe sink_prog /\ external_ok Y0 /\ wide_enough Y0 /\ executed sink_addr sink_prog sink_stmts sink_frames sink_chunks /\
  printed_as D0 sink_prog sink_stmts sink_frames sink_texts /\ Forall (fun t => ordinary Y0 (snd t)) sink_texts /\ Forall (timely Y0) sink_texts /\
  as_lines (map (fun ft => default_line true (f_level (fst ft)) (fst (snd ft)) (snd (snd ft))) (combine sink_frames sink_texts)) =
  lit "0.005000 WARN  x = 200 a""b" ++ [10] ++ lit "hi" ++ [10].
Proof.
  split; [exact sink_safe|]. split; [exact X0_ok|]. split; [vm_compute; discriminate|]. split; [exact sink_executed|]. split; [exact sink_printed|].
  split; [exact sink_ordinary|]. split; [|vm_compute; reflexivity].
  repeat (constructor; [split; [vm_compute; repeat constructor; discriminate|vm_compute; discriminate]|]). constructor.
Qed.

(** The same as JSON. *)
Theorem C55_json_run : forall X Y addr tbl host_segs locs current_dir skipped stmts frs chunks texts times,
  table_safe tbl -> locs_text locs current_dir ->
  executed addr tbl stmts frs chunks -> printed_as X tbl stmts frs texts -> Forall (fun t => byte_text (fst t) /\ byte_text (snd t)) texts ->
  length times = length frs ->
  exists out ls, print_events false X tbl locs current_dir skipped false (json_sink Y false host_segs false)
      (combine times (fst (host_run EncRzcobs tbl [] chunks))) = Ok out /\
    stderr_of out = [] /\ stdout_of out = as_lines ls /\ Forall2 (reported locs current_dir) (combine (combine frs texts) times) ls.
Proof. exact json_run. Qed.
Print Assumptions C55_json_run.

Example C55_json_run_ex : map json_document [json_text_1; json_text_2] <> [None; None] /\
  print_events false D0 sink_prog sink_locs (lit "/w") [] false (json_sink Y0 false [] false) sink_events =
  Ok [Stdout (json_text_1 ++ [10]); Stdout (json_text_2 ++ [10])].
Proof. split; [vm_compute; discriminate|exact printed_json]. Qed.
