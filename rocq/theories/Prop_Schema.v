(** Property C73: the JSON output is read back by the schema crate. *)
From Coq Require Import Permutation.
From Verif Require Import Base Utf8 ParserModel DecoderModel DecoderPanic EncodeModel EncodeSpec EncodeTop DisplayModel TextSpec RzcobsModel StreamModel
  LogFormatModel LogFormatSpec LogFormatExamples SymbolModel LocationModel SinkModel SinkSpec SinkProofs SinkMain SinkExamples SchemaModel SchemaProofs.

(** Values of the schema survive being written and read, *)
Theorem C73_value : forall f, frame_typed f -> from_str as_frame (json_text (frame_value f)) = Some f.
Proof. exact frame_round. Qed.
Print Assumptions C73_value.

(** in any order of their fields and among fields that are not known. *)
Theorem C73_fields : forall f extra l, frame_typed f -> Permutation l (frame_fields f ++ extra) ->
  (forall k v, In (k, v) extra -> ~ In k known) -> as_frame (JObj l) = Some f.
Proof. exact frame_back. Qed.
Print Assumptions C73_fields.

Definition place_1 : place := MkPlace (Some (lit "src/bin/hello.rs")) (Some 33) (Some (MkModulePath (lit "hello") [lit "test_m"; lit "inner_test_m"] (lit "test_f"))).
Definition frame_1 : json_frame := MkJsonFrame (lit "I am nested in 2 modules.") 1642698490361160422 (Some LWarn) place_1 (lit "2").

Example C73_fields_ex : frame_typed frame_1 /\
  from_str as_frame (lit "{ ""level"" :""warn"", ""new"":[1,{}],""host_timestamp"":1642698490361160422,""location"":{""line"":33,""module_path"":[""hello"",[""test_m"",""inner_test_m""],""test_f""],""file"":""src\/bin\/hello.rs""},""target_timestamp"":""2"",""data"":""I am nested in 2 modules.""} ") = Some frame_1 /\
  from_str as_frame (lit "{""data"":"""",""host_timestamp"":1,""host_timestamp"":1,""location"":{},""target_timestamp"":""2""}") = None /\
  from_str as_frame (lit "{""data"":"""",""host_timestamp"":1,""location"":{},""target_timestamp"":""2""}") = Some (MkJsonFrame [] 1 None (MkPlace None None None) (lit "2")) /\
  from_str as_frame (lit "{""data"":"""",""host_timestamp"":1,""location"":{""line"":4294967296},""target_timestamp"":""2""}") = None.
Proof.
  split; [|vm_compute; auto]. assert (B : forall s, forallb (fun b => 0 <=? b) s = true -> byte_text s) by exact lit_bytes.
  repeat split; try (apply B; reflexivity); try (cbn; lia). repeat (constructor; [apply B; reflexivity|]). constructor.
Qed.

(** From the program to the consumer: one frame of the schema for each statement, with its time, level,
    message and place, in order. *)
Theorem C73_run : forall X Y addr tbl host_segs locs dir skipped stmts frs chunks texts times,
  table_safe tbl -> locs_text locs dir ->
  executed addr tbl stmts frs chunks -> printed_as X tbl stmts frs texts -> Forall (fun t => byte_text (fst t) /\ byte_text (snd t)) texts ->
  Forall (fun now => - 2 ^ 63 <= now) times -> length times = length frs ->
  exists out fs, print_events false X tbl locs dir skipped false (json_sink Y false host_segs false)
      (combine times (fst (host_run EncRzcobs tbl [] chunks))) = Ok out /\
    read_output (schema_line ++ stdout_of out) = Ok fs /\ Forall2 (told locs dir) (combine (combine frs texts) times) fs.
Proof. exact consumer_run. Qed.
Print Assumptions C73_run.

(** And for any stream, with the frames that are not damaged. *)
Theorem C73_stream : forall Y X tbl locs dir skipped host_segs evs out, all_bytes X tbl locs dir -> Forall (fun ev => - 2 ^ 63 <= fst ev) evs ->
  print_events false X tbl locs dir skipped false (json_sink Y false host_segs false) evs = Ok out ->
  exists fs, read_output (schema_line ++ stdout_of out) = Ok fs /\ Forall2 (displayed X tbl locs dir) (frames_in evs) fs.
Proof. exact consumer_stream. Qed.
Print Assumptions C73_stream.

Example C73_run_ex : exists a b, read_output (schema_line ++ as_lines [json_text_1; json_text_2]) = Ok [a; b] /\
  map jf_data [a; b] = [lit "x = 200 a""b"; lit "hi"] /\ map jf_level [a; b] = [Some LWarn; None] /\ jf_target a = lit "0.005000".
Proof. do 2 eexists. split; [vm_compute; reflexivity|]. vm_compute. auto. Qed.

(** With notes on skipped frames among the lines, the reader panics. *)
Theorem C73_skipped_refuted : exists now skipped, forall Y host_segs X tbl locs dir,
  exists out, print_events false X tbl locs dir skipped true (json_sink Y false host_segs false) [(now, EvSkipped)] = Ok out /\
    read_output (schema_line ++ stdout_of out) = Panic.
Proof. exists 0, (lit "where"). intros. eexists. split; [reflexivity|]. vm_compute. reflexivity. Qed.
Print Assumptions C73_skipped_refuted.

(** The example of the repository ([examples/simple.json]). *)
Definition simple_json : list bytes := [
  lit "{""schema_version"":1}";
  lit "{""data"":""I am a PRINTLN-statement"",""host_timestamp"":1642698490360848721,""level"":null,""location"":{""file"":""src/bin/hello.rs"",""line"":9,""module_path"":{""crate_name"":""hello"",""modules"":[],""function"":""__cortex_m_rt_main""}},""target_timestamp"":""0""}";
  lit "{""data"":""S { a: 8 }"",""host_timestamp"":1642698490361019228,""level"":""TRACE"",""location"":{""file"":""src/bin/hello.rs"",""line"":26,""module_path"":{""crate_name"":""hello"",""modules"":[""{impl#0}""],""function"":""abc""}},""target_timestamp"":""1""}";
  lit "{""data"":""I am nested in 2 modules."",""host_timestamp"":1642698490361160422,""level"":""WARN"",""location"":{""file"":""src/bin/hello.rs"",""line"":33,""module_path"":{""crate_name"":""hello"",""modules"":[""test_m"",""inner_test_m""],""function"":""test_f""}},""target_timestamp"":""2""}"].

Example C73_simple_ex : match read_output (as_lines simple_json) with
  | Ok [a; b; c] => map jf_level [a; b] = [None; Some LTrace] /\ option_map mp_modules (pl_module (jf_place b)) = Some [lit "{impl#0}"] /\ c = frame_1 /\
      as_lines simple_json = as_lines (map json_text (version_value 1 :: map frame_value [a; b; c]))
  | _ => False
  end.
Proof. vm_compute. auto. Qed.
