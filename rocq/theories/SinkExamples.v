(** The sinks on concrete records. *)
From Verif Require Import Base Utf8 ParserModel DecoderModel DecoderPanic DecoderExamples EncodeModel EncodeSpec EncodeTop EncodeExamples DisplayModel DisplayExamples TextExamples StreamModel RzcobsModel
  LogFormatModel LogFormatSpec LogFormatExamples LogFormatBuiltin SymbolModel LocationModel SinkModel SinkSpec SinkProofs SinkMain.

Definition Y0 : external := LogFormatExamples.X0.
Definition D0 : externals := DisplayExamples.X0.

Definition sample : json := JObj [(lit "a", JArr [JInt (-12); JNull; JStr [34; 10; 31; 92; 127]; JArr []; JObj []]); (lit "b", JInt 0)].
Example sample_text : json_text sample = lit "{""a"":[-12,null,""\""\n\u001f\\" ++ [127] ++ lit """,[],{}],""b"":0}".
Proof. vm_compute. reflexivity. Qed.
Example sample_read : json_document (lit " { ""b"" : [ -12 , 7 ] } ") = Some (JObj [(lit "b", JArr [JInt (-12); JInt 7])]).
Proof. vm_compute. reflexivity. Qed.
Example not_json : map json_document [lit "{""a"":01}"; lit "[1,]"; lit "1 2"; lit "1.5"; lit "nul"; lit "{a:1}"; lit ""] = repeat None 7.
Proof. vm_compute. reflexivity. Qed.

(** A program with two statements and a timestamp; its frames arrive one byte at a time. *)
Definition sink_prog : table := MkTable (Some (ent GTimestamp "{=u64:us}"))
  [(1, ent GWarn "x = {=u8} {=str}"); (2, ent GPrintln "hi")] [] EncRzcobs.
Definition sink_addr : bytes -> Z := find_addr (t_entries sink_prog).
Definition sink_writes : list (list bytes) :=
  [[encode_frame sink_addr 1 (Some (lit "{=u64:us}")) [AvPrim (VNum 5000)] (lit "x = {=u8} {=str}") [AvPrim (VNum 200); AvPrim (VText (lit "a""b"))]];
   [encode_frame sink_addr 2 (Some (lit "{=u64:us}")) [AvPrim (VNum 5001)] (lit "hi") []]].
Definition sink_chunks : list bytes := map (fun b => [b]) (snd (frames_chunks enc_new sink_writes)).
Definition sink_locs : option (list (Z * location)) :=
  Some [(1, MkLocation (lit "/w/src/main.rs") 12 (lit "app::net::run")); (2, MkLocation (lit "/w/src/main.rs") 14 (lit "app"))].
Definition sink_events : list (Z * event) := combine [1700; 1800] (fst (host_run EncRzcobs sink_prog [] sink_chunks)).

Example printed_text : print_events false D0 sink_prog sink_locs (lit "/w") [] false
    (no_clock (text_sink Y0 false (builtin_segments FDefault false true false) [] false)) sink_events =
  Ok [Stdout (lit "0.005000 WARN  x = 200 a""b" ++ [10]); Stdout (lit "hi" ++ [10])].
Proof. vm_compute. reflexivity. Qed.

Definition json_text_1 : bytes :=
  lit "{""data"":""x = 200 a\""b"",""host_timestamp"":1700,""level"":""WARN"",""location"":{""file"":""src/main.rs"",""line"":12,""module_path"":{""crate_name"":""app"",""modules"":[""net""],""function"":""run""}},""target_timestamp"":""0.005000""}".
Definition json_text_2 : bytes :=
  lit "{""data"":""hi"",""host_timestamp"":1800,""level"":null,""location"":{""file"":""src/main.rs"",""line"":14,""module_path"":null},""target_timestamp"":""0.005001""}".

Example printed_json : print_events false D0 sink_prog sink_locs (lit "/w") [] false (json_sink Y0 false [] false) sink_events =
  Ok [Stdout (json_text_1 ++ [10]); Stdout (json_text_2 ++ [10])].
Proof. vm_compute. reflexivity. Qed.

(** The hypotheses of the theorems about runs hold here. *)
Definition sink_stmts : list (Z * list aval * list aval) :=
  [(1, [AvPrim (VNum 5000)], [AvPrim (VNum 200); AvPrim (VText (lit "a""b"))]); (2, [AvPrim (VNum 5001)], [])].
Definition sink_frames : list frame :=
  [MkFrame (Some LWarn) 1 (Some (lit "{=u64:us}")) [AUxx 5000] (lit "x = {=u8} {=str}") [AUxx 200; AStr (lit "a""b")];
   MkFrame None 2 (Some (lit "{=u64:us}")) [AUxx 5001] (lit "hi") []].
Definition sink_texts : list (bytes * bytes) := [(lit "0.005000", lit "x = 200 a""b"); (lit "0.005001", lit "hi")].

Lemma sink_means : Forall2 (fun s fr => let '(index, tsa, args) := s in frame_means sink_addr sink_prog index tsa args fr) sink_stmts sink_frames.
Proof.
  constructor; [|constructor; [|constructor]].
  - split; [lia|]. split; [reflexivity|]. split; [reflexivity|]. split.
    + exists [TU W8; TStr]. split; [types_tac|]. repeat (apply MA_cons || apply MA_nil); (eapply MG_prim; [reflexivity|]); constructor; vm_compute; auto; split; discriminate || reflexivity.
    + cbn [t_timestamp sink_prog]. split; [reflexivity|]. exists [TU W64]. split; [types_tac|].
      repeat (apply MA_cons || apply MA_nil); (eapply MG_prim; [reflexivity|]); constructor; vm_compute; split; discriminate || reflexivity.
  - split; [lia|]. split; [reflexivity|]. split; [reflexivity|]. split.
    + exists []. split; [types_tac|constructor].
    + cbn [t_timestamp sink_prog]. split; [reflexivity|]. exists [TU W64]. split; [types_tac|].
      repeat (apply MA_cons || apply MA_nil); (eapply MG_prim; [reflexivity|]); constructor; vm_compute; split; discriminate || reflexivity.
Qed.

Lemma sink_executed : executed sink_addr sink_prog sink_stmts sink_frames sink_chunks.
Proof.
  split; [exact sink_means|]. exists sink_writes. split; [|vm_compute; reflexivity].
  repeat constructor.
Qed.

Lemma sink_printed : printed_as D0 sink_prog sink_stmts sink_frames sink_texts.
Proof.
  pose proof sink_means as M. inversion M as [|? ? ? ? M1 M']; subst. inversion M' as [|? ? ? ? M2 _]; subst.
  assert (Q : forall index tsa args fr time message, frame_means sink_addr sink_prog index tsa args fr ->
    display_timestamp D0 sink_prog fr = Some (Some time) -> display_message D0 sink_prog fr = Some message -> says_statement D0 sink_prog tsa args fr time message).
  { intros index tsa args fr time message F T S. split.
    - destruct (TextMain.message_text D0 sink_addr sink_prog index tsa args fr [] F) as (frags & E & _ & W). exists frags. split; [exact E|now apply W].
    - cbn [t_timestamp sink_prog]. destruct (TextMain.timestamp_text D0 sink_addr sink_prog index tsa args fr _ F eq_refl) as (frags & E & W).
      exists frags. split; [exact E|now apply W]. }
  constructor; [|constructor; [|constructor]].
  - eapply Q; [exact M1|vm_compute; reflexivity|vm_compute; reflexivity].
  - eapply Q; [exact M2|vm_compute; reflexivity|vm_compute; reflexivity].
Qed.

Lemma sink_safe : table_safe sink_prog.
Proof. apply table_safe_b_ok. vm_compute. reflexivity. Qed.

Lemma sink_ordinary : Forall (fun t => ordinary Y0 (snd t)) sink_texts.
Proof.
  constructor; [|constructor; [|constructor]]; (split; [|split; [|vm_compute; discriminate]]); cbn [snd].
  1,3: intros [|x [|y before]] a b [N E]; [congruence|vm_compute in E; discriminate|]; vm_compute in E; destruct before; discriminate.
  1,2: intros (before & a & b & N & E & _); destruct before as [|x [|y before]]; [congruence|vm_compute in E; discriminate|]; vm_compute in E; destruct before; discriminate.
Qed.
