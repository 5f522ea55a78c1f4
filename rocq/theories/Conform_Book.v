(** The model against examples of the book, [book/src/hints.md], [book/src/custom-log-output.md],
    [book/src/filtering.md].  These are no claims; where the code does not do what the book says there
    is a theorem (C32, C41). *)
From Verif Require Import Base ParserModel DecoderModel DisplayModel EncodeModel LibTypesModel ConformBase.
From Verif Require LogFormatModel LogFormatExamples EnvFilterModel EnvFilterExamples.

Local Notation n := VNum.
Local Notation num k := (AvPrim (VNum k)).

(** [core]'s [{:?}] of strings, for what occurs below. *)
Definition quoted (s : bytes) : bytes := [34] ++ flat_map (fun b => if b =? 9 then [92; 116] else [b]) s ++ [34].
Definition cbor (s : bytes) : bytes := if beq s [161; 4; 68; 107; 105; 100; 49] then lit "{4: 'kid1'}" else [].
Definition X : externals := MkExternals (fun _ => []) (fun _ => []) quoted cbor (fun _ s => s).

(** ** hints.md *)

Definition hello : bytes := lit "hello" ++ [9] ++ lit "world".
Definition slice : bytes := [4; 101; 5; 108; 6; 111].
Definition derived : rty := RStruct (lit "S") KNamed [fd "x" (RPrim (PU W8))].
Definition manual : rval := writes "S {{ x: {=u8}, y: {=u8:x} }}" [num 42; num 42].

Definition hints : list (statement * bytes) := [
  (info "{=u8:x}" [num 42], lit "INFO 2a"); (info "{=u8:X}" [num 42], lit "INFO 2A");
  (info "{=u8:#x}" [num 42], lit "INFO 0x2a"); (info "{=u8:b}" [num 42], lit "INFO 101010");
  (info "{=str}" [AvPrim (VText hello)], lit "INFO hello" ++ [9] ++ lit "world");
  (info "{=str:?}" [AvPrim (VText hello)], lit "INFO ""hello\tworld""");
  (info "{=[u8]:a}" [AvBytes [104; 101; 255; 108; 108; 111]], lit "INFO b""he\xffllo""");
  (info "Peer ID: {=[u8]:cbor}" [AvBytes [161; 4; 68; 107; 105; 100; 49]], lit "INFO Peer ID: {4: 'kid1'}");
  (info "{=u8:b}" [num 42], lit "INFO 101010"); (info "{=u8:#b}" [num 42], lit "INFO 0b101010");
  (info "{=u8:o}" [num 42], lit "INFO 52"); (info "{=u8:#o}" [num 42], lit "INFO 0o52");
  (info "{=u8:x}" [num 42], lit "INFO 2a"); (info "{=u8:#x}" [num 42], lit "INFO 0x2a");
  (info "{=u8:X}" [num 42], lit "INFO 2A"); (info "{=u8:#X}" [num 42], lit "INFO 0x2A");
  (info "{=u8}" [num 42], lit "INFO 42"); (info "{=u8:04}" [num 42], lit "INFO 0042");
  (info "{=u8:08X}" [num 42], lit "INFO 0000002A"); (info "{=u8:#08X}" [num 42], lit "INFO 0x00002A");
  (info "{=[u8]}" [AvBytes slice], lit "INFO [4, 101, 5, 108, 6, 111]");
  (info "{=[u8]:x}" [AvBytes slice], lit "INFO [4, 65, 5, 6c, 6, 6f]");
  (info "{=[u8]:#04x}" [AvBytes slice], lit "INFO [0x04, 0x65, 0x05, 0x6c, 0x06, 0x6f]");
  (info "{=[u8]:#010b}" [AvBytes slice], lit "INFO [0b00000100, 0b01100101, 0b00000101, 0b01101100, 0b00000110, 0b01101111]");
  (info "{}" [AvFmt derived (VList [n 42])], lit "INFO S { x: 42 }");
  (info "{:#x}" [AvFmt derived (VList [n 42])], lit "INFO S { x: 0x2a }");
  (info "{}" [AvFmt RManual manual], lit "INFO S { x: 42, y: 2a }");
  (info "{:b}" [AvFmt RManual manual], lit "INFO S { x: 101010, y: 2a }")].

Example hints_md : run X (map fst hints) = map (fun x => Some (snd x)) hints.
Proof. vm_compute. reflexivity. Qed.

(** ** custom-log-output.md *)

Section Output.
  Import LogFormatModel.
  Definition show (file : string) (line : Z) (message : string) (format : string) : outcome unit bytes :=
    l <- parse_log_format LogFormatExamples.X0 (lit format) ;;
    format_record LogFormatExamples.X0 false l
      (MkRecord false (Some LDebug) [] (Some (lit file)) (Some line) (Some (lit "my_crate::foo::bar")) (lit message)).
  Definition simple : string -> outcome unit bytes := show "/path/to/crate/src/foo/bar.rs" 24 "hello".

  Example output_md :
    map simple ["{s}"; "Log: {s}"; "[{L}] {s}"; "{c} {s}"; "{f} {s}"; "{ff} {s}"; "{fff} {s}"; "{F} {s}"; "{m} {s}"; "{l:>03} {s}";
                "{[{L:bold}]%underline} {s}"]%string =
    map (fun s => Ok (lit s)) ["hello"; "Log: hello"; "[DEBUG] hello"; "my_crate hello"; "bar.rs hello"; "foo/bar.rs hello";
      "src/foo/bar.rs hello"; "/path/to/crate/src/foo/bar.rs hello"; "my_crate::foo::bar hello"; "024 hello"; "[DEBUG] hello"]%string.
  Proof. vm_compute. reflexivity. Qed.

  (** The book shows brackets around the level, which the format does not have; and its two lines of
      the last example are 36 characters wide before the message instead of 35 and a blank. *)
  Example output_width_md : show "main.rs" 20 "hello" "[{L}] {f:>10}: {s}" = Ok (lit "[DEBUG]    main.rs: hello").
  Proof. vm_compute. reflexivity. Qed.
  Example output_nested_md :
    show "main.rs" 20 "hello" "{{[{L}]%bold} {f}:{l}%35} {s}" = Ok (lit "[DEBUG] main.rs:20                  hello") /\
    show "goodbye.rs" 304 "goodbye" "{{[{L}]%bold} {f}:{l}%35} {s}" = Ok (lit "[DEBUG] goodbye.rs:304              goodbye").
  Proof. vm_compute. split; reflexivity. Qed.

  (** [{L:red:green}] and [{s:bold:bold}] are not supported; [{s}] is required. *)
  Example output_rejected_md : map simple ["{L:red:green} {s}"; "{s:bold:bold}"; "{L}"]%string = [Err tt; Err tt; Err tt].
  Proof. vm_compute. reflexivity. Qed.
End Output.

(** ** filtering.md *)

Section Filter.
  Import EnvFilterModel EnvFilterExamples.
  Definition levels : list level := [LTrace; LDebug; LInfo; LWarn; LError].
  Definition emitted (filter : option string) (modpath : string) : list level :=
    List.filter (fun l => match compiled_in simple_ident (option_map lit filter) (lit "app") l (lit modpath) with Ok b => b | _ => false end)
      levels.

  Example default_md : emitted None "app" = [LError].
  Proof. vm_compute. reflexivity. Qed.
  Example levels_md : emitted (Some "warn"%string) "app" = [LWarn; LError] /\ emitted (Some "trace"%string) "app" = levels.
  Proof. vm_compute. split; reflexivity. Qed.
  Example modules_md : map (emitted (Some "app::important=info,app::noisy=error"%string)) ["app::important"; "app::noisy"; "app::noisy::inner"]%string =
    [[LInfo; LWarn; LError]; [LError]; [LError]].
  Proof. vm_compute. reflexivity. Qed.
  Example off_md : emitted (Some "off"%string) "app" = [] /\
    emitted (Some "trace,app::noisy=off"%string) "app::noisy" = [] /\ emitted (Some "trace,app::noisy=off"%string) "app" = levels.
  Proof. vm_compute. repeat split; reflexivity. Qed.
End Filter.
