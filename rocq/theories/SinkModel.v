(** Model of how frames reach the output of the host: as records of the [log] facade
    ([decoder/src/log/mod.rs]) to the text sink ([stdout_logger.rs]) or the JSON sink
    ([json_logger.rs], [decoder/defmt-json-schema/src/lib.rs]), from the loop of [print/src/main.rs].

    serde_json and the [serde] implementation for [log::Level] are not part of the repository; they
    are modelled from their documentation and source, with the reader of [SymbolModel].  Writing
    to the standard streams always succeeds here. *)
From Verif Require Import Base Utf8 ParserModel DecoderModel Numerals DisplayModel SymbolModel StreamModel EnvFilterModel LogFormatModel
  LocationModel.

(* ------------------------------------------------------------------ *)
(** * Writing JSON (serde_json, compact) *)

Inductive json := JNull | JInt (x : Z) | JStr (s : bytes) | JArr (l : list json) | JObj (l : list (bytes * json)).

Definition hex_digit (x : Z) : Z := if x <? 10 then 48 + x else 87 + x.

(** The escape table for strings, by bytes. *)
Definition escape_byte (b : Z) : bytes :=
  if b =? 34 then [92; 34]
  else if b =? 92 then [92; 92]
  else if b =? 8 then [92; 98]
  else if b =? 9 then [92; 116]
  else if b =? 10 then [92; 110]
  else if b =? 12 then [92; 102]
  else if b =? 13 then [92; 114]
  else if b <? 32 then [92; 117; 48; 48; hex_digit (b / 16); hex_digit (b mod 16)]
  else [b].
Definition json_string (s : bytes) : bytes := [34] ++ flat_map escape_byte s ++ [34].

(** [itoa]. *)
Definition int_text (x : Z) : bytes := if x <? 0 then 45 :: dec_str (- x) else dec_str x.

Fixpoint json_text (j : json) : bytes :=
  match j with
  | JNull => lit "null"
  | JInt x => int_text x
  | JStr s => json_string s
  | JArr l => [91] ++ join [44] (map json_text l) ++ [93]
  | JObj l => [123] ++ join [44] (map (fun p => json_string (fst p) ++ [58] ++ json_text (snd p)) l) ++ [125]
  end.

(* ------------------------------------------------------------------ *)
(** * Records ([mod.rs:26-118]) *)

Definition target_marker : bytes := lit "defmt@".

(** [log::Record]: target, message, place, and the level (the default of the builder for frames). *)
Record log_record := MkLogRecord {
  lr_target : bytes; lr_message : bytes; lr_level : level; lr_module : option bytes; lr_file : option bytes; lr_line : option Z }.

Definition level_json (l : option level) : json :=
  match l with Some l => JStr (level_upper l) | None => JNull end.

(** [mod.rs:76-80] as a [Value]: its keys are sorted. *)
Definition payload_json (l : option level) (timestamp : bytes) : json :=
  JObj [(lit "level", level_json l); (lit "timestamp", JStr timestamp)].

(** [mod.rs:145-158]: the text of the timestamp, empty without one; [None] is a panic. *)
Definition timestamp_text (X : externals) (tbl : table) (fr : frame) : option bytes :=
  match display_timestamp X tbl fr with
  | Some t => t
  | None => Some []
  end.

(** [mod.rs:29-52] [log_defmt]. *)
Definition log_defmt (X : externals) (tbl : table) (fr : frame) (file : option bytes) (line : option Z) (module_path : option bytes) :
    outcome unit log_record :=
  match timestamp_text X tbl fr, display_message X tbl fr with
  | Some ts, Some msg => Ok (MkLogRecord (target_marker ++ json_text (payload_json (f_level fr) ts)) msg LInfo module_path file line)
  | _, _ => Panic
  end.

(** [mod.rs:55-57] [is_defmt_frame]. *)
Definition is_defmt_frame (target : bytes) : bool :=
  match strip_prefix target_marker target with Some _ => true | None => false end.

(** ** Reading the payload *)

Definition upper_byte (b : Z) : Z := if in_range 97 122 b then b - 32 else b.

(** [log::Level::from_str]: case is ignored. *)
Definition level_of_name (s : bytes) : option level :=
  let u := map upper_byte s in
  if beq u (lit "ERROR") then Some LError else if beq u (lit "WARN") then Some LWarn
  else if beq u (lit "INFO") then Some LInfo else if beq u (lit "DEBUG") then Some LDebug
  else if beq u (lit "TRACE") then Some LTrace else None.

Definition read_variant (p : bytes * bytes) : outcome unit (level * bytes) :=
  match level_of_name (fst p) with Some l => Ok (l, snd p) | None => Err tt end.

(** An enum without data: its name, or an object from the name to null. *)
Definition read_level (s : bytes) : outcome unit (level * bytes) :=
  match skip_ws s with
  | c :: r =>
      if c =? 34 then p <- parse_str r ;; read_variant p
      else if c =? 123 then
        p <- read_string r ;;
        p <- read_variant p ;;
        r <- expect_colon (snd p) ;;
        r <- expect (lit "null") (skip_ws r) ;;
        r <- expect [125] (skip_ws r) ;;
        Ok (fst p, r)
      else Err tt
  | [] => Err tt
  end.

Definition read_level_option (s : bytes) : outcome unit (option level * bytes) :=
  match skip_ws s with
  | c :: r =>
      if c =? 110 then r <- expect (lit "ull") r ;; Ok (None, r)
      else p <- read_level s ;; Ok (Some (fst p), snd p)
  | [] => Err tt
  end.

(** The entries of an object, after the opening brace: level and timestamp so far.  A missing level is [None]. *)
Fixpoint payload_map (fuel : nat) (first : bool) (lv : option (option level)) (ts : option bytes) (s : bytes) :
    outcome unit (option level * bytes * bytes) :=
  match fuel with
  | O => NoFuel
  | S fuel' =>
      match skip_ws s with
      | [] => Err tt
      | c :: r =>
          if c =? 125 then
            match ts with
            | Some t => Ok (match lv with Some l => l | None => None end, t, r)
            | None => Err tt
            end
          else
            s1 <- (if first then Ok (c :: r) else if c =? 44 then Ok (skip_ws r) else Err tt) ;;
            r <- expect [34] s1 ;;
            k <- parse_str r ;;
            r <- expect_colon (snd k) ;;
            if beq (fst k) (lit "level") then
              match lv with
              | Some _ => Err tt
              | None => p <- read_level_option r ;; payload_map fuel' false (Some (fst p)) ts (snd p)
              end
            else if beq (fst k) (lit "timestamp") then
              match ts with
              | Some _ => Err tt
              | None => p <- read_string r ;; payload_map fuel' false lv (Some (fst p)) (snd p)
              end
            else r <- ignore_value fuel [] r ;; payload_map fuel' false lv ts r
      end
  end.

Definition payload_seq (s : bytes) : outcome unit (option level * bytes * bytes) :=
  s <- next_element true s ;; l <- read_level_option s ;;
  s <- next_element false (snd l) ;; t <- read_string s ;;
  r <- expect [93] (skip_ws (snd t)) ;;
  Ok (fst l, fst t, r).

(** [serde_json::from_str::<Payload>]. *)
Definition read_payload (s : bytes) : outcome unit (option level * bytes) :=
  match skip_ws s with
  | c :: r =>
      p <- (if c =? 123 then payload_map (S (length s)) true None None r
            else if c =? 91 then payload_seq r
            else Err tt) ;;
      match skip_ws (snd p) with
      | [] => Ok (fst p)
      | _ :: _ => Err tt
      end
  | [] => Err tt
  end.

(** [mod.rs:82-118] [DefmtRecord::new] and what the formatter sees of it; [Ok None] for other records. *)
Definition defmt_record (lr : log_record) : outcome unit (option record) :=
  match strip_prefix target_marker (lr_target lr) with
  | None => Ok None
  | Some payload =>
      match read_payload payload with
      | Ok (l, ts) => Ok (Some (MkRecord false l ts (lr_file lr) (lr_line lr) (lr_module lr) (lr_message lr)))
      | Err _ | Panic => Panic
      | NoFuel => NoFuel
      end
  end.

(** Records of the host itself. *)
Definition host_record (lr : log_record) : record :=
  MkRecord true (Some (lr_level lr)) [] (lr_file lr) (lr_line lr) (lr_module lr) (lr_message lr).

(* ------------------------------------------------------------------ *)
(** * Sinks *)

(** What is written to the standard output and the standard error. *)
Inductive output := Stdout (s : bytes) | Stderr (s : bytes).

(** [print/src/main.rs:238-243]. *)
Definition should_log (verbose : bool) (target : bytes) : bool := verbose || is_defmt_frame target.

Section Sinks.
  Context (Y : external) (colors : bool) (segs host_segs : list segment) (verbose : bool).

  Definition print_host (lr : log_record) : outcome unit (list output) :=
    s <- format_record Y colors host_segs (host_record lr) ;; Ok [Stderr (s ++ [10])].

  (** [stdout_logger.rs:14-43, 66-84]. *)
  Definition text_sink (lr : log_record) : outcome unit (list output) :=
    if should_log verbose (lr_target lr) then
      d <- defmt_record lr ;;
      match d with
      | Some r =>
          match r_level r with
          | Some _ => s <- format_record Y colors segs r ;; Ok [Stdout (s ++ [10])]
          | None => Ok [Stdout (r_message r ++ [10])]
          end
      | None => print_host lr
      end
    else Ok [].

  (** [json_logger.rs:79-98] [create_module_path]. *)
  Definition module_json (m : option bytes) : json :=
    match m with
    | None => JNull
    | Some p =>
        match split_path p with
        | c :: ((_ :: _) as rest) =>
            JObj [(lit "crate_name", JStr c); (lit "modules", JArr (map JStr (removelast rest)));
                  (lit "function", JStr (last rest []))]
        | _ => JNull
        end
    end.

  Definition text_json (t : option bytes) : json := match t with Some t => JStr t | None => JNull end.
  Definition line_json (n : option Z) : json := match n with Some n => JInt n | None => JNull end.

  (** [json_logger.rs:64-77] [create_json_frame], in the order of the struct. *)
  Definition frame_json (now : Z) (r : record) : json :=
    JObj [(lit "data", JStr (r_message r)); (lit "host_timestamp", JInt now); (lit "level", level_json (r_level r));
          (lit "location", JObj [(lit "file", text_json (r_file r)); (lit "line", line_json (r_line r));
                                 (lit "module_path", module_json (r_module r))]);
          (lit "target_timestamp", JStr (r_time r))].

  (** [json_logger.rs:17-44]; [now] is the clock of the host in nanoseconds, at most [i64::MAX]. *)
  Definition json_sink (now : Z) (lr : log_record) : outcome unit (list output) :=
    if should_log verbose (lr_target lr) then
      d <- defmt_record lr ;;
      match d with
      | Some r => Ok [Stdout (json_text (frame_json (Z.min now (2 ^ 63 - 1)) r) ++ [10])]
      | None => print_host lr
      end
    else Ok [].

  (** [json_logger.rs:57-61]: the first line. *)
  Definition schema_line : bytes := json_text (JObj [(lit "schema_version", JInt 1)]) ++ [10].

  (** [print/src/main.rs:254-281]: what the loop does with the events, one after the other. *)
  Context (X : externals) (tbl : table) (locs : option (list (Z * location))) (current_dir skipped : bytes) (show_skipped : bool)
    (sink : Z -> log_record -> outcome unit (list output)).

  Definition print_event (now : Z) (ev : event) : outcome unit (list output) :=
    match ev with
    | EvFrame fr =>
        let '(file, line, module_path) := location_info locs fr current_dir in
        lr <- log_defmt X tbl fr file line module_path ;;
        sink now lr
    | EvSkipped => if show_skipped || verbose then Ok [Stdout (lit "(HOST) malformed frame skipped" ++ [10]); Stdout (skipped ++ [10])] else Ok []
    end.

  (** Events with the times at which they are printed. *)
  Fixpoint print_events (evs : list (Z * event)) : outcome unit (list output) :=
    match evs with
    | [] => Ok []
    | (now, ev) :: evs' => o <- print_event now ev ;; r <- print_events evs' ;; Ok (o ++ r)
    end.
End Sinks.
