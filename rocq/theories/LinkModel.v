(** Model of how a program is put together: the statics and functions that the macros leave in
    the object files ([macros/src/construct.rs:29-103], [macros/src/function_like],
    [macros/src/items/{bitflags,timestamp}.rs], [macros/src/attributes], [defmt/src/lib.rs:34-50,
    378-386]), the features that choose the encoding ([defmt/src/encoding/mod.rs:1-6]) and the
    linker script [defmt/defmt.x.in] that makes the [.defmt] section of them.

    The linker is not part of the repository.  What is used of it: a section goes where the first
    matching pattern of the script says; sections matched by one pattern keep their order; unused
    sections are dropped unless a [KEEP] pattern matches; two definitions of a name and a name
    without definition are errors; [PROVIDE] defines a name that has no definition; [ASSERT].
    The section starts at 0 and its first byte is skipped ([defmt.x.in:14-17]).

    Simplified: all object files are linked (so two definitions always meet, see the [EXTERN] lines
    1-5); which strings are used is given; macOS section names ([construct.rs:63-79] with
    [for_macos]) are not modelled. *)
From Verif Require Import Base ParserModel DecoderModel EncodeModel Numerals TableSpec FlagsModel.

(* ------------------------------------------------------------------ *)
(** * What the macros leave in the object files *)

(** The crate of a macro invocation and the number of the invocation ([construct.rs:15-20],
    [construct/symbol.rs:43-53]). *)
Record invocation := MkInvocation { i_package : bytes; i_disambiguator : Z; i_crate : bytes }.

(** The macros; [UDerived] is [derive(Format)]. *)
Inductive macro :=
| ULog (l : level) (s : bytes)
| UPrintln (s : bytes)
| UWrite (s : bytes)
| UDerived (s : bytes)
| UIntern (s : bytes)
| UInternp (s : bytes)
| UBitflags (ident : bytes) (w : width) (fls : list flag)
| UTimestamp (s : bytes)
| ULogger
| UPanicHandler.

(** An invocation in the program; [u_live]: some code that is part of the program uses its
    string. *)
Record use := MkUse { u_at : invocation; u_macro : macro; u_live : bool }.

(** A static in an object file, in a section of its own. *)
Record static := MkStatic { st_section : bytes; st_name : bytes; st_align : Z; st_data : bytes; st_live : bool }.

(** [construct.rs:63-79] [linker_section], not for macOS. *)
Definition linker_section (prefix : option bytes) (symbol : bytes) : bytes :=
  match prefix with
  | Some p => lit ".defmt." ++ p ++ lit "." ++ symbol
  | None => lit ".defmt." ++ symbol
  end.

(** [construct/symbol.rs:5-7] [mangled]. *)
Definition mangled (i : invocation) (kind data : bytes) : bytes :=
  interned (i_package i) (i_disambiguator i) (i_crate i) kind data.

(** [construct.rs:81-99] [static_variable]: a [static] of type [u8]. *)
Definition static_variable (i : invocation) (kind : bytes) (prefix : option bytes) (data : bytes) (live : bool) : static :=
  let name := mangled i kind data in MkStatic (linker_section prefix name) name 1 [0] live.

(** The bitflags type of an invocation. *)
Definition flags_at (i : invocation) (ident : bytes) (w : width) (fls : list flag) : bitflags :=
  MkBitflags ident w fls (i_package i) (i_disambiguator i) (i_crate i).

(** The string that a macro interns: kind, prefix of the section and text.
    [log.rs:39-45], [println.rs:37-38], [write.rs:37-38], [derives/format/codegen.rs:40],
    [intern.rs:6-9], [internp.rs:8-13], [bitflags.rs:18-32]. *)
Definition string_of (u : use) : option (bytes * option bytes * bytes) :=
  match u_macro u with
  | ULog l s => Some (level_str l, Some (level_str l), s)
  | UPrintln s => Some (lit "println", None, s)
  | UWrite s => Some (lit "write", None, s)
  | UDerived s => Some (lit "derived", None, s)
  | UIntern s => Some (lit "str", None, s)
  | UInternp s => Some (lit "prim", Some (lit "prim"), s)
  | UBitflags ident w fls => Some (lit "bitflags", None, format_tag (flags_type (flags_at (u_at u) ident w fls)))
  | UTimestamp _ | ULogger | UPanicHandler => None
  end.

Definition timestamp_marker : bytes := lit "__DEFMT_MARKER_TIMESTAMP_WAS_DEFINED".

(** The statics of an invocation.  [align] is the alignment of [u128]; the marker of
    [timestamp.rs:49-54] is a pointer (of 32 bits) and keeps the string in use. *)
Definition statics_of (align : Z) (u : use) : list static :=
  match string_of u with
  | Some (kind, prefix, s) => [static_variable (u_at u) kind prefix s (u_live u)]
  | None => []
  end ++
  match u_macro u with
  | UBitflags ident w fls =>
      map (fun st => MkStatic (lit ".defmt.end") (fst st) align (snd st) false) (flag_statics (flags_at (u_at u) ident w fls))
  | UTimestamp s =>
      [static_variable (u_at u) (lit "timestamp") None s true;
       MkStatic (lit ".defmt.end.timestamp") timestamp_marker 4 [0; 0; 0; 0] true]
  | _ => []
  end.

(** [timestamp.rs:36], [global_logger.rs:41-63], [panic_handler.rs:71]. *)
Definition logger_functions : list bytes :=
  [lit "_defmt_acquire"; lit "_defmt_flush"; lit "_defmt_release"; lit "_defmt_write"].
Definition functions_of (u : use) : list bytes :=
  match u_macro u with
  | UTimestamp _ => [lit "_defmt_timestamp"]
  | ULogger => logger_functions
  | UPanicHandler => [lit "_defmt_panic"]
  | _ => []
  end.

(** The features of the crate [defmt]. *)
Record features := MkFeatures { feat_raw : bool; feat_rzcobs : bool; feat_avoid_default_panic : bool }.

(** [encoding/mod.rs:1-6]: the encoding of the device; [None]: [compile_error!]. *)
Definition chosen_encoding (ft : features) : option encoding :=
  if feat_raw ft && feat_rzcobs ft then None
  else if feat_raw ft then Some EncRaw else Some EncRzcobs.

(** [lib.rs:34-50]. *)
Definition defmt_statics (ft : features) : list static :=
  [MkStatic (lit ".defmt.end") (lit "_defmt_version_ = 4") 1 [0] true;
   MkStatic (lit ".defmt.end") (if feat_raw ft then lit "_defmt_encoding_ = raw" else lit "_defmt_encoding_ = rzcobs") 1 [0] true].

(** [lib.rs:378-386]. *)
Definition default_timestamp : bytes := lit "__defmt_default_timestamp".
Definition default_panic : bytes := lit "__defmt_default_panic".
Definition defmt_functions : list bytes := [default_timestamp; default_panic].

(** A program: the macros in its crates, the other names that it exports, and the names of defmt
    that its code calls. *)
Record program := MkProgram {
  p_features : features; p_align : Z; p_uses : list use; p_exports : list bytes; p_calls : list bytes }.

Definition statics (p : program) : list static :=
  flat_map (statics_of (p_align p)) (p_uses p) ++ defmt_statics (p_features p).
Definition defined (p : program) : list bytes :=
  flat_map functions_of (p_uses p) ++ defmt_functions ++ map st_name (statics p) ++ p_exports p.

(* ------------------------------------------------------------------ *)
(** * The linker script *)

(** A section pattern: a name, followed by [*] if the flag is set. *)
Definition pattern : Type := bytes * bool.
Definition matches (s : bytes) (p : pattern) : bool :=
  match strip_prefix (fst p) s with
  | Some [] => true
  | Some (_ :: _) => snd p
  | None => false
  end.

Inductive command :=
| CInput (keep : bool) (ps : list pattern)
| CMarker (name : bytes).

Definition level_start (l : level) : bytes :=
  match l with
  | LTrace => lit "__DEFMT_MARKER_TRACE_START" | LDebug => lit "__DEFMT_MARKER_DEBUG_START"
  | LInfo => lit "__DEFMT_MARKER_INFO_START" | LWarn => lit "__DEFMT_MARKER_WARN_START"
  | LError => lit "__DEFMT_MARKER_ERROR_START"
  end.
Definition level_end (l : level) : bytes :=
  match l with
  | LTrace => lit "__DEFMT_MARKER_TRACE_END" | LDebug => lit "__DEFMT_MARKER_DEBUG_END"
  | LInfo => lit "__DEFMT_MARKER_INFO_END" | LWarn => lit "__DEFMT_MARKER_WARN_END"
  | LError => lit "__DEFMT_MARKER_ERROR_END"
  end.
Definition end_marker : bytes := lit "__DEFMT_MARKER_END".

(** [defmt.x.in:19-46]. *)
Definition script : list command :=
  [CInput false [(lit ".defmt.prim.", true)];
   CMarker (level_start LTrace); CInput false [(lit ".defmt.trace.", true)]; CMarker (level_end LTrace);
   CMarker (level_start LDebug); CInput false [(lit ".defmt.debug.", true)]; CMarker (level_end LDebug);
   CMarker (level_start LInfo); CInput false [(lit ".defmt.info.", true)]; CMarker (level_end LInfo);
   CMarker (level_start LWarn); CInput false [(lit ".defmt.warn.", true)]; CMarker (level_end LWarn);
   CMarker (level_start LError); CInput false [(lit ".defmt.error.", true)]; CMarker (level_end LError);
   CInput false [(lit ".defmt.", true)];
   CMarker end_marker;
   CInput true [(lit ".defmt.end", false); (lit ".defmt.end.", true)]].

(** Some [KEEP] pattern of the script matches. *)
Definition always_kept (s : bytes) : bool :=
  existsb (fun c => match c with CInput true ps => existsb (matches s) ps | _ => false end) script.
Definition kept (st : static) : bool := st_live st || always_kept (st_section st).

(** The next multiple of the alignment. *)
Definition align_up (a here : Z) : Z := here + (- here) mod a.

Fixpoint lay (here : Z) (l : list static) : list (static * Z) * Z :=
  match l with
  | [] => ([], here)
  | st :: l' =>
      let a := align_up (st_align st) here in
      let '(placed, e) := lay (a + Z.of_nat (length (st_data st))) l' in
      ((st, a) :: placed, e)
  end.

(** The commands in order, on the sections that no earlier pattern has taken. *)
Fixpoint run (cmds : list command) (todo : list static) (here : Z) : list (static * Z) * list (bytes * Z) :=
  match cmds with
  | [] => ([], [])
  | CMarker name :: cmds' =>
      let '(placed, markers) := run cmds' todo here in (placed, (name, here) :: markers)
  | CInput _ ps :: cmds' =>
      let '(mine, todo') := partition (fun st => existsb (matches (st_section st)) ps) todo in
      let '(placed, here') := lay here mine in
      let '(more, markers) := run cmds' todo' here' in (placed ++ more, markers)
  end.

Fixpoint marker (name : bytes) (ms : list (bytes * Z)) : Z :=
  match ms with
  | [] => 0
  | (n, a) :: ms' => if beq n name then a else marker name ms'
  end.

(** The contents of the section. *)
Definition zeros (n : Z) : bytes := repeat 0 (Z.to_nat n).
Fixpoint contents (here : Z) (placed : list (static * Z)) : bytes :=
  match placed with
  | [] => []
  | (st, a) :: rest => zeros (a - here) ++ st_data st ++ contents (a + Z.of_nat (length (st_data st))) rest
  end.

(* ------------------------------------------------------------------ *)
(** * Linking *)

Inductive link_error := TwoEncodings | Duplicate | Undefined | TooMany.

(** The result: statics and markers with their addresses, the contents of the section, and what
    the called names stand for. *)
Record image := MkImage {
  im_placed : list (static * Z); im_markers : list (bytes * Z); im_data : bytes; im_calls : list (bytes * bytes) }.

Fixpoint nodupb (l : list bytes) : bool :=
  match l with
  | [] => true
  | x :: l' => negb (existsb (beq x) l') && nodupb l'
  end.

(** [defmt.x.in:6-7]; [build.rs:8-11, 41-43]: feature [avoid-default-panic] removes the second
    [PROVIDE]. *)
Definition provided (ft : features) (name : bytes) : option bytes :=
  if beq name (lit "_defmt_timestamp") then Some default_timestamp
  else if beq name (lit "_defmt_panic") && negb (feat_avoid_default_panic ft) then Some default_panic
  else None.

Definition resolve (p : program) (name : bytes) : option bytes :=
  if existsb (beq name) (defined p) then Some name else provided (p_features p) name.

Fixpoint resolve_all (p : program) (names : list bytes) : option (list (bytes * bytes)) :=
  match names with
  | [] => Some []
  | n :: names' =>
      match resolve p n, resolve_all p names' with
      | Some d, Some r => Some ((n, d) :: r)
      | _, _ => None
      end
  end.

(** [defmt.x.in:50] is the last test. *)
Definition link (p : program) : outcome link_error image :=
  match chosen_encoding (p_features p) with
  | None => Err TwoEncodings
  | Some _ =>
      if negb (nodupb (defined p)) then Err Duplicate
      else match resolve_all p (p_calls p) with
      | None => Err Undefined
      | Some calls =>
          let '(placed, markers) := run script (filter kept (statics p)) 1 in
          if marker end_marker markers <? 65534 then Ok (MkImage placed markers (contents 0 placed) calls)
          else Err TooMany
      end
  end.
