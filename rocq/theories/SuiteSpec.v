(** What the terminal should show of a test suite, and what the exit code should be. *)
From Verif Require Import Base Utf8 Numerals ParserModel DecoderModel EncodeModel EncodeSpec DisplayModel TextSpec TextMain MacroModel MacroSpec
  HarnessModel HarnessSpec HostModel RzcobsModel StreamModel SinkSpec DeviceSpec SuiteModel.

(** The statement that was executed for an utterance. *)
Definition speaks (u : utterance) (x : said) : Prop :=
  let '(l, f, args) := u in f_level (sd_frame x) = l /\ f_format (sd_frame x) = f /\ sd_args x = args.

(** A message with its level. *)
Definition message : Type := option level * bytes.

Definition message_of (x : said) : message := (f_level (sd_frame x), sd_message x).

Inductive verdict := Succeeds | Stops | Sticks.

Section Shows.
  Context (X : externals) (addr : bytes -> Z) (tbl : table) (enabled : level -> bool).
  Context {W : Type} (apply : bytes -> bool -> W -> W * ended).

  (** The messages of a function. *)
  Context (own : bytes -> bool -> W -> list message).

  Definition own_of (f : func) (w : W) : list message := own (f_name f) (with_state f) w.

  Definition stop_of (e : ended) (v : verdict) : Prop :=
    match e with Panics => v = Stops | Hangs => v = Sticks | Returns _ => False end.

  (** The message of a test that failed. *)
  Definition failure_message (r : returned) (should_error : bool) (l : list message) : Prop :=
    if enabled LError then exists s, returned_text X addr tbl r s /\
      l = [(Some LError, lit "panicked at '" ++ (if should_error then lit "`#[should_error]` " else []) ++
                         lit "test failed with outcome: " ++ s ++ lit "'")]
    else l = [].

  (** The messages of a script, and how it ends. *)
  Inductive shows : list step -> W -> list message -> verdict -> Prop :=
  | Sh_say s ss w ms v : shows ss w ms v -> shows (Say s :: ss) w ((None, s) :: ms) v
  | Sh_do f ss w w' r ms v : apply (f_name f) (with_state f) w = (w', Returns r) -> shows ss w' ms v ->
      shows (Do f :: ss) w (own_of f w ++ ms) v
  | Sh_do_stops f ss w w' e v : apply (f_name f) (with_state f) w = (w', e) -> stop_of e v ->
      shows (Do f :: ss) w (own_of f w) v
  | Sh_passes f b ss w w' r ms v : apply (f_name f) (with_state f) w = (w', Returns r) -> judged_ok r b -> shows ss w' ms v ->
      shows (Judge f b :: ss) w (own_of f w ++ ms) v
  | Sh_fails f b ss w w' r l : apply (f_name f) (with_state f) w = (w', Returns r) -> ~ judged_ok r b -> failure_message r b l ->
      shows (Judge f b :: ss) w (own_of f w ++ l) Stops
  | Sh_stops f b ss w w' e v : apply (f_name f) (with_state f) w = (w', e) -> stop_of e v ->
      shows (Judge f b :: ss) w (own_of f w) v
  | Sh_quit w : shows [Quit] w [] Succeeds.

  (** The line of qemu-run for a statement: time, level in its colour, message. *)
  Definition qemu_line (x : said) : bytes :=
    (match t_timestamp tbl with Some _ => sd_time x ++ lit " " | None => [] end) ++
    (match f_level (sd_frame x) with
     | Some l => x_paint X l (match l with LTrace => lit "TRACE" | LDebug => lit "DEBUG" | LInfo => lit "INFO" | LWarn => lit "WARN" | LError => lit "ERROR" end) ++ lit " "
     | None => []
     end) ++ sd_message x ++ [10].
End Shows.

(** The frames that a context sends; an empty one is what [defmt::flush] leaves. *)
Definition written_frames (msgs : list (list bytes)) : list (list bytes) :=
  filter (fun w => match concat w with [] => false | _ => true end) msgs.
