(** What the terminal of the host should show of what the contexts of the device log. *)
From Verif Require Import Base Utf8 ParserModel DecoderModel EncodeModel EncodeSpec DisplayModel TextSpec RzcobsModel StreamModel StreamSpec
  LoggerModel LoggerSpec LogFormatModel LogFormatSpec SinkModel SinkSpec.

(** A log statement that was executed: its index, the arguments of the timestamp and its own,
    the frame that the host gets, and the texts of the time and of the message. *)
Record said := MkSaid { sd_index : Z; sd_time_args : list aval; sd_args : list aval; sd_frame : frame; sd_time : bytes; sd_message : bytes }.

(** The messages that a context completes; an empty one is what [defmt::flush] leaves. *)
Definition spoken (msg : option (list task)) (ts : list task) : list (list bytes) :=
  filter (fun w => match concat w with [] => false | _ => true end) (map fst (filter snd (attempts msg ts))).

Section Terminal.
  Context (X : externals) (Y : external) (addr : bytes -> Z) (tbl : table).

  (** The writes [w] are those of the statement. *)
  Definition says (w : list bytes) (x : said) : Prop :=
    concat w = encode_frame addr (sd_index x) (option_map e_string (t_timestamp tbl)) (sd_time_args x) (f_format (sd_frame x)) (sd_args x) /\
    frame_means addr tbl (sd_index x) (sd_time_args x) (sd_args x) (sd_frame x).

  (** Its texts, and that the terminal's format has room for them. *)
  Definition readable (x : said) : Prop :=
    says_statement X tbl (sd_time_args x) (sd_args x) (sd_frame x) (sd_time x) (sd_message x) /\
    ordinary Y (sd_message x) /\ byte_text (sd_time x) /\
    match x_max Y with Some m => Z.of_nat (length (sd_time x)) <= m | None => True end.

  Definition line_for (x : said) : bytes :=
    default_line (match t_timestamp tbl with Some _ => true | None => false end) (f_level (sd_frame x)) (sd_time x) (sd_message x).
End Terminal.

(** The statements of context [i], in an order of statements of all contexts. *)
Definition of_context (i : nat) (order : list (nat * said)) : list said :=
  map snd (filter (fun x => Nat.eqb (fst x) i) order).
