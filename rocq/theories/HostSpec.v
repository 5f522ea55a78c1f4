(** What the host programs promise ([print/README.md], [book/src/encoding.md] and the texts of their options). *)
From Verif Require Import Base RzcobsModel ParserModel DecoderModel StreamModel DisplayModel HostModel.

(** Bytes arrive. *)
Definition reads (chunks : list bytes) : list happening := map (fun c => Read (Ok c)) chunks.

(** The other side has closed the stream: from now on there are zero bytes to read. *)
Definition closed (n : nat) : list happening := repeat (Read (Ok [])) n.

Definition some_bytes (c : bytes) : Prop := c <> [].

(** The device runs one program after the other; the ELF file is replaced in between. *)
Record phase := MkPhase { ph_table : table; ph_chunks : list bytes; ph_events : list event }.

Definition phase_fine (p : phase) : Prop :=
  exists rest, host_run (t_encoding (ph_table p)) (ph_table p) [] (ph_chunks p) = (ph_events p, Waiting rest).

Definition phase_happens (p : phase) : list happening := Replaced (Loads (ph_table p)) :: reads (ph_chunks p).
Definition phase_shown (json : bool) (p : phase) : list shown :=
  (if json then [Schema] else []) ++ map (Event (ph_table p)) (ph_events p).

(** A run of QEMU: pieces of output while it runs, then a last one with its status, and
    what is left in the pipe. *)
Definition qemu_turns (pieces : list bytes) (last : bytes) (s : exit_status) (rest : bytes) : list qturn :=
  map (fun c => MkTurn c None []) pieces ++ [MkTurn last (Some s) rest].

Definition qemu_output (pieces : list bytes) (last rest : bytes) : bytes := concat pieces ++ last ++ rest.

(** The line for a frame. *)
Definition line_of (X : externals) (t : table) (f : frame) (l : bytes) : Prop :=
  exists s, display_frame X t true f = Some s /\ l = s ++ [10].

(** The bytes that a program sends for its frames, in its encoding, and what a frame
    says. *)
Definition sent (t : table) (fs : list (list bytes)) (s : bytes) : Prop :=
  match t_encoding t with
  | EncRzcobs => s = snd (frames_chunks enc_new fs)
  | EncRaw => s = concat (map (@concat Z) fs)
  end.

Definition frame_decodes (t : table) (f : list bytes) (fr : frame) : Prop :=
  match t_encoding t with
  | EncRzcobs => exists n, decode t (concat f) = Ok (fr, n)
  | EncRaw => decode t (concat f) = Ok (fr, length (concat f))
  end.
