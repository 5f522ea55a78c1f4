(** The main loops of the two host programs: [print/src/main.rs] (defmt-print) and
    [qemu-run/src/main.rs].

    The operating system is a list of what happens, in order: results of [read] and, for
    defmt-print, notices that the ELF file was replaced.  When both are ready, [select!]
    takes either; the list may have them in any order.  What is printed for a frame by
    defmt-print is the subject of [SinkModel.v]; here a frame is shown with the table that
    it was decoded with. *)
From Verif Require Import Base RzcobsModel ParserModel DecoderModel StreamModel DisplayModel.

(* ------------------------------------------------------------------ *)
(** * defmt-print *)

Inductive source := Stdin | Tcp | Serial.

(** What the ELF file gives when it is read: a table (with its locations), or an error of
    [fs::read], [Table::parse] or [get_locations], or no [.defmt] section. *)
Inductive loaded := Loads (t : table) | Unusable.

Inductive happening :=
| Read (r : outcome unit bytes)     (* [read] gives bytes, at most the size of the buffer, or an error *)
| Replaced (e : loaded).            (* the ELF file was created or modified, and now holds [e] *)

(** [print/src/main.rs:104-113] [Source::read]: the bytes, and whether it is the end. *)
Definition source_read (s : source) (c : bytes) : bytes * bool :=
  match s with
  | Stdin => (c, match c with [] => true | _ => false end)
  | Tcp => (c, false)
  | Serial => (c, false)
  end.

Inductive shown := Schema | Event (t : table) (ev : event).

(** Whether [run] is still reading, or the program has ended: with success or an error, or
    by a panic. *)
Inductive doing := Running (t : table) (buf : bytes) | Finished (ok : bool) | Crashed.

(** [main.rs:185-245]: the beginning of [run]; with [--json] the logger first prints the
    version of its schema. *)
Definition begin (json : bool) (e : loaded) : list shown * doing :=
  match e with
  | Loads t => ((if json then [Schema] else []), Running t [])
  | Unusable => ([], Finished false)
  end.

(** [main.rs:247-280]: one turn of the loop. *)
Definition turn (s : source) (t : table) (buf : bytes) (r : outcome unit bytes) : list shown * doing :=
  match r with
  | Ok c0 =>
      let '(c, eof) := source_read s c0 in
      if eof then ([], Finished true)
      else
        let buf1 := received (t_encoding t) buf c in
        match drain (t_encoding t) t (S (length buf1)) buf1 with
        | (evs, Waiting buf2) => (map (Event t) evs, Running t buf2)
        | (evs, Aborted) => (map (Event t) evs, Finished false)
        | (evs, _) => (map (Event t) evs, Crashed)
        end
  | _ => ([], Finished false)
  end.

(** [main.rs:131-136] and [run_and_watch], [main.rs:152-179].  When [run] returns with
    success, the loop of [run_and_watch] starts it again, with what the file holds then. *)
Fixpoint run_print (watch json : bool) (s : source) (file : loaded) (d : doing) (hs : list happening) : list shown * doing :=
  match d with
  | Running t buf =>
      match hs with
      | [] => ([], d)
      | Read r :: hs' =>
          let '(out, d1) := turn s t buf r in
          let '(again, d2) := match d1 with
                              | Finished true => if watch then begin json file else ([], d1)
                              | _ => ([], d1)
                              end in
          let '(rest, d3) := run_print watch json s file d2 hs' in
          (out ++ again ++ rest, d3)
      | Replaced e :: hs' =>
          let '(again, d2) := if watch then begin json e else ([], d) in
          let '(rest, d3) := run_print watch json s e d2 hs' in
          (again ++ rest, d3)
      end
  | _ => ([], d)
  end.

(** [main.rs:115-137]. *)
Definition defmt_print (watch json : bool) (s : source) (file : loaded) (hs : list happening) : list shown * doing :=
  let '(first, d) := begin json file in
  let '(rest, d') := run_print watch json s file d hs in
  (first ++ rest, d').

(* ------------------------------------------------------------------ *)
(** * qemu-run *)

(** How QEMU ended: [ExitStatus]. *)
Inductive exit_status := Exit (code : Z) | Signal (number : Z).

(** [ExitStatus::code] of the standard library, on Unix. *)
Definition status_code (s : exit_status) : option Z := match s with Exit c => Some c | Signal _ => None end.

(** One turn of the loop: what [read] gives, what [try_wait] gives, and if QEMU has ended
    what [read_to_end] gives. *)
Record qturn := MkTurn { q_read : bytes; q_status : option exit_status; q_rest : bytes }.

(** How qemu-run ends: [notmain] returns, or a panic. *)
Inductive qresult := QReturns (code : option Z) | QError | QPanic | QRunning.

Section Qemu.
  Context (X : externals) (t : table).

  (** [qemu-run/src/main.rs:91-104] [decode]; the lines that are printed. *)
  Fixpoint qemu_decode (fuel : nat) (buf : bytes) : list bytes * status :=
    match fuel with
    | O => ([], OutOfFuel)
    | S fuel' =>
        match stream_decode (t_encoding t) t buf with
        | (Ok f, buf') =>
            match display_frame X t true f with
            | Some l => let '(ls, st) := qemu_decode fuel' buf' in ((l ++ [10]) :: ls, st)
            | None => ([], Panicked)
            end
        | (Err UnexpectedEof, buf') => ([], Waiting buf')
        | (Err Malformed, _) => ([], Aborted)
        | (Panic, _) => ([], Panicked)
        | (NoFuel, _) => ([], OutOfFuel)
        end
    end.

  Definition qemu_received (buf data : bytes) : list bytes * status :=
    let buf1 := received (t_encoding t) buf data in qemu_decode (S (length buf1)) buf1.

  Definition qemu_stop (st : status) : qresult := match st with Aborted => QError | _ => QPanic end.

  (** [qemu-run/src/main.rs:69-88]. *)
  Fixpoint qemu_loop (buf : bytes) (turns : list qturn) : list bytes * qresult :=
    match turns with
    | [] => ([], QRunning)
    | q :: turns' =>
        match qemu_received buf (q_read q) with
        | (ls, Waiting buf1) =>
            match q_status q with
            | Some s =>
                match qemu_received buf1 (q_rest q) with
                | (ls', Waiting _) => (ls ++ ls', QReturns (status_code s))
                | (ls', st) => (ls ++ ls', qemu_stop st)
                end
            | None => let '(ls', r) := qemu_loop buf1 turns' in (ls ++ ls', r)
            end
        | (ls, st) => (ls, qemu_stop st)
        end
    end.

  (** [qemu-run/src/main.rs:16-22]: the code of the process; [main] returning an error
      gives 1, a panic 101.  [None] while it runs. *)
  Definition process_code (r : qresult) : option Z :=
    match r with
    | QReturns (Some c) => Some c
    | QReturns None => Some 0
    | QError => Some 1
    | QPanic => Some 101
    | QRunning => None
    end.

  Definition qemu_run (turns : list qturn) : list bytes * option Z :=
    let '(ls, r) := qemu_loop [] turns in (ls, process_code r).
End Qemu.
