(** Model of the host stream decoders [decoder/src/stream/] and of the read loop
    of [print/src/main.rs]. *)
From Verif Require Import Base RzcobsModel ParserModel DecoderModel.

(** [decoder/src/stream/rzcobs.rs:57-63]: trim zeros from the left. *)
Fixpoint drop_zeros (data : bytes) : bytes :=
  match data with
  | [] => []
  | x :: d => if x =? 0 then drop_zeros d else data
  end.

(** [decoder/src/stream/rzcobs.rs:57-66] [Rzcobs::received]; the state is [raw]. *)
Definition rz_received (raw data : bytes) : bytes :=
  match raw with
  | [] => drop_zeros data
  | _ => raw ++ data
  end.

(** [decoder/src/stream/rzcobs.rs:68-94] [Rzcobs::decode]: result and new [raw].
    The assertion on line 86 is the first [Panic]; a panic inside
    [Table::decode] happens after the buffer was drained. *)
Definition rz_decode (t : table) (raw : bytes) : outcome decode_error frame * bytes :=
  match position (fun x => x =? 0) raw with
  | None => (Err UnexpectedEof, raw)
  | Some zero =>
      let msg := rzcobs_decode (firstn zero raw) in
      let raw1 :=
        match position (fun x => negb (x =? 0)) (skipn zero raw) with
        | Some nonzero => skipn (zero + nonzero) raw
        | None => []
        end in
      match raw1 with
      | 0 :: _ => (Panic, raw1)
      | _ =>
          match msg with
          | Ok d =>
              match decode t d with
              | Ok (f, _) => (Ok f, raw1)
              | Err UnexpectedEof => (Err Malformed, raw1)
              | Err Malformed => (Err Malformed, raw1)
              | Panic => (Panic, raw1)
              | NoFuel => (NoFuel, raw1)
              end
          | Err e => (Err e, raw1)
          | Panic => (Panic, raw1)
          | NoFuel => (NoFuel, raw1)
          end
      end
  end.

(** [decoder/src/stream/raw.rs:18-20] [Raw::received]. *)
Definition raw_received (buf data : bytes) : bytes := buf ++ data.

(** [decoder/src/stream/raw.rs:22-31] [Raw::decode]. *)
Definition raw_decode (t : table) (buf : bytes) : outcome decode_error frame * bytes :=
  match decode t buf with
  | Ok (f, consumed) => (Ok f, skipn consumed buf)
  | Err e => (Err e, buf)
  | Panic => (Panic, buf)
  | NoFuel => (NoFuel, buf)
  end.

(** [decoder/src/lib.rs:265-270] [new_stream_decoder]: dispatch on the encoding. *)
Definition received (enc : encoding) (buf data : bytes) : bytes :=
  match enc with EncRaw => raw_received buf data | EncRzcobs => rz_received buf data end.
Definition stream_decode (enc : encoding) (t : table) (buf : bytes) : outcome decode_error frame * bytes :=
  match enc with EncRaw => raw_decode t buf | EncRzcobs => rz_decode t buf end.

(** [decoder/src/lib.rs:147-152] [can_recover]. *)
Definition can_recover (enc : encoding) : bool :=
  match enc with EncRaw => false | EncRzcobs => true end.

(** What the host shows: a frame, or that a malformed frame was skipped. *)
Inductive event := EvFrame (f : frame) | EvSkipped.

(** How the inner loop ends: waiting for more data with a buffer, aborted with
    [Malformed], panicked, or (never) out of budget. *)
Inductive status := Waiting (buf : bytes) | Aborted | Panicked | OutOfFuel.

(** [print/src/main.rs:258-279]: the inner decode loop. *)
Fixpoint drain (enc : encoding) (t : table) (fuel : nat) (buf : bytes) : list event * status :=
  match fuel with
  | O => ([], OutOfFuel)
  | S fuel' =>
      match stream_decode enc t buf with
      | (Ok f, buf') => let '(evs, st) := drain enc t fuel' buf' in (EvFrame f :: evs, st)
      | (Err UnexpectedEof, buf') => ([], Waiting buf')
      | (Err Malformed, buf') =>
          if can_recover enc
          then let '(evs, st) := drain enc t fuel' buf' in (EvSkipped :: evs, st)
          else ([], Aborted)
      | (Panic, _) => ([], Panicked)
      | (NoFuel, _) => ([], OutOfFuel)
      end
  end.

(** [print/src/main.rs:247-279]: the read loop over the chunks read so far; the
    number of iterations of the inner loop is bounded by the buffered bytes. *)
Fixpoint host_run (enc : encoding) (t : table) (buf : bytes) (chunks : list bytes) : list event * status :=
  match chunks with
  | [] => ([], Waiting buf)
  | c :: cs =>
      let buf1 := received enc buf c in
      match drain enc t (S (length buf1)) buf1 with
      | (evs, Waiting buf2) => let '(evs', st) := host_run enc t buf2 cs in (evs ++ evs', st)
      | (evs, st) => (evs, st)
      end
  end.

(** Arbitrary use of a stream decoder through its public interface. *)
Inductive op := Received (data : bytes) | Decode.

(** The answers to the [Decode] calls, in order, and the final state. *)
Fixpoint run_ops (t : table) (raw : bytes) (ops : list op) : list (outcome decode_error frame) * bytes :=
  match ops with
  | [] => ([], raw)
  | Received d :: ops' => run_ops t (rz_received raw d) ops'
  | Decode :: ops' =>
      let '(r, raw1) := rz_decode t raw in
      let '(rs, raw2) := run_ops t raw1 ops' in
      (r :: rs, raw2)
  end.

(** All bytes received during a history. *)
Fixpoint ops_bytes (ops : list op) : bytes :=
  match ops with
  | [] => []
  | Received d :: ops' => d ++ ops_bytes ops'
  | Decode :: ops' => ops_bytes ops'
  end.
