(** Model of the two wire encodings (device side) and of the rzCOBS frame
    decoder (host side). *)
From Verif Require Import Base.

(** [defmt/src/encoding/rzcobs.rs:12-16] [struct Encoder].  [run] and [zeros]
    are [u8] in Rust. *)
Record encoder := Encoder { run : Z; zeros : Z; started : bool }.

(** [defmt/src/encoding/rzcobs.rs:19-25] [Encoder::new]. *)
Definition enc_new : encoder := Encoder 0 0 false.

(** [defmt/src/encoding/rzcobs.rs:27-37] [start_frame].  Each function returns
    the new state and the bytes handed to the [write] closure; Rust calls the
    closure once per byte, which the model flattens to a byte list. *)
Definition start_frame (e : encoder) : encoder * bytes :=
  if started e then (e, []) else (Encoder (run e) (zeros e) true, [0]).

(** [defmt/src/encoding/rzcobs.rs:39-54] [end_frame].  [0xFF << run] is a [u8]
    shift: bits beyond bit 7 are dropped, which the final [& 0x7F] makes
    irrelevant. *)
Definition end_frame (e : encoder) : encoder * bytes :=
  let sym :=
    if run e =? 0 then []
    else if run e <=? 6 then [Z.land (Z.lor (zeros e) (Z.shiftl 255 (run e))) 127]
    else [Z.lor (run e - 7) 128] in
  (Encoder 0 0 (started e), sym ++ [0]).

(** [defmt/src/encoding/rzcobs.rs:59-86]: body of the loop of [write]. *)
Definition write_byte (e : encoder) (byte : Z) : encoder * bytes :=
  if run e <? 7 then
    let z := if byte =? 0 then Z.lor (zeros e) (Z.shiftl 1 (run e)) else zeros e in
    let o := if byte =? 0 then [] else [byte] in
    let r := run e + 1 in
    if (r =? 7) && negb (z =? 0) then (Encoder 0 0 (started e), o ++ [z])
    else (Encoder r z (started e), o)
  else if byte =? 0 then
    (Encoder 0 0 (started e), [Z.lor (run e - 7) 128])
  else
    let r := run e + 1 in
    if r =? 134 then (Encoder 0 0 (started e), [byte; 255])
    else (Encoder r (zeros e) (started e), [byte]).

(** [defmt/src/encoding/rzcobs.rs:56-87] [write]. *)
Fixpoint write (e : encoder) (data : bytes) : encoder * bytes :=
  match data with
  | [] => (e, [])
  | b :: rest =>
      let '(e1, o1) := write_byte e b in
      let '(e2, o2) := write e1 rest in
      (e2, o1 ++ o2)
  end.

(** A frame as a logger produces it: [start_frame], any number of [write]s,
    [end_frame] ([defmt/src/traits.rs:64-74], [firmware/defmt-rtt/src/lib.rs:132-207]). *)
Fixpoint writes (e : encoder) (chunks : list bytes) : encoder * bytes :=
  match chunks with
  | [] => (e, [])
  | c :: cs =>
      let '(e1, o1) := write e c in
      let '(e2, o2) := writes e1 cs in
      (e2, o1 ++ o2)
  end.

Definition frame_chunks (e : encoder) (chunks : list bytes) : encoder * bytes :=
  let '(e0, o0) := start_frame e in
  let '(e1, o1) := writes e0 chunks in
  let '(e2, o2) := end_frame e1 in
  (e2, o0 ++ o1 ++ o2).

Fixpoint frames_chunks (e : encoder) (fs : list (list bytes)) : encoder * bytes :=
  match fs with
  | [] => (e, [])
  | f :: fs' =>
      let '(e1, o1) := frame_chunks e f in
      let '(e2, o2) := frames_chunks e1 fs' in
      (e2, o1 ++ o2)
  end.

(** [defmt/src/encoding/raw.rs:10-16]: the raw encoder has no state and writes
    the data unchanged. *)
Definition raw_start_frame : bytes := [].
Definition raw_end_frame : bytes := [].
Definition raw_write (data : bytes) : bytes := data.
Definition raw_frame_chunks (chunks : list bytes) : bytes :=
  raw_start_frame ++ concat (map raw_write chunks) ++ raw_end_frame.

(* ------------------------------------------------------------------ *)
(** * Host *)

(** [decoder/src/lib.rs:326-341] [enum DecodeError]. *)
Inductive decode_error := UnexpectedEof | Malformed.

(** [decoder/src/stream/rzcobs.rs:15-21]: the 7 symbol bits, for the given
    list of [i].  Result: bytes pushed (in push order), rest of the reversed
    input; [None] is [Malformed]. *)
Fixpoint dec_bits (is : list Z) (x : Z) (data : bytes) : option (bytes * bytes) :=
  match is with
  | [] => Some ([], data)
  | i :: is' =>
      if Z.land x (Z.shiftl 1 (6 - i)) =? 0 then
        match data with
        | [] => None
        | d :: data' =>
            match dec_bits is' x data' with
            | Some (p, r) => Some (d :: p, r)
            | None => None
            end
        end
      else
        match dec_bits is' x data with
        | Some (p, r) => Some (0 :: p, r)
        | None => None
        end
  end.

(** [decoder/src/stream/rzcobs.rs:26-28] and [31-33]: [for _ in 0..n { push(next()?) }]. *)
Fixpoint dec_run (n : nat) (data : bytes) : option (bytes * bytes) :=
  match n with
  | O => Some ([], data)
  | S n' =>
      match data with
      | [] => None
      | d :: data' =>
          match dec_run n' data' with
          | Some (p, r) => Some (d :: p, r)
          | None => None
          end
      end
  end.

(** [decoder/src/stream/rzcobs.rs:12-35]: one iteration of the [while let],
    on the symbol [x] and the rest of the reversed data. *)
Definition dec_symbol (x : Z) (data : bytes) : option (bytes * bytes) :=
  if x =? 0 then None
  else if x <=? 127 then dec_bits [0; 1; 2; 3; 4; 5; 6] x data
  else if x <=? 254 then
    match dec_run (Z.to_nat (Z.land x 127 + 7)) data with
    | Some (p, r) => Some (0 :: p, r)
    | None => None
    end
  else dec_run 134 data.

(** The [while let] loop; [fuel] bounds the number of iterations (each consumes
    at least one byte, so [length data] suffices: [rz_loop_fuel] in the proofs). *)
Fixpoint rz_loop (fuel : nat) (data : bytes) : outcome decode_error bytes :=
  match data with
  | [] => Ok []
  | x :: rest =>
      match fuel with
      | O => NoFuel
      | S f =>
          match dec_symbol x rest with
          | None => Err Malformed
          | Some (p, r) => q <- rz_loop f r ;; Ok (p ++ q)
          end
      end
  end.

(** [decoder/src/stream/rzcobs.rs:8-40] [rzcobs_decode]. *)
Definition rzcobs_decode (data : bytes) : outcome decode_error bytes :=
  res <- rz_loop (length data) (rev data) ;; Ok (rev res).
