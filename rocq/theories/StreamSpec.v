(** Specification of the rzCOBS stream decoder, independent of chunking and
    buffering: cut the stream at the zero bytes, drop empty pieces, decode each
    complete piece. *)
From Verif Require Import Base RzcobsModel DecoderModel StreamModel.

Definition non_empty (p : bytes) : bool := match p with [] => false | _ => true end.

(** The complete messages of a stream, and the incomplete last piece. *)
Definition messages (s : bytes) : list bytes := filter non_empty (removelast (split_on 0 s)).
Definition incomplete (s : bytes) : bytes := last (split_on 0 s) [].

(** What one message stands for. *)
Definition message_result (t : table) (p : bytes) : outcome decode_error frame :=
  match rzcobs_decode p with
  | Ok d =>
      match decode t d with
      | Ok (f, _) => Ok f
      | Err _ => Err Malformed
      | Panic => Panic
      | NoFuel => NoFuel
      end
  | Err _ => Err Malformed
  | Panic => Panic
  | NoFuel => NoFuel
  end.

Definition message_event (t : table) (p : bytes) : event :=
  match message_result t p with
  | Ok f => EvFrame f
  | _ => EvSkipped
  end.

(** What the host shows for a list of messages followed by an incomplete rest;
    it stops if decoding a message panics. *)
Fixpoint show_messages (t : table) (ms : list bytes) (rest : bytes) : list event * status :=
  match ms with
  | [] => ([], Waiting rest)
  | m :: ms' =>
      match message_result t m with
      | Ok f => let '(evs, st) := show_messages t ms' rest in (EvFrame f :: evs, st)
      | Err _ => let '(evs, st) := show_messages t ms' rest in (EvSkipped :: evs, st)
      | Panic => ([], Panicked)
      | NoFuel => ([], OutOfFuel)
      end
  end.
