(** A test suite of [defmt_test] on a device that logs with defmt-semihosting, in QEMU, with the output read by qemu-run
    ([firmware/defmt-test], [firmware/defmt-semihosting/src/lib.rs], [qemu-run/src/main.rs]): the parts are those of
    [HarnessModel.v], [LoggerModel.v] and [HostModel.v].

    Simplifications: one context logs, [main] (others are the subject of [DeviceModel.v]).  What a function
    of the suite logs is given by [talk], for the machine that it is called on; this
    includes the message of a panic in it.  QEMU hands on all bytes that the device wrote to the
    standard output of semihosting, and ends with the status that the device asked for. *)
From Verif Require Import Base ParserModel DecoderModel EncodeModel MacroModel HarnessModel HostModel.

(** A log statement: its level ([None] for [println!]), format string and arguments. *)
Definition utterance : Type := option level * bytes * list aval.

Section Suite.
  Context {W : Type} (talk : bytes -> bool -> W -> list utterance).

  (** [firmware/defmt-test/macros/src/lib.rs:502-508, 532]: the lines of the harness are printed
      with [defmt::println!]; [firmware/defmt-test/src/export.rs:23]: the failure of a test with
      [defmt::panic!]. *)
  Definition uttered (e : event W) : list utterance :=
    match e with
    | Said _ f args => [(None, f, args)]
    | Called _ f st w _ => talk f st w
    | Failed _ l => map (fun x => let '(lv, f, args) := x in (Some lv, f, args)) l
    | Exited _ => []
    end.

  (** How QEMU ends, [None] if it goes on: [firmware/defmt-test/src/export.rs:9-13] asks for
      the status 0, the panic handler of the program for [handler]. *)
  Fixpoint how_ends (handler : exit_status) (evs : list (event W)) : option exit_status :=
    match evs with
    | [] => None
    | [e] =>
        match e with
        | Exited _ => Some (Exit 0)
        | Failed _ _ | Called _ _ _ _ Panics => Some handler
        | _ => None
        end
    | _ :: evs' => how_ends handler evs'
    end.
End Suite.
