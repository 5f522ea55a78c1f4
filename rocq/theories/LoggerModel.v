(** The global loggers, the code log statements expand to, and the panic handler, run
    by any number of contexts (threads, interrupt handlers, cores) under any schedule. *)
From Verif Require Import Base RzcobsModel DecoderModel.

Inductive logger := Rtt | Itm | Semihosting.

(** One step of a context.  Everything the loggers do is split at its accesses to shared state;
    one call of the encoder, with the bytes it hands to the transport, is one step
    (how a transport delivers them is modelled in [RttModel]). *)
Inductive op :=
| OEnter                (** [critical_section::acquire()], result kept in a local *)
| OLeave                (** [critical_section::release(local)] *)
| OCheckFree            (** [if taken.load() { panic!("defmt logger taken reentrantly") }] *)
| OTake                 (** [taken.store(true)] *)
| OSave                 (** [cs_restore = local] *)
| OStart                (** [encoder.start_frame] *)
| OWrite (b : bytes)    (** [encoder.write] *)
| OFlush                (** wait for the host *)
| OCheckTaken           (** [if !taken.load() { panic!("defmt release out of context") }] *)
| OEnd                  (** [encoder.end_frame] *)
| OLoad                 (** [local = cs_restore] *)
| OFree                 (** [taken.store(false)] *)
| OPanic                (** any panic *)
| OHalt                 (** [hard_fault()] or an endless loop *)
| OWork.                (** anything that does not involve defmt *)

(** [firmware/defmt-rtt/src/lib.rs:132-154], [firmware/defmt-itm/src/lib.rs:46-68],
    [firmware/defmt-semihosting/src/lib.rs:62-89] [acquire].  Opening semihosting's stdout is
    not modelled. *)
Definition acquire_ops : list op := [OEnter; OCheckFree; OTake; OSave; OStart].

(** [firmware/defmt-rtt/src/lib.rs:190-207], [firmware/defmt-itm/src/lib.rs:79-97],
    [firmware/defmt-semihosting/src/lib.rs:92-113] [release]. *)
Definition release_ops (lg : logger) : list op :=
  match lg with
  | Rtt | Semihosting => [OCheckTaken; OEnd; OLoad; OFree; OLeave]
  | Itm => [OEnd; OFree; OLoad; OLeave]
  end.

(** [firmware/defmt-rtt/src/lib.rs:161-170], [firmware/defmt-itm/src/lib.rs:99-105],
    [firmware/defmt-semihosting/src/lib.rs:116-133] [write]. *)
Definition write_ops (lg : logger) (b : bytes) : list op :=
  match lg with Rtt | Itm => [OWrite b] | Semihosting => [OCheckTaken; OWrite b] end.

(** What a context does.  [TLog body] is a log statement: [body] is everything between
    [acquire] and [release] (header, timestamp, arguments; [macros/src/function_like/log.rs:56-66],
    [println.rs:40-52], [defmt/src/export/mod.rs:212-226]), which runs user code in [Format]
    implementations and the timestamp function.  The argument expressions themselves are evaluated
    before [acquire] ([log.rs:71-77]), so they are separate, earlier tasks.
    [defmt::flush()] ([defmt/src/lib.rs:395-421]) is [TLog [TFlush]]. *)
Inductive task :=
| TLog (body : list task)
| TWrite (b : bytes)    (** [export::write], only inside a body *)
| TFlush                (** [_defmt_flush], only inside a body *)
| TEnter | TLeave       (** the two ends of a [critical_section::with] *)
| TPanic | THalt | TWork.

Fixpoint comp_task (lg : logger) (t : task) : list op :=
  match t with
  | TLog body => acquire_ops ++ flat_map (comp_task lg) body ++ release_ops lg
  | TWrite b => write_ops lg b
  | TFlush => [OFlush]
  | TEnter => [OEnter] | TLeave => [OLeave]
  | TPanic => [OPanic] | THalt => [OHalt] | TWork => [OWork]
  end.

Definition comp (lg : logger) (ts : list task) : list op := flat_map (comp_task lg) ts.

(** The encoder selected by a Cargo feature ([defmt/src/encoding/mod.rs]). *)
Definition enc_start (k : encoding) (e : encoder) : encoder * bytes :=
  match k with EncRzcobs => start_frame e | EncRaw => (e, raw_start_frame) end.
Definition enc_write (k : encoding) (e : encoder) (b : bytes) : encoder * bytes :=
  match k with EncRzcobs => write e b | EncRaw => (e, raw_write b) end.
Definition enc_end (k : encoding) (e : encoder) : encoder * bytes :=
  match k with EncRzcobs => end_frame e | EncRaw => (e, raw_end_frame) end.

(** A context: what is left to do, and its saved [restore] values, latest first. *)
Record ctx := MkCtx { code : list op; locals : list bool }.

(** [owner] is the context inside a critical section; [panicked] is panic-probe's flag. *)
Record sys := MkSys {
  owner : option nat; taken : bool; cell : bool; enc : encoder; out : bytes; panicked : bool; ctxs : list ctx }.

Fixpoint upd {A} (i : nat) (x : A) (l : list A) : list A :=
  match i, l with
  | _, [] => []
  | O, _ :: r => x :: r
  | S i', y :: r => y :: upd i' x r
  end.

Inductive effect := Next (s : sys) (locals : list bool) | Panics | Blocked.

(** The contract of the [critical-section] crate: the section is reentrant for the context that is in
    it, and all others have to wait; [acquire] returns whether the section was newly entered,
    and [release] leaves it only then. *)
Definition exec (k : encoding) (i : nat) (o : op) (s : sys) (ls : list bool) : effect :=
  let 'MkSys w t c e b p cs := s in
  match o with
  | OEnter =>
      match w with
      | None => Next (MkSys (Some i) t c e b p cs) (true :: ls)
      | Some j => if Nat.eqb j i then Next s (false :: ls) else Blocked
      end
  | OLeave =>
      match ls with
      | true :: ls' => Next (MkSys None t c e b p cs) ls'
      | false :: ls' => Next s ls'
      | [] => Blocked
      end
  | OCheckFree => if t then Panics else Next s ls
  | OTake => Next (MkSys w true c e b p cs) ls
  | OSave => match ls with r :: ls' => Next (MkSys w t r e b p cs) ls' | [] => Blocked end
  | OStart => let '(e', o) := enc_start k e in Next (MkSys w t c e' (b ++ o) p cs) ls
  | OWrite d => let '(e', o) := enc_write k e d in Next (MkSys w t c e' (b ++ o) p cs) ls
  | OFlush => Next s ls
  | OCheckTaken => if t then Next s ls else Panics
  | OEnd => let '(e', o) := enc_end k e in Next (MkSys w t c e' (b ++ o) p cs) ls
  | OLoad => Next s (c :: ls)
  | OFree => Next (MkSys w false c e b p cs) ls
  | OPanic => Panics
  | OHalt => Blocked
  | OWork => Next s ls
  end.

(** [firmware/panic-probe/src/lib.rs:43-59]: what runs after a panic.  [msg] is the body of the
    log statement that prints the message, [None] without the feature [print-defmt].  Disabling
    interrupts is not modelled: the other contexts may go on. *)
Definition handler (msg : option (list task)) (p : bool) : list task :=
  if p then [THalt] else match msg with Some body => [TLog body; THalt] | None => [THalt] end.

Definition set_ctx (i : nat) (c : ctx) (s : sys) : sys :=
  MkSys (owner s) (taken s) (cell s) (enc s) (out s) (panicked s) (upd i c (ctxs s)).
Definition set_panicked (s : sys) : sys :=
  MkSys (owner s) (taken s) (cell s) (enc s) (out s) true (ctxs s).

(** Context [i] makes one step; [None] if it has to wait or is finished. *)
Definition step (lg : logger) (k : encoding) (msg : option (list task)) (i : nat) (s : sys) : option sys :=
  match nth_error (ctxs s) i with
  | Some (MkCtx (o :: rest) ls) =>
      match exec k i o s ls with
      | Next s' ls' => Some (set_ctx i (MkCtx rest ls') s')
      | Panics => Some (set_ctx i (MkCtx (comp lg (handler msg (panicked s))) ls) (set_panicked s))
      | Blocked => None
      end
  | _ => None
  end.

(** Runs: [n] steps of the contexts in any order. *)
Inductive runs (lg : logger) (k : encoding) (msg : option (list task)) : nat -> sys -> sys -> Prop :=
| Run_start s : runs lg k msg 0 s s
| Run_step n s s' s'' i : runs lg k msg n s s' -> step lg k msg i s' = Some s'' -> runs lg k msg (S n) s s''.

(** The device after reset ([firmware/defmt-rtt/src/lib.rs:121-129]). *)
Definition boot (lg : logger) (progs : list (list task)) : sys :=
  MkSys None false false enc_new [] false (map (fun ts => MkCtx (comp lg ts) []) progs).
