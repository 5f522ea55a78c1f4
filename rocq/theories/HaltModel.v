(** A device with one core and panic-probe: the panic handler disables interrupts
    ([firmware/panic-probe/src/lib.rs:43-59]), so that no other context goes on after a panic. *)
From Verif Require Import Base RzcobsModel DecoderModel LoggerModel DeviceModel.
From Verif Require RttModel.

(** Programs that panic, if at all, between log statements.  What comes after a panic is not executed. *)
Fixpoint brave (ts : list task) : Prop :=
  match ts with
  | [] | TPanic :: _ => True
  | TLog body :: r =>
      Forall (fun t => match t with TWrite _ | TFlush | TEnter | TLeave | TWork => True | _ => False end) body /\ brave r
  | (TEnter | TLeave | TWork) :: r => brave r
  | _ => False
  end.

Section Core.
  Context (run : nat -> device) (who : nat -> mover).

  (** Context [i] panics in step [t], as the first one. *)
  Definition panics_at (t i : nat) : Prop :=
    panicked (d_sys (run t)) = false /\ panicked (d_sys (run (S t))) = true /\ who t = Context i.

  (** While a context is in a critical section, no other one has the core: interrupts are
      disabled in it ([critical-section] for a single core).  Nor has any other one the core after
      a panic ([firmware/panic-probe/src/lib.rs:46]). *)
  Definition has_core (n i : nat) : Prop :=
    (forall j, owner (d_sys (run n)) = Some j -> j = i) /\ forall t j, (t < n)%nat -> panics_at t j -> j = i.
  Definition single_core : Prop := forall n i, who n = Context i -> has_core n i.
End Core.

Section Fair.
  Context (size : Z) (k : encoding) (msg : option (list task)).

  (** A fair run: the device's processor and the host never stop for good, and as long as a
      context that may have the core can go on, some context does so after a while. *)
  Definition core_fair (run : nat -> device) (who : nat -> mover) : Prop :=
    (forall n, device_step size k msg (who n) (run n) (run (S n))) /\
    (forall n, exists m, (n <= m)%nat /\ who m = Channel) /\
    (forall n, exists m w got, (n <= m)%nat /\ RttModel.r_host (d_chan (run m)) = RttModel.HRead w got /\
       Z.of_nat (length got) = (w - RttModel.r_read (d_chan (run m))) mod size /\ who m = Host /\
       RttModel.r_host (d_chan (run (S m))) = RttModel.HIdle) /\
    (forall n, exists m, (n <= m)%nat /\ ((exists i, who m = Context i) \/ forall i, has_core run who m i -> ~ can_move size k msg i (run m))).
End Fair.
