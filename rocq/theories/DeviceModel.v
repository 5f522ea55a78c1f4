(** A device with defmt-rtt: the contexts of [LoggerModel] and the channel of [RttModel] in one
    machine.  A context that calls the channel waits until the call has returned; all
    the others, the channel and the host go on in any order. *)
From Verif Require Import Base RzcobsModel DecoderModel LoggerModel.
From Verif Require RttModel.

(** [d_caller]: the context that made the latest call of the channel. *)
Record device := MkDevice { d_sys : sys; d_caller : option nat; d_chan : RttModel.rtt }.

(** No call in progress. *)
Definition returned (r : RttModel.rtt) : Prop := RttModel.r_dev r = RttModel.DNext /\ RttModel.r_ops r = [].

Definition call (r : RttModel.rtt) (ops : list RttModel.devop) : RttModel.rtt :=
  RttModel.MkRtt (RttModel.r_mem r) (RttModel.r_write r) (RttModel.r_read r) (RttModel.r_connected r) (RttModel.r_dev r)
    (RttModel.r_ops r ++ ops) (RttModel.r_host r) (RttModel.r_delivered r).

(** The calls of the channel in a step of the logger ([firmware/defmt-rtt/src/lib.rs:148-151],
    [165-169], [180-183], [199-201]): the encoder hands its bytes over in any number of
    pieces, each with a call of [write_all]. *)
Definition calls (o : op) (emitted : bytes) (ops : list RttModel.devop) : Prop :=
  match o with
  | OStart | OWrite _ | OEnd => exists pieces, concat pieces = emitted /\ ops = map RttModel.OWrite pieces
  | OFlush => ops = [RttModel.OFlush]
  | _ => ops = []
  end.

Inductive mover := Context (i : nat) | Channel | Host | Nobody.

Section Device.
  Context (size : Z) (k : encoding) (msg : option (list task)).

  Inductive device_step : mover -> device -> device -> Prop :=
  | Step_context i s s' o rest ls emitted ops caller r :
      nth_error (ctxs s) i = Some (MkCtx (o :: rest) ls) ->
      (caller = Some i -> returned r) ->
      step Rtt k msg i s = Some s' ->
      out s' = out s ++ emitted -> calls o emitted ops ->
      device_step (Context i) (MkDevice s caller r) (MkDevice s' (match ops with [] => caller | _ => Some i end) (call r ops))
  | Step_channel s c r : device_step Channel (MkDevice s c r) (MkDevice s c (RttModel.dev_step size false r))
  | Step_host s c r r' : RttModel.host_step size r r' -> device_step Host (MkDevice s c r) (MkDevice s c r')
  | Step_nobody d : device_step Nobody d d.

  Inductive device_runs : device -> device -> Prop :=
  | Device_start d : device_runs d d
  | Device_step m d d' d'' : device_runs d d' -> device_step m d' d'' -> device_runs d d''.

  (** After reset: the host is connected, and nothing is unread. *)
  Definition device_boot (progs : list (list task)) (d : device) : Prop :=
    d_sys d = boot Rtt progs /\ d_caller d = None /\ RttModel.start size (d_chan d) [] /\ RttModel.r_connected (d_chan d) = true.

  Definition device_reaches (progs : list (list task)) (d : device) : Prop :=
    exists d0, device_boot progs d0 /\ device_runs d0 d.

  (** Context [i] can go on. *)
  Definition can_move (i : nat) (d : device) : Prop := exists d', device_step (Context i) d d'.

  (** A fair run: the device's processor and the host never stop for good, and as long as a
      context can go on, some context does so after a while.  No order among contexts is assumed. *)
  Definition device_fair (run : nat -> device) (who : nat -> mover) : Prop :=
    (forall n, device_step (who n) (run n) (run (S n))) /\
    (forall n, exists m, (n <= m)%nat /\ who m = Channel) /\
    (forall n, exists m w got, (n <= m)%nat /\ RttModel.r_host (d_chan (run m)) = RttModel.HRead w got /\
       Z.of_nat (length got) = (w - RttModel.r_read (d_chan (run m))) mod size /\ who m = Host /\
       RttModel.r_host (d_chan (run (S m))) = RttModel.HIdle) /\
    (forall n, exists m, (n <= m)%nat /\ ((exists i, who m = Context i) \/ forall i, ~ can_move i (run m))).
End Device.
