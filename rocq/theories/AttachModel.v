(** A host that comes and goes.  After reset the channel is in the mode that never waits
    ([firmware/defmt-rtt/src/lib.rs:92]); a host attaches by storing the blocking mode in the
    flags ([channel.rs:22], [104-107]) and may detach again.

    The device looks at the mode when [write_all] starts ([channel.rs:29-33]), so a write can
    go on without waiting although a host is attached now.  [session_step] is for a host that
    does not touch the channel until such a write has ended (for instance because it attaches
    while the processor is halted between two writes); see [Prop_Attach] for what happens otherwise. *)
From Verif Require Import Base RzcobsModel DecoderModel LoggerModel DeviceModel.
From Verif Require RttModel.

(** The host stores the blocking mode, and has got nothing yet. *)
Definition attached (r : RttModel.rtt) : RttModel.rtt :=
  RttModel.MkRtt (RttModel.r_mem r) (RttModel.r_write r) (RttModel.r_read r) true (RttModel.r_dev r) (RttModel.r_ops r) (RttModel.r_host r) [].

(** It stores the other mode. *)
Definition detached (r : RttModel.rtt) : RttModel.rtt :=
  RttModel.MkRtt (RttModel.r_mem r) (RttModel.r_write r) (RttModel.r_read r) false (RttModel.r_dev r) (RttModel.r_ops r) (RttModel.r_host r) (RttModel.r_delivered r).

(** A write that does not wait for the host is in progress ([channel.rs:32], [61-66]). *)
Definition trimming (d : RttModel.dev) : bool :=
  match d with
  | RttModel.DLoop false _ | RttModel.DWrite _ None | RttModel.DCopy false _ _ _ _ | RttModel.DStore false _ _ _ => true
  | _ => false
  end.

Section Attach.
  Context (size : Z) (k : encoding) (msg : option (list task)).

  Inductive session_step : mover -> device -> device -> Prop :=
  | Session_device m d d' : m <> Host -> device_step size k msg m d d' -> session_step m d d'
  | Session_host d d' : RttModel.r_connected (d_chan d) = true -> trimming (RttModel.r_dev (d_chan d)) = false ->
      device_step size k msg Host d d' -> session_step Host d d'.

  (** Nobody attaches or detaches. *)
  Inductive session : device -> device -> Prop :=
  | Session_start d : session d d
  | Session_step m d d' d'' : session d d' -> session_step m d' d'' -> session d d''.

  Definition attach (d : device) : device := MkDevice (d_sys d) (d_caller d) (attached (d_chan d)).
  Definition detach (d : device) : device := MkDevice (d_sys d) (d_caller d) (detached (d_chan d)).

  Inductive life : device -> device -> Prop :=
  | Life_start d : life d d
  | Life_step m d d' d'' : life d d' -> session_step m d' d'' -> life d d''
  | Life_attach d d' : life d d' -> RttModel.r_connected (d_chan d') = false -> life d (attach d')
  | Life_detach d d' : life d d' -> RttModel.r_host (d_chan d') = RttModel.HIdle -> life d (detach d').

  (** After reset ([lib.rs:82-97]): no host, nothing in the buffer. *)
  Definition reset (progs : list (list task)) (d : device) : Prop :=
    d_sys d = boot Rtt progs /\ d_caller d = None /\ RttModel.start size (d_chan d) [] /\ RttModel.r_connected (d_chan d) = false.

  Definition lives (progs : list (list task)) (d : device) : Prop := exists d0, reset progs d0 /\ life d0 d.

  (** A fair session: see [device_fair]. *)
  Definition session_fair (run : nat -> device) (who : nat -> mover) : Prop :=
    (forall n, session_step (who n) (run n) (run (S n))) /\ device_fair size k msg run who.
End Attach.
