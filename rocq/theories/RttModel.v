(** Model of the RTT up channel, [firmware/defmt-rtt/src/channel.rs], as a machine
    whose steps are single memory operations of the device and of the host.

    Simplifications: memory operations are atomic and seen by both sides in program
    order (the code's release/acquire orderings are not modelled further); [usize]
    additions do not overflow ([cursor + len] is at most twice the buffer size).  The
    host's side of the protocol is not in the repository; [host_step] is what the RTT
    specification allows: load the write offset, read some of the available bytes,
    store the new read offset. *)
From Verif Require Import Base.

(** What the logger does with the channel. *)
Inductive devop :=
| OWrite (bs : bytes)
| OFlush.

(** Where the device is.
    - [DNext]: between operations;
    - [DLoop conn bs]: head of the loop of [write_all] (lines 35-40), [conn] the
      connection state read at its start, [bs] the bytes still to be written;
    - [DRead], [DWrite]: before the loads of lines 49 and 50/62 (the latter with the
      read offset, if loaded);
    - [DCopy conn bs cursor len k]: [write_impl] (68-82), [k] bytes copied;
    - [DStore]: before the store of line 85;
    - [DFlushR], [DFlushW]: before the two loads of line 101;
    - [DFault]: a panic, or an access outside the buffer. *)
Inductive dev :=
| DNext
| DLoop (conn : bool) (bs : bytes)
| DRead (bs : bytes)
| DWrite (bs : bytes) (read : option Z)
| DCopy (conn : bool) (bs : bytes) (cursor len k : Z)
| DStore (conn : bool) (bs : bytes) (cursor len : Z)
| DFlushR
| DFlushW (read : Z)
| DFault.

(** Where the host is: idle, or having loaded the write offset and read some bytes. *)
Inductive host :=
| HIdle
| HRead (write : Z) (got : bytes).

Record rtt := MkRtt {
  r_mem : bytes;         (* the buffer *)
  r_write : Z;
  r_read : Z;
  r_connected : bool;    (* [flags & MODE_MASK == MODE_BLOCK_IF_FULL], 104-107 *)
  r_dev : dev;
  r_ops : list devop;    (* operations not yet started *)
  r_host : host;
  r_delivered : bytes    (* what the host has got so far *)
}.

Fixpoint upd (i : nat) (x : Z) (l : bytes) : bytes :=
  match l, i with
  | [], _ => []
  | _ :: l', O => x :: l'
  | y :: l', S i' => y :: upd i' x l'
  end.

Section Channel.
  (** [BUF_SIZE] ([consts.rs]) and the feature [disable-blocking-mode]. *)
  Context (size : Z) (nonblocking : bool).

  (** [channel.rs:111-119] [available_buffer_size]; [None] is an underflow. *)
  Definition available (read write : Z) : option Z :=
    let n := if read >? write then read - write - 1
             else if read =? 0 then size - write - 1
             else size - write in
    if n <? 0 then None else Some n.

  (** [channel.rs:73-81]: where byte [k] goes. *)
  Definition target (cursor len k : Z) : Z :=
    if cursor + len >? size then
      let pivot := size - cursor in
      if k <? pivot then cursor + k else k - pivot
    else cursor + k.

  Definition set_dev (s : rtt) (d : dev) : rtt :=
    MkRtt (r_mem s) (r_write s) (r_read s) (r_connected s) d (r_ops s) (r_host s) (r_delivered s).

  Definition store_byte (s : rtt) (i x : Z) : rtt :=
    MkRtt (upd (Z.to_nat i) x (r_mem s)) (r_write s) (r_read s) (r_connected s) (r_dev s) (r_ops s) (r_host s)
      (r_delivered s).

  Definition store_write (s : rtt) (w : Z) : rtt :=
    MkRtt (r_mem s) w (r_read s) (r_connected s) (r_dev s) (r_ops s) (r_host s) (r_delivered s).

  (** One step of the device. *)
  Definition dev_step (s : rtt) : rtt :=
    match r_dev s with
    | DNext =>
        match r_ops s with
        | [] => s
        | op :: ops =>
            let s' := MkRtt (r_mem s) (r_write s) (r_read s) (r_connected s) DNext ops (r_host s) (r_delivered s) in
            match op with
            (* 29-33 *)
            | OWrite bs => set_dev s' (DLoop (if nonblocking then false else r_connected s) bs)
            (* 94-96 *)
            | OFlush => if r_connected s then set_dev s' DFlushR else s'
            end
        end
    (* 35, 44-46 *)
    | DLoop conn bs =>
        match bs with
        | [] => set_dev s DNext
        | _ => set_dev s (if conn then DRead bs else DWrite bs None)
        end
    (* 49 *)
    | DRead bs => set_dev s (DWrite bs (Some (r_read s)))
    (* 50-58 *)
    | DWrite bs (Some read) =>
        match available read (r_write s) with
        | None => set_dev s DFault
        | Some n => if n =? 0 then set_dev s (DLoop true bs)
                    else set_dev s (DCopy true bs (r_write s) (Z.min (Z.of_nat (length bs)) n) 0)
        end
    (* 62-65 *)
    | DWrite bs None => set_dev s (DCopy false bs (r_write s) (Z.min (Z.of_nat (length bs)) size) 0)
    (* 73-81 *)
    | DCopy conn bs cursor len k =>
        if k <? len then
          let i := target cursor len k in
          match nth_error bs (Z.to_nat k) with
          | Some x => if (0 <=? i) && (i <? size) then set_dev (store_byte s i x) (DCopy conn bs cursor len (k + 1))
                      else set_dev s DFault
          | None => set_dev s DFault
          end
        else set_dev s (DStore conn bs cursor len)
    (* 85-89, 36-39; the remainder panics for an empty buffer *)
    | DStore conn bs cursor len =>
        if size =? 0 then set_dev s DFault
        else set_dev (store_write s ((cursor + len) mod size)) (DLoop conn (skipn (Z.to_nat len) bs))
    (* 101 *)
    | DFlushR => set_dev s (DFlushW (r_read s))
    | DFlushW read => if read =? r_write s then set_dev s DNext else set_dev s DFlushR
    | DFault => s
    end.

  Definition set_host (s : rtt) (h : host) : rtt :=
    MkRtt (r_mem s) (r_write s) (r_read s) (r_connected s) (r_dev s) (r_ops s) h (r_delivered s).

  (** One step of an RTT host. *)
  Inductive host_step : rtt -> rtt -> Prop :=
  | host_load s : r_host s = HIdle -> host_step s (set_host s (HRead (r_write s) []))
  | host_read s w got x : r_host s = HRead w got ->
      Z.of_nat (length got) < (w - r_read s) mod size ->
      nth_error (r_mem s) (Z.to_nat ((r_read s + Z.of_nat (length got)) mod size)) = Some x ->
      host_step s (set_host s (HRead w (got ++ [x])))
  | host_store s w got : r_host s = HRead w got ->
      host_step s (MkRtt (r_mem s) (r_write s) ((r_read s + Z.of_nat (length got)) mod size) (r_connected s)
        (r_dev s) (r_ops s) HIdle (r_delivered s ++ got)).

  Inductive step : rtt -> rtt -> Prop :=
  | step_dev s : step s (dev_step s)
  | step_host s s' : host_step s s' -> step s s'.

  Inductive steps : rtt -> rtt -> Prop :=
  | steps_refl s : steps s s
  | steps_step s s' s'' : steps s s' -> step s' s'' -> steps s s''.

  (** A host that does anything with its read offset (within the buffer) and the
      channel mode at any time. *)
  Inductive wild_step : rtt -> rtt -> Prop :=
  | wild_dev s : wild_step s (dev_step s)
  | wild_host s r c : 0 <= r < size ->
      wild_step s (MkRtt (r_mem s) (r_write s) r c (r_dev s) (r_ops s) (r_host s) (r_delivered s)).

  Inductive wild_steps : rtt -> rtt -> Prop :=
  | wild_refl s : wild_steps s s
  | wild_trans s s' s'' : wild_steps s s' -> wild_step s' s'' -> wild_steps s s''.

  (** All bytes of the writes. *)
  Fixpoint data (ops : list devop) : bytes :=
    match ops with
    | [] => []
    | OWrite bs :: ops' => bs ++ data ops'
    | OFlush :: ops' => data ops'
    end.

  (** The device about to execute [ops], the buffer holding anything, nothing unread. *)
  Definition start (s : rtt) (ops : list devop) : Prop :=
    Z.of_nat (length (r_mem s)) = size /\ 0 <= r_write s < size /\ r_read s = r_write s /\
    r_dev s = DNext /\ r_ops s = ops /\ r_host s = HIdle /\ r_delivered s = [].
End Channel.
