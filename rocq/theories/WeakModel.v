(** The RTT channel ([firmware/defmt-rtt/src/channel.rs]) on a processor whose stores reach the
    memory late and out of order.  The device sees its own stores at once; the host sees what
    has reached the memory.  A store to a place waits for older stores to that place; the
    store of the write offset (lines 85-86, [Ordering::Release]) waits for all older stores.
    Younger stores may overtake it.

    Simplified: loads are done in program order; what the host stores is seen at once (a
    debug probe writes to the memory itself). *)
From Verif Require Import Base RttModel.

Inductive store :=
| SByte (i x : Z)
| SOffset (w : Z).

Definition apply_store (s : rtt) (e : store) : rtt :=
  match e with
  | SByte i x => store_byte s i x
  | SOffset w => store_write s w
  end.

(** [k_shared]: the state with the memory as the host sees it; [k_buffer]: stores that are on
    their way, oldest first. *)
Record weak := MkWeak { k_shared : rtt; k_buffer : list store }.

Fixpoint apply_all (s : rtt) (l : list store) : rtt :=
  match l with
  | [] => s
  | e :: l' => apply_all (apply_store s e) l'
  end.

(** What the device sees. *)
Definition view (k : weak) : rtt := apply_all (k_shared k) (k_buffer k).

Section Weak.
  (** [release]: the ordering of the store of the write offset is [Release] (and not
      [Relaxed]). *)
  Context (size : Z) (release : bool).

  (** The store of a step of the device: 73-81 and 85. *)
  Definition stores_of (s : rtt) : list store :=
    match r_dev s with
    | DCopy conn bs cursor len k =>
        if k <? len then
          let i := target size cursor len k in
          match nth_error bs (Z.to_nat k) with
          | Some x => if (0 <=? i) && (i <? size) then [SByte i x] else []
          | None => []
          end
        else []
    | DStore conn bs cursor len => if size =? 0 then [] else [SOffset ((cursor + len) mod size)]
    | _ => []
    end.

  Definition goes_on (s : rtt) (d : dev) (ops : list devop) : rtt :=
    MkRtt (r_mem s) (r_write s) (r_read s) (r_connected s) d ops (r_host s) (r_delivered s).

  (** A step of the device: it computes with what it sees, and its stores go into the buffer. *)
  Definition weak_dev (k : weak) : weak :=
    let after := dev_step size false (view k) in
    MkWeak (goes_on (k_shared k) (r_dev after) (r_ops after)) (k_buffer k ++ stores_of (view k)).

  Definition may_overtake (e : store) (older : list store) : Prop :=
    match e with
    | SByte i _ => forall x, ~ In (SByte i x) older
    | SOffset _ => if release then older = [] else forall w, ~ In (SOffset w) older
    end.

  Inductive weak_step : weak -> weak -> Prop :=
  | weak_device k : weak_step k (weak_dev k)
  | weak_host s s' b : host_step size s s' -> weak_step (MkWeak s b) (MkWeak s' b)
  | weak_commit s a e b : may_overtake e a -> weak_step (MkWeak s (a ++ e :: b)) (MkWeak (apply_store s e) (a ++ b)).

  Inductive weak_steps : weak -> weak -> Prop :=
  | weak_refl k : weak_steps k k
  | weak_trans k k' k'' : weak_steps k k' -> weak_step k' k'' -> weak_steps k k''.

  (** A fair run: the device keeps running, the host keeps reading all it sees, and the oldest
      store always reaches the memory some time. *)
  Definition weak_fair (run : nat -> weak) : Prop :=
    (forall n, run (S n) = run n \/ weak_step (run n) (run (S n))) /\
    (forall n, exists m, (n <= m)%nat /\ run (S m) = weak_dev (run m)) /\
    (forall n, exists m w got, (n <= m)%nat /\ r_host (k_shared (run m)) = HRead w got /\
       Z.of_nat (length got) = (w - r_read (k_shared (run m))) mod size /\
       host_step size (k_shared (run m)) (k_shared (run (S m))) /\ k_buffer (run (S m)) = k_buffer (run m) /\
       r_host (k_shared (run (S m))) = HIdle) /\
    (forall n, exists m, (n <= m)%nat /\ match k_buffer (run m) with
       | [] => True
       | e :: b => run (S m) = MkWeak (apply_store (k_shared (run m)) e) b
       end).
End Weak.
