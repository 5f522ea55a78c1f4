(** The timestamps of [book/src/timestamps.md], read by log statements on one core: a 32-bit timer that
    counts while the program runs, its overflow interrupt, and contexts that log or read the time.
    Simplified: memory accesses are atomic and in order ([Relaxed] on one core), the timer starts at zero and
    does not reach 2^64, the interrupt handler runs as a whole. *)
From Verif Require Import Base.

(** [timestamps.md:17-23] a counter, [:30-45] the timer, [:53-83] the timer extended to 64 bits. *)
Inductive source := Counter | Hardware | Extended.

Inductive op :=
| Lock        (** [acquire]: [critical_section::acquire()] masks interrupts and keeps other contexts out
                  ([firmware/defmt-rtt/src/lib.rs:132-154] and the other loggers) *)
| Begin       (** the time the evaluation starts, for the statements below only *)
| Count       (** [COUNT.fetch_add(1, Relaxed)] *)
| High1       (** [high1 <- read_high_count()] *)
| Low         (** [low <- read_low_count()] *)
| High2       (** [high2 <- read_high_count(); while (high1 != high2)] *)
| Emit        (** the value is used: sent with the message, or returned *)
| Unlock      (** [release] *)
| Work.

Definition evaluate (src : source) : list op :=
  match src with Counter => [Count] | Hardware => [Low] | Extended => [High1; Low; High2] end.

(** A log statement evaluates the timestamp between [acquire] and [release]
    ([defmt/src/export/mod.rs:212-226], [macros/src/items/timestamp.rs:35-46]); the application may read the time, too. *)
Inductive item := Log | Read | Other.

Definition comp_item (src : source) (i : item) : list op :=
  match i with
  | Log => Lock :: Begin :: evaluate src ++ [Emit; Unlock]
  | Read => Begin :: evaluate src ++ [Emit]
  | Other => [Work]
  end.
Definition comp (src : source) (p : list item) : list op := flat_map (comp_item src) p.

Record ctx := MkCtx { code : list op; since : Z; high : Z; low : Z }.

(** Values used, by a log statement or not, with the times their evaluation began and ended. *)
Record used := MkUsed { u_value : Z; u_logged : bool; u_since : Z; u_until : Z }.

Record sys := MkSys {
  now : Z;            (** what a 64-bit timer would show; the timer shows the lower 32 bits *)
  overflows : Z;      (** [OVERFLOW_COUNT] *)
  pending : bool;     (** the interrupt has been raised and masked *)
  owner : option nat; (** the context in the critical section *)
  count : Z;          (** [COUNT] *)
  ctxs : list ctx;
  uses : list used }.

Fixpoint upd {A} (i : nat) (x : A) (l : list A) : list A :=
  match i, l with
  | _, [] => []
  | O, _ :: r => x :: r
  | S i', y :: r => y :: upd i' x r
  end.

Definition timer (s : sys) : Z := now s mod 2 ^ 32.

(** [on_first_counter_overflow] ([timestamps.md:64-68]). *)
Definition overflow_handler (n : Z) : Z := (n + 1) mod 2 ^ 32.

(** The timer counts.  When it wraps around, the interrupt handler, having the highest priority, runs before any other
    instruction, unless interrupts are masked: then it is pending. *)
Definition tick (s : sys) : option sys :=
  let n := now s + 1 in
  if 2 ^ 64 <=? n then None else
  if n mod 2 ^ 32 =? 0 then
    match owner s with
    | None => Some (MkSys n (overflow_handler (overflows s)) (pending s) None (count s) (ctxs s) (uses s))
    | Some i => Some (MkSys n (overflows s) true (Some i) (count s) (ctxs s) (uses s))
    end
  else Some (MkSys n (overflows s) (pending s) (owner s) (count s) (ctxs s) (uses s)).

(** With interrupts masked no other context runs. *)
Definition may_run (i : nat) (o : option nat) : bool := match o with Some j => Nat.eqb i j | None => true end.
Definition is_some {A} (o : option A) : bool := match o with Some _ => true | None => false end.

Definition exec (i : nat) (s : sys) : option sys :=
  if negb (may_run i (owner s)) then None else
  match nth_error (ctxs s) i with
  | Some (MkCtx (o :: rest) t h l) =>
    let go n pend own cnt c u := Some (MkSys (now s) n pend own cnt (upd i c (ctxs s)) u) in
    let same c := go (overflows s) (pending s) (owner s) (count s) c (uses s) in
    match o with
    | Lock => go (overflows s) (pending s) (Some i) (count s) (MkCtx rest t h l) (uses s)
    | Begin => same (MkCtx rest (now s) 0 0)
    | Count => go (overflows s) (pending s) (owner s) ((count s + 1) mod 2 ^ 32) (MkCtx rest t h (count s)) (uses s)
    | High1 => same (MkCtx rest t (overflows s) l)
    | Low => same (MkCtx rest t h (timer s))
    | High2 => if overflows s =? h then same (MkCtx rest t h l) else same (MkCtx (High1 :: Low :: High2 :: rest) t h l)
    | Emit => go (overflows s) (pending s) (owner s) (count s) (MkCtx rest t h l) (uses s ++ [MkUsed (h * 2 ^ 32 + l) (is_some (owner s)) t (now s)])
    | Unlock => go (if pending s then overflow_handler (overflows s) else overflows s) false None (count s) (MkCtx rest t h l) (uses s)
    | Work => same (MkCtx rest t h l)
    end
  | _ => None
  end.

Inductive move := Tick | Step (i : nat).

Definition step (m : move) (s : sys) : option sys := match m with Tick => tick s | Step i => exec i s end.

Definition boot (src : source) (progs : list (list item)) : sys :=
  MkSys 0 0 false None 0 (map (fun p => MkCtx (comp src p) 0 0 0) progs) [].

Inductive runs : list move -> sys -> sys -> Prop :=
| Run_start s : runs [] s s
| Run_step ms m s s' s'' : runs ms s s' -> step m s' = Some s'' -> runs (ms ++ [m]) s s''.
