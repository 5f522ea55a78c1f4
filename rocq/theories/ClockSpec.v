(** What timestamps should be. *)
From Verif Require Import Base ClockModel.

(** A run in which every wrap-around of the timer happens in a state that is [fine]. *)
Inductive runs_if (fine : sys -> Prop) : sys -> sys -> Prop :=
| If_start s : runs_if fine s s
| If_tick s s' s'' : runs_if fine s s' -> step Tick s' = Some s'' -> ((now s' + 1) mod 2 ^ 32 = 0 -> fine s') -> runs_if fine s s''
| If_step i s s' s'' : runs_if fine s s' -> step (Step i) s' = Some s'' -> runs_if fine s s''.

(** Interrupts are not lost: no wrap-around while one is pending. *)
Definition not_pending (s : sys) : Prop := pending s = false.
(** No wrap-around while interrupts are masked. *)
Definition not_masked (s : sys) : Prop := owner s = None.

(** The value is that of the 64-bit time, or its lower 32 bits, at some time during the evaluation. *)
Definition true_time (u : used) : Prop := u_since u <= u_value u <= u_until u.
Definition true_low (u : used) : Prop := exists t, u_since u <= t <= u_until u /\ u_value u = t mod 2 ^ 32.

(** Values one after the other, by their times of evaluation. *)
Definition in_turn (l : list used) : Prop :=
  forall i j a b, (i < j)%nat -> nth_error l i = Some a -> nth_error l j = Some b -> u_until a <= u_since b.
(** Values that do not go back. *)
Definition ascending (l : list used) : Prop :=
  forall i j a b, (i < j)%nat -> nth_error l i = Some a -> nth_error l j = Some b -> u_value a <= u_value b.

Definition logs_only (progs : list (list item)) : Prop := forall p, In p progs -> ~ In Read p.
