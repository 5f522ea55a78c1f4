(** What the contexts' programs are supposed to transmit, without the logger. *)
From Verif Require Import Base RzcobsModel DecoderModel LoggerModel.

(** Critical sections are properly nested (they are entered with [critical_section::with]), and
    data is only written inside log statements.  [inside]: in a log statement; [d]: open sections. *)
Inductive nested : bool -> nat -> list task -> Prop :=
| N_nil inside : nested inside 0 []
| N_log inside d body r : nested true 0 body -> nested inside d r -> nested inside d (TLog body :: r)
| N_write d b r : nested true d r -> nested true d (TWrite b :: r)
| N_flush d r : nested true d r -> nested true d (TFlush :: r)
| N_enter inside d r : nested inside (S d) r -> nested inside d (TEnter :: r)
| N_leave inside d r : nested inside d r -> nested inside (S d) (TLeave :: r)
| N_panic inside d r : nested inside d (TPanic :: r)
| N_halt inside d r : nested inside d (THalt :: r)
| N_work inside d r : nested inside d r -> nested inside d (TWork :: r).

(** What a log statement writes, and whether it gets to its end: it does not if its user code
    panics, never returns or uses the logger. *)
Fixpoint attempt (body : list task) : list bytes * bool :=
  match body with
  | [] => ([], true)
  | TWrite b :: r => let '(w, f) := attempt r in (b :: w, f)
  | (TFlush | TEnter | TLeave | TWork) :: r => attempt r
  | (TLog _ | TPanic | THalt) :: _ => ([], false)
  end.

(** The messages a context sends one after the other; only the last one can be incomplete. *)
Fixpoint attempts (msg : option (list task)) (ts : list task) : list (list bytes * bool) :=
  match ts with
  | [] => []
  | TLog body :: r => attempt body :: (if snd (attempt body) then attempts msg r else [])
  | TPanic :: _ => match msg with Some body => [attempt body] | None => [] end
  | THalt :: _ => []
  | (TWrite _ | TFlush | TEnter | TLeave | TWork) :: r => attempts msg r
  end.

(** Programs whose statements neither panic nor hang nor log from inside a log statement. *)
Definition calm_body (body : list task) : Prop :=
  Forall (fun t => match t with TWrite _ | TFlush | TEnter | TLeave | TWork => True | _ => False end) body.
Definition calm (ts : list task) : Prop :=
  Forall (fun t => match t with TLog body => calm_body body | TEnter | TLeave | TWork => True | _ => False end) ts.

(** The bytes of complete messages, and of complete messages followed by the beginning of another. *)
Definition transmitted (k : encoding) (done : list (list bytes)) : bytes :=
  match k with EncRzcobs => snd (frames_chunks enc_new done) | EncRaw => concat (map raw_frame_chunks done) end.
Definition transmitted_part (k : encoding) (done : list (list bytes)) (w : list bytes) : bytes :=
  match k with
  | EncRzcobs =>
      let '(e, o) := frames_chunks enc_new done in let '(e0, o0) := start_frame e in o ++ o0 ++ snd (writes e0 w)
  | EncRaw => concat (map raw_frame_chunks done) ++ concat w
  end.

(** The messages of context [i]. *)
Definition by_ctx (i : nat) (h : list (nat * list bytes)) : list (list bytes) :=
  map snd (filter (fun x => Nat.eqb (fst x) i) h).

Definition complete (ws : list (list bytes)) : list (list bytes * bool) := map (fun w => (w, true)) ws.

(** The next step of context [i]. *)
Definition next_op (s : sys) (i : nat) : option op :=
  match nth_error (ctxs s) i with Some (MkCtx (o :: _) _) => Some o | _ => None end.

(** Critical sections opened by [TEnter] and not yet closed: leaves without a matching enter. *)
Fixpoint open_sections (d : nat) (c : list op) : nat :=
  match c with
  | [] => 0
  | OEnter :: r => open_sections (S d) r
  | OLeave :: r => match d with O => S (open_sections 0 r) | S d' => open_sections d' r end
  | _ :: r => open_sections d r
  end.
