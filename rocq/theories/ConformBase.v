(** Running whole programs through the models of device and host, for comparison with the
    snapshot tests of the repository. *)
From Verif Require Import Base ParserModel DecoderModel DisplayModel EncodeModel.

Definition fd (s : string) (t : rty) : field := (lit s, None, t).
Definition tf (t : rty) : field := ([], None, t).
Definition un (s : string) : variant := (lit s, KUnit, []).

Definition statement : Type := tag * bytes * list aval.
Definition info (s : string) (args : list aval) : statement := (GInfo, lit s, args).

(** The strings interned by the code for a value (and possibly more). *)
Fixpoint uses (t : rty) (v : rval) {struct v} : list bytes :=
  let field_uses (f : field) v' := let '(_, a, t') := f in match a with Some _ => [] | None => format_tag t' :: uses t' v' end in
  match strip t, v with
  | RPrim PIStr, VText s => [s]
  | RSlice e, VList vs | RArray _ e, VList vs => format_tag e :: concat (map (uses e) vs)
  | RComp _ ts, VList vs => concat (map2 (fun t' v' => format_tag t' :: uses t' v') ts vs)
  | RLibEnum alts, VVar k vs =>
      concat (map2 (fun t' v' => format_tag t' :: uses t' v') (match nth_error alts k with Some (_, ts) => ts | None => [] end) vs)
  | RManual, VWrites ws => concat (map call_uses ws)
  | RStruct _ _ fs, VList vs => concat (map2 field_uses fs vs)
  | REnum variants, VVar k vs => concat (map2 field_uses (match nth_error variants k with Some (_, _, fs) => fs | None => [] end) vs)
  | _, _ => []
  end
with call_uses (w : wcall) {struct w} : list bytes :=
  match w with
  | SWrite s args => s :: concat (map arg_uses args)
  | SDelegate t v => format_tag t :: uses t v
  end
with arg_uses (a : aval) {struct a} : list bytes :=
  match a with
  | AvPrim (VText s) => [s]
  | AvFmt t v => format_tag t :: uses t v
  | AvSlice t vs => format_tag t :: concat (map (uses t) vs)
  | _ => []
  end.

Fixpoint dedup (seen l : list bytes) : list bytes :=
  match l with
  | [] => rev seen
  | s :: l' => if existsb (beq s) seen then dedup seen l' else dedup (s :: seen) l'
  end.

Fixpoint position (l : list bytes) (s : bytes) : Z :=
  match l with [] => 0 | x :: l' => if beq s x then 0 else 1 + position l' s end.

Definition level_tag (l : level) : tag :=
  match l with LTrace => GTrace | LDebug => GDebug | LInfo => GInfo | LWarn => GWarn | LError => GError end.

Fixpoint numbered {A} (i : Z) (l : list A) : list (Z * A) :=
  match l with [] => [] | a :: l' => (i, a) :: numbered (i + 1) l' end.

Section Run.
  Context (X : externals) (timestamp : option bytes) (time_args : nat -> list aval)
    (flags : list (bitflags_key * list (bytes * Z))).

  (** Statements have the indices from 1, other strings those from 2000. *)
  Definition run_with (prog : list statement) : list (option bytes) :=
    let strings := dedup [] ([debug_tag; display_tag] ++
      concat (map arg_uses (time_args 0%nat)) ++ concat (map (fun st : statement => concat (map arg_uses (snd st))) prog)) in
    let addr s := 2000 + position strings s in
    let entry_of g s := MkEntry g s [] in
    let tbl := MkTable (option_map (entry_of GTimestamp) timestamp)
      (numbered 1 (map (fun st : statement => entry_of (fst (fst st)) (snd (fst st))) prog) ++
       numbered 2000 (map (entry_of GDerived) strings)) flags EncRzcobs in
    map (fun is : Z * statement =>
      let '(i, (_, f, args)) := is in
      match decode tbl (encode_frame addr i timestamp (time_args (Z.to_nat (i - 1))) f args) with
      | Ok (fr, _) => display_frame X tbl false fr
      | _ => None
      end) (numbered 1 prog).
End Run.

Definition run (X : externals) (prog : list statement) : list (option bytes) := run_with X None (fun _ => []) [] prog.
