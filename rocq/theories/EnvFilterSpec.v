(** What [DEFMT_LOG] means ([book/src/filtering.md]), stated on directives. *)
From Verif Require Import Base ParserModel EnvFilterModel.

(** A directive: a module path ([None] for a bare level) and a level ([None]: off). *)
Definition directive : Type := option path * option level.

Definition level_text (l : option level) : bytes :=
  match l with
  | None => lit "off"
  | Some LTrace => lit "trace"
  | Some LDebug => lit "debug"
  | Some LInfo => lit "info"
  | Some LWarn => lit "warn"
  | Some LError => lit "error"
  end.

Section Spec.
  Context (valid_ident : bytes -> bool).

  Definition path_ok (p : path) : Prop := p <> [] /\ Forall (fun s => valid_ident s = true) p.

  (** The text of one comma-separated entry. *)
  Inductive directive_text : bytes -> directive -> Prop :=
  | DT_level l : directive_text (level_text l) (None, l)
  | DT_module p : path_ok p -> (forall l, join_path p <> level_text l) ->
      directive_text (join_path p) (Some p, Some LTrace)
  | DT_module_level p l : path_ok p -> directive_text (join_path p ++ lit "=" ++ level_text l) (Some p, l).

  (** The value of the variable: entries separated by commas, some of them empty. *)
  Fixpoint comma_join (es : list bytes) : bytes :=
    match es with
    | [] => []
    | [e] => e
    | e :: es' => e ++ lit "," ++ comma_join es'
    end.

  Definition log_text (input : bytes) (ds : list directive) : Prop :=
    exists es, input = comma_join es /\ Forall2 directive_text (filter nonemptyb es) ds.
End Spec.

(** Module [p] is [m] or a module around it. *)
Definition covers (p m : path) : Prop := exists r, m = p ++ r.

(** Later directives override earlier ones. *)
Definition last_directive (o : option path) (ds : list directive) (l : option level) : Prop :=
  exists before after, ds = before ++ (o, l) :: after /\ forall l', ~ In (o, l') after.

(** The level that the most specific directive gives to module [m]. *)
Inductive effective (ds : list directive) (m : path) : option level -> Prop :=
| E_module p l : covers p m -> last_directive (Some p) ds l ->
    (forall q l', covers q m -> In (Some q, l') ds -> (length q <= length p)%nat) -> effective ds m l
| E_bare l : (forall q l', covers q m -> ~ In (Some q, l') ds) -> last_directive None ds l -> effective ds m l
| E_default : (forall q l', covers q m -> ~ In (Some q, l') ds) -> (forall l', ~ In (None, l') ds) ->
    effective ds m (Some LError).

(** From lowest to highest severity. *)
Definition severities : list level := [LTrace; LDebug; LInfo; LWarn; LError].

(** Enabling a level also enables those of higher severity; [off] enables nothing. *)
Definition enables (setting : option level) (l : level) : Prop :=
  exists m i j, setting = Some m /\ nth_error severities i = Some m /\ nth_error severities j = Some l /\ (i <= j)%nat.

(** The setting of module [p] of crate [crate]: its last directive, or for the root of
    the crate without directives the last bare level, or [error]. *)
Inductive assigned (crate : bytes) (ds : list directive) : path -> option level -> Prop :=
| A_directive p l : last_directive (Some p) ds l -> assigned crate ds p l
| A_bare l : (forall l', ~ In (Some [crate], l') ds) -> last_directive None ds l -> assigned crate ds [crate] l
| A_default : (forall l', ~ In (Some [crate], l') ds) -> (forall l', ~ In (None, l') ds) ->
    assigned crate ds [crate] (Some LError).
