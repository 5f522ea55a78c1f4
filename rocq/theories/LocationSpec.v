(** What the locations of log statements should be. *)
From Verif Require Import Base DecoderModel EnvFilterModel LogFormatModel LocationModel.

(** ** Paths *)

(** The names of a path. *)
Definition names (p : bytes) : list bytes := filter (fun n => negb (trivial_name n)) (split_on 47 p).

(** Of the parts of a path, those that count: nothing before an absolute one. *)
Fixpoint effective (parts : list bytes) : list bytes :=
  match parts with
  | [] => []
  | p :: r => if existsb is_absolute r then effective r else p :: r
  end.

(** Two slashes in a row. *)
Definition doubled (p : bytes) : Prop := exists a b, p = a ++ 47 :: 47 :: b.

(** [p] is the path composed of [parts], without more slashes than necessary. *)
Definition composed (parts : list bytes) (p : bytes) : Prop :=
  names p = flat_map names (effective parts) /\
  is_absolute p = existsb is_absolute parts /\
  (Forall (fun q => ~ doubled q) parts -> ~ doubled p).

Definition opt_part (o : option bytes) : list bytes := match o with Some x => [x] | None => [] end.

(** File number [i] of unit [u] is [p]: a relative directory is one in the compilation directory. *)
Definition source_file (u : unit_info) (i : Z) (p : bytes) : Prop :=
  exists files dir name, i <> 0 /\ u_files u = Some files /\ files i = Some (dir, name) /\
    composed (match dir with None => [] | Some d => opt_part (u_comp_dir u) ++ [d] end ++ [name]) p.

(** ** Log statements *)

(** A variable that holds a log statement that is in the program. *)
Definition statement (symbols : list bytes) (v : variable) : Prop :=
  v_name v = Some statement_name /\ (exists s, v_linkage v = Some s /\ In s symbols) /\
  v_file v <> None /\ v_line v <> None /\ v_location v <> None.

Definition has_address (v : variable) (a : Z) : Prop :=
  exists n ops, v_location v = Some (repeat None n ++ Some a :: ops).

Definition named (k : kind) : bool := match k with KNamespace (Some _) => true | _ => false end.

(** The variable [v] lies in the trees [ts], inside exactly the namespaces [path]. *)
Inductive inside : list die -> list bytes -> variable -> Prop :=
| I_here : forall ts v ch, In (Die (KVariable v) ch) ts -> inside ts [] v
| I_namespace : forall ts n ch path v, In (Die (KNamespace (Some n)) ch) ts -> inside ch path v -> inside ts (n :: path) v
| I_other : forall ts k ch path v, In (Die k ch) ts -> named k = false -> inside ch path v -> inside ts path v.

(** [l] is the location of the variable [v] of unit [u] inside the namespaces [path]. *)
Definition located (u : unit_info) (path : list bytes) (v : variable) (l : location) : Prop :=
  v_line v = Some (l_line l) /\ l_module l = join (lit "::") path /\
  exists i, v_file v = Some i /\ source_file u i (l_file l).

(** [m] has the location of every log statement of the trees [ts] of unit [u], and no others. *)
Definition all_located (symbols : list bytes) (trees : list (unit_info * list die)) (m : list (Z * location)) : Prop :=
  (forall a l, loc_get a m = Some l -> exists u ts path v,
     In (u, ts) trees /\ inside ts path v /\ statement symbols v /\ has_address v a /\ located u path v l) /\
  (forall u ts path v, In (u, ts) trees -> inside ts path v -> statement symbols v ->
     exists a l, has_address v a /\ loc_get a m = Some l /\ located u path v l).

(** ** Orderly debug information *)

Inductive has_namespace : die -> Prop :=
| N_here : forall k ch, named k = true -> has_namespace (Die k ch)
| N_below : forall k ch t, In t ch -> has_namespace t -> has_namespace (Die k ch).

(** A log statement that is not inside a (further) namespace. *)
Inductive direct (symbols : list bytes) : die -> Prop :=
| D_here : forall v ch, statement symbols v -> direct symbols (Die (KVariable v) ch)
| D_below : forall k ch t, named k = false -> In t ch -> direct symbols t -> direct symbols (Die k ch).

(** No log statement follows a namespace that it is not in. *)
Definition in_order (symbols : list bytes) : list die -> Prop :=
  ForallOrdPairs (fun a b => has_namespace a -> ~ direct symbols b).

(** Namespaces are in namespaces only, and log statements come before sibling namespaces. *)
Inductive tidy (symbols : list bytes) : die -> Prop :=
| T_namespace : forall n ch, Forall (tidy symbols) ch -> in_order symbols ch -> tidy symbols (Die (KNamespace (Some n)) ch)
| T_other : forall k ch, named k = false -> Forall (fun t => ~ has_namespace t) ch -> tidy symbols (Die k ch).

Definition children (t : die) : list die := let 'Die _ ch := t in ch.

Definition tidy_unit (symbols : list bytes) (u : unit_info) : Prop :=
  forall t, u_root u = Some t -> Forall (tidy symbols) (children t) /\ in_order symbols (children t).

(** The units with the entries below their roots. *)
Definition unit_trees (us : list unit_info) : list (unit_info * list die) :=
  flat_map (fun u => match u_root u with Some t => [(u, children t)] | None => [] end) us.

(** ** Paths shown *)

(** [shown] is the path of [file] as seen from [dir]: the rest of it inside [dir], else the file itself. *)
Definition seen_from (dir file shown : bytes) : Prop :=
  (exists rest, is_absolute file = true /\ names file = names dir ++ rest /\ is_absolute shown = false /\ names shown = rest) \/
  ((is_absolute file = false \/ ~ exists rest, names file = names dir ++ rest) /\ shown = file).

(** ** Complete debug information *)

Fixpoint variables (t : die) : list variable :=
  let 'Die k ch := t in match k with KVariable v => [v] | _ => [] end ++ flat_map variables ch.

Fixpoint texts (t : die) : list bytes :=
  let 'Die k ch := t in
  match k with KNamespace n => opt_part n | KVariable v => opt_part (v_name v) ++ opt_part (v_linkage v) | KOther => [] end ++
  flat_map texts ch.

Definition unit_variables (us : list unit_info) : list variable :=
  flat_map (fun ut => flat_map variables (snd ut)) (unit_trees us).

(** Texts are UTF-8, and log statements have an address and a file, ... *)
Definition readable (symbols : list bytes) (u : unit_info) : Prop :=
  exists t, u_root u = Some t /\
    (forall s, In s (flat_map texts (children t)) -> Utf8.utf8_valid s = true) /\
    (forall v, In v (flat_map variables (children t)) -> statement symbols v ->
       (exists a, has_address v a) /\ exists i p, v_file v = Some i /\ source_file u i p).

(** ... a different one each. *)
Definition distinct_addresses (symbols : list bytes) : list variable -> Prop :=
  ForallOrdPairs (fun v w => statement symbols v -> statement symbols w -> forall a, has_address v a -> ~ has_address w a).
