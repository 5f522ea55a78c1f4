(** Model of the [DEFMT_LOG] filter: [macros/src/function_like/log/env_filter.rs] and
    [env_filter/parse.rs].  [Panic] is a compile-time error ([abort_call_site!]).

    Simplification: whether a string is an identifier ([syn::parse_str::<Ident>],
    [parse.rs:102-105]) is a given predicate. *)
From Verif Require Import Base ParserModel.

(** [parse.rs:8]: [None] is [off]. *)
Definition level_or_off : Type := option level.

(** [parse.rs:11-14] [ModulePath]. *)
Definition path : Type := list bytes.

(** [parser/src/lib.rs:100-108]: the derived order of [Level]. *)
Definition level_rank (l : level) : Z :=
  match l with LTrace => 0 | LDebug => 1 | LInfo => 2 | LWarn => 3 | LError => 4 end.

(** [parse.rs:90-100] [parse_log_level]. *)
Definition parse_level (s : bytes) : option level_or_off :=
  if beq s (lit "debug") then Some (Some LDebug)
  else if beq s (lit "error") then Some (Some LError)
  else if beq s (lit "info") then Some (Some LInfo)
  else if beq s (lit "off") then Some None
  else if beq s (lit "trace") then Some (Some LTrace)
  else if beq s (lit "warn") then Some (Some LWarn)
  else None.

(** [str::split("::")]. *)
Fixpoint split_path (s : bytes) : path :=
  match s with
  | [] => [[]]
  | c :: s1 =>
      let rest := match split_path s1 with p :: ps => (c :: p) :: ps | [] => [[c]] end in
      match s1 with
      | d :: s2 => if (c =? 58) && (d =? 58) then [] :: split_path s2 else rest
      | [] => rest
      end
  end.

(** [parse.rs:84-88]: [segments.join("::")]. *)
Fixpoint join_path (p : path) : bytes :=
  match p with
  | [] => []
  | [s] => s
  | s :: p' => s ++ lit "::" ++ join_path p'
  end.

(** [str::rsplit_once(c)]. *)
Fixpoint split_last (c : Z) (s : bytes) : option (bytes * bytes) :=
  match s with
  | [] => None
  | x :: s' =>
      match split_last c s' with
      | Some (a, b) => Some (x :: a, b)
      | None => if x =? c then Some ([], s') else None
      end
  end.

(** [parse.rs:44-51] [enum Entry]. *)
Inductive dentry :=
| DLevel (l : level_or_off)
| DModule (p : path)
| DModuleLevel (p : path) (l : level_or_off).

Section Filter.
  Context (valid_ident : bytes -> bool).

  (** [parse.rs:63-77] [ModulePath::parse]. *)
  Definition parse_path (s : bytes) : outcome unit path :=
    match s with
    | [] => Panic
    | _ => if forallb valid_ident (split_path s) then Ok (split_path s) else Panic
    end.

  (** [parse.rs:21-41]. *)
  Definition parse_entry (e : bytes) : outcome unit dentry :=
    match split_last 61 e with
    | Some (p, l) =>
        p <- parse_path p ;;
        match parse_level l with Some l => Ok (DModuleLevel p l) | None => Panic end
    | None =>
        match parse_level e with
        | Some l => Ok (DLevel l)
        | None => p <- parse_path e ;; Ok (DModule p)
        end
    end.

  Fixpoint parse_entries (es : list bytes) : outcome unit (list dentry) :=
    match es with
    | [] => Ok []
    | e :: es' => d <- parse_entry e ;; ds <- parse_entries es' ;; Ok (d :: ds)
    end.

  Definition nonemptyb (s : bytes) : bool := match s with [] => false | _ => true end.

  (** [parse.rs:17-42] [defmt_log]: from the right. *)
  Definition defmt_log (input : bytes) : outcome unit (list dentry) :=
    parse_entries (filter nonemptyb (rev (split_on 44 input))).

  (** The derived orders of [String] and [ModulePath]. *)
  Fixpoint bytes_ltb (a b : bytes) : bool :=
    match a, b with
    | [], [] => false
    | [], _ :: _ => true
    | _ :: _, [] => false
    | x :: a', y :: b' => (x <? y) || (x =? y) && bytes_ltb a' b'
    end.

  Fixpoint path_ltb (a b : path) : bool :=
    match a, b with
    | [], [] => false
    | [], _ :: _ => true
    | _ :: _, [] => false
    | x :: a', y :: b' => bytes_ltb x y || beq x y && path_ltb a' b'
    end.

  Fixpoint path_eqb (a b : path) : bool :=
    match a, b with
    | [], [] => true
    | x :: a', y :: b' => beq x y && path_eqb a' b'
    | _, _ => false
    end.

  (** [BTreeMap<ModulePath, V>]: sorted by key; [put] is [insert]. *)
  Fixpoint put {V} (p : path) (v : V) (m : list (path * V)) : list (path * V) :=
    match m with
    | [] => [(p, v)]
    | (q, w) :: m' =>
        if path_ltb p q then (p, v) :: m
        else if path_eqb p q then (p, v) :: m'
        else (q, w) :: put p v m'
    end.

  Definition contains {V} (p : path) (m : list (path * V)) : bool :=
    existsb (fun e => path_eqb p (fst e)) m.

  (** [env_filter.rs:41-58]: one iteration of the loop of [EnvFilter::new] on the map
      and the fallback level. *)
  Definition filter_state : Type := list (path * level_or_off) * option level_or_off.

  Definition add_path (caller : bytes) (p : path) (l : level_or_off) (st : filter_state) : filter_state :=
    let '(entries, fallback) := st in
    (if beq (hd [] p) caller && negb (contains p entries) then put p l entries else entries, fallback).

  Definition add_entry (caller : bytes) (st : filter_state) (d : dentry) : filter_state :=
    match d with
    | DLevel l => (fst st, match snd st with None => Some l | Some _ => snd st end)
    | DModule p => add_path caller p (Some LTrace) st
    | DModuleLevel p l => add_path caller p l st
    end.

  (** [env_filter.rs:29-66] [EnvFilter::new]. *)
  Definition env_filter (log : option bytes) (caller : bytes) : outcome unit (list (path * level_or_off)) :=
    ds <- match log with Some input => defmt_log input | None => Ok [] end ;;
    let '(entries, fallback) := fold_left (add_entry caller) ds ([], None) in
    root <- parse_path caller ;;
    Ok (if contains root entries then entries
        else put root (match fallback with Some l => l | None => Some LError end) entries).

  (** [env_filter.rs:127-142] [modules_on_for], [145-158] [always_off_modules]. *)
  Definition modules_on_for (l : level) (entries : list (path * level_or_off)) : list path :=
    map fst (filter (fun e => match snd e with Some m => level_rank m <=? level_rank l | None => false end) entries).

  Definition always_off_modules (entries : list (path * level_or_off)) : list path :=
    map fst (filter (fun e => match snd e with None => true | Some _ => false end) entries).

  (** [env_filter.rs:165-195]: the generated check; [module_path] is the value of
      [module_path!()]. *)
  Fixpoint same_start (parent module_path : bytes) : bool :=
    match parent, module_path with
    | [], _ => true
    | x :: p', y :: m' => (y =? x) && same_start p' m'
    | _ :: _, [] => false
    end.

  Definition is_inside_of (parent module_path : bytes) : bool :=
    if (length module_path <? length parent)%nat then false
    else same_start parent module_path &&
      (if (length parent =? length module_path)%nat then true
       else match nth_error module_path (length parent) with Some c => c =? 58 | None => false end).

  Fixpoint first_match (module_path : bytes) (checks : list (path * bool)) : bool :=
    match checks with
    | [] => false
    | (p, accept) :: checks' => if is_inside_of (join_path p) module_path then accept else first_match module_path checks'
    end.

  (** [env_filter.rs:72-124] [path_check] and the value of [CHECK]; [None] from
      [path_check] means the statement is not compiled in ([log.rs:50-90]). *)
  Definition path_check (entries : list (path * level_or_off)) (l : level) (module_path : bytes) : bool :=
    match modules_on_for l entries with
    | [] => false
    | accept =>
        let criteria :=
          fold_left (fun m e => put (fst e) (snd e) m)
            (map (fun p => (p, true)) accept ++ map (fun p => (p, false)) (always_off_modules entries)) [] in
        first_match module_path (rev criteria)
    end.

  (** Whether a log statement of level [l] in module [module_path] of crate [caller] is
      compiled in. *)
  Definition compiled_in (log : option bytes) (caller : bytes) (l : level) (module_path : bytes) : outcome unit bool :=
    entries <- env_filter log caller ;; Ok (path_check entries l module_path).
End Filter.
