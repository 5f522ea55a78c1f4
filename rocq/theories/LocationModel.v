(** Model of the locations of log statements: how they are read from the debug information
    ([decoder/src/elf2table/mod.rs:242-456]) and attached to frames ([print/src/main.rs:197-206, 284-305]).

    The [gimli] and [object] crates are not part of the repository.  Debug information is given
    here as what they deliver: a list of units, each a tree of entries.  Errors of these crates
    on corrupt sections are not modelled. *)
From Verif Require Import Base Utf8 DecoderModel EnvFilterModel LogFormatModel.

(** The attributes of a variable that [mod.rs:322-358] look at, each [None] if it is absent or has
    another form than the one matched there.  A location is a list of operations, [Some] being
    [Operation::Address]. *)
Record variable := MkVar {
  v_name : option bytes; v_linkage : option bytes; v_file : option Z; v_line : option Z;
  v_location : option (list (option Z)) }.

(** An entry: a namespace with its name ([None]: absent or not a [DebugStrRef]), a variable, or anything else. *)
Inductive kind := KNamespace (name : option bytes) | KVariable (v : variable) | KOther.
Inductive die := Die (k : kind) (children : list die).

(** A unit: the compilation directory, the files of the line program ([None]: no line program)
    with their directories, and the root entry. *)
Record unit_info := MkUnit {
  u_comp_dir : option bytes; u_files : option (Z -> option (option bytes * bytes)); u_root : option die }.

(** [mod.rs:242-248]. *)
Record location := MkLocation { l_file : bytes; l_line : Z; l_module : bytes }.

(* ------------------------------------------------------------------ *)
(** * The cursor *)

(** The entries in depth-first order with their depth. *)
Fixpoint with_depth (d : Z) (t : die) : list (Z * kind) :=
  let 'Die k ch := t in (d, k) :: flat_map (with_depth (d + 1)) ch.

(** [EntriesCursor::next_dfs]: the depth relative to the previous entry. *)
Fixpoint deltas (d : Z) (l : list (Z * kind)) : list (Z * kind) :=
  match l with
  | [] => []
  | (d', k) :: l' => (d' - d, k) :: deltas d' l'
  end.

(** What the cursor yields after the root. *)
Definition cursor (t : die) : list (Z * kind) :=
  let 'Die _ ch := t in deltas 0 (flat_map (with_depth 1) ch).

(* ------------------------------------------------------------------ *)
(** * Paths *)

Definition is_absolute (p : bytes) : bool := match p with c :: _ => c =? 47 | [] => false end.

(** [PathBuf::push] on Unix. *)
Definition path_push (p q : bytes) : bytes :=
  if is_absolute q then q
  else match rev p with
       | [] => q
       | c :: _ => if c =? 47 then p ++ q else p ++ [47] ++ q
       end.

(** [mod.rs:397-440] [file_index_to_path]. *)
Definition file_path (u : unit_info) (index : Z) : outcome unit bytes :=
  if index =? 0 then Err tt
  else match u_files u with
       | None => Err tt
       | Some files =>
           match files index with
           | None => Err tt
           | Some (dir, name) =>
               let p := match dir with
                        | None => []
                        | Some d =>
                            let p := if is_absolute d then []
                                     else match u_comp_dir u with Some c => path_push [] c | None => [] end in
                            path_push p d
                        end in
               Ok (path_push p name)
           end
       end.

(** [mod.rs:442-456] [exprloc2address]. *)
Fixpoint expr_address (l : list (option Z)) : outcome unit Z :=
  match l with
  | [] => Err tt
  | Some a :: _ => Ok a
  | None :: l' => expr_address l'
  end.

(* ------------------------------------------------------------------ *)
(** * Reading the locations *)

(** [core::str::from_utf8(..)?]. *)
Definition from_utf8 (s : bytes) : outcome unit bytes := if utf8_valid s then Ok s else Err tt.

(** The last segments are popped [n] times; popping nothing is allowed. *)
Definition pop (n : Z) (segments : list bytes) : list bytes :=
  firstn (length segments - Z.to_nat n) segments.

(** [mod.rs:304-317]. *)
Definition enter_namespace (depth : Z) (name : option bytes) (segments : list bytes) : outcome unit (list bytes) :=
  match name with
  | None => Ok segments
  | Some s =>
      s <- from_utf8 s ;;
      Ok (pop (Z.of_nat (length segments) + 1 - depth) segments ++ [s])
  end.

Fixpoint loc_get (a : Z) (m : list (Z * location)) : option location :=
  match m with
  | [] => None
  | (b, l) :: m' => if a =? b then Some l else loc_get a m'
  end.

Definition statement_name : bytes := lit "DEFMT_LOG_STATEMENT".

(** [mod.rs:360-389].  The [BTreeMap] is a list here, latest entries first. *)
Definition visit_variable (u : unit_info) (symbols : list bytes) (segments : list bytes) (v : variable)
    (m : list (Z * location)) : outcome unit (list (Z * location)) :=
  match v_name v, v_linkage v, v_file v, v_line v, v_location v with
  | Some name, Some linkage, Some file, Some line, Some loc =>
      name <- from_utf8 name ;;
      linkage <- from_utf8 linkage ;;
      if beq name statement_name then
        if existsb (fun s => beq s linkage) symbols then
          a <- expr_address loc ;;
          f <- file_path u file ;;
          match loc_get a m with
          | Some _ => Err tt
          | None => Ok ((a, MkLocation f line (join (lit "::") segments)) :: m)
          end
        else Ok m
      else Ok m
  | _, _, _, _, _ => Ok m
  end.

(** [mod.rs:298-391]. *)
Fixpoint visit (u : unit_info) (symbols : list bytes) (l : list (Z * kind)) (depth : Z) (segments : list bytes)
    (m : list (Z * location)) : outcome unit (list (Z * location)) :=
  match l with
  | [] => Ok m
  | (delta, k) :: l' =>
      let depth := depth + delta in
      match k with
      | KNamespace name =>
          segments <- enter_namespace depth name segments ;;
          visit u symbols l' depth segments m
      | KVariable v =>
          m <- visit_variable u symbols segments v m ;;
          visit u symbols l' depth segments m
      | KOther => visit u symbols l' depth segments m
      end
  end.

(** [mod.rs:290-392]. *)
Fixpoint visit_units (symbols : list bytes) (us : list unit_info) (m : list (Z * location)) : outcome unit (list (Z * location)) :=
  match us with
  | [] => Ok m
  | u :: us' =>
      match u_root u with
      | None => Err tt
      | Some t => m <- visit u symbols (cursor t) 0 [] m ;; visit_units symbols us' m
      end
  end.

(** [mod.rs:259-395] [get_locations]. *)
Definition get_locations (symbols : list bytes) (us : list unit_info) : outcome unit (list (Z * location)) :=
  visit_units symbols us [].

(* ------------------------------------------------------------------ *)
(** * Attaching them to frames *)

(** [print/src/main.rs:199-206]. *)
Definition usable_locations (t : table) (locs : list (Z * location)) : option (list (Z * location)) :=
  if forallb (fun i => match loc_get i locs with Some _ => true | None => false end) (indices t) then Some locs else None.

Definition trivial_name (n : bytes) : bool := negb (nonemptyb n) || beq n (lit ".").
Fixpoint drop_trivial (l : list bytes) : list bytes :=
  match l with
  | n :: l' => if trivial_name n then drop_trivial l' else l
  | [] => []
  end.

Fixpoint strip_names (base names : list bytes) : option (list bytes) :=
  match base with
  | [] => Some names
  | b :: base' =>
      match drop_trivial names with
      | n :: r => if beq n b then strip_names base' r else None
      | [] => None
      end
  end.

(** [Path::strip_prefix] with an absolute base on Unix.  The names are compared without empty ones and dots; the
    rest loses such names at both ends ([Components::as_path]) and is otherwise left as it is written. *)
Definition path_strip_prefix (base file : bytes) : option bytes :=
  if is_absolute file then
    match strip_names (filter (fun n => negb (trivial_name n)) (split_on 47 base)) (split_on 47 file) with
    | Some r => Some (join [47] (rev (drop_trivial (rev (drop_trivial r)))))
    | None => None
    end
  else None.

(** [print/src/main.rs:289-305] [location_info]; [as u32] wraps. *)
Definition location_info (locs : option (list (Z * location))) (f : frame) (current_dir : bytes) :
    option bytes * option Z * option bytes :=
  match locs with
  | Some m =>
      match loc_get (f_index f) m with
      | Some l =>
          (Some (match path_strip_prefix current_dir (l_file l) with Some p => p | None => l_file l end),
           Some (l_line l mod 4294967296), Some (l_module l))
      | None => (None, None, None)
      end
  | None => (None, None, None)
  end.
