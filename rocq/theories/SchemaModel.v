(** Model of the consumer of JSON output: the types of [decoder/defmt-json-schema/src/lib.rs] with
    their derived [Serialize] and [Deserialize], and the reader of
    [decoder/defmt-json-schema/examples/simple.rs].

    serde and serde_json are not part of the repository; what the derived implementations accept is
    modelled from their documentation.  Documents are first read as JSON values by [json_document],
    which knows no booleans and no fractions: documents with those are rejected here, even
    inside unknown fields, where serde_json skips them. *)
From Verif Require Import Base Utf8 ParserModel DecoderModel DisplayModel EnvFilterModel LogFormatModel SinkModel SinkSpec.

(** [lib.rs:15-36]. *)
Record module_path := MkModulePath { mp_crate : bytes; mp_modules : list bytes; mp_function : bytes }.
Record place := MkPlace { pl_file : option bytes; pl_line : option Z; pl_module : option module_path }.
Record json_frame := MkJsonFrame { jf_data : bytes; jf_host : Z; jf_level : option level; jf_place : place; jf_target : bytes }.

(* ------------------------------------------------------------------ *)
(** * [Serialize]: fields in the order of the struct *)

Definition option_value {A} (f : A -> json) (o : option A) : json := match o with Some a => f a | None => JNull end.

Definition module_value (m : module_path) : json :=
  JObj [(lit "crate_name", JStr (mp_crate m)); (lit "modules", JArr (map JStr (mp_modules m))); (lit "function", JStr (mp_function m))].
Definition place_value (p : place) : json :=
  JObj [(lit "file", option_value JStr (pl_file p)); (lit "line", option_value JInt (pl_line p));
        (lit "module_path", option_value module_value (pl_module p))].
Definition frame_fields (f : json_frame) : list (bytes * json) :=
  [(lit "data", JStr (jf_data f)); (lit "host_timestamp", JInt (jf_host f));
   (lit "level", option_value (fun l => JStr (level_upper l)) (jf_level f));
   (lit "location", place_value (jf_place f)); (lit "target_timestamp", JStr (jf_target f))].
Definition frame_value (f : json_frame) : json := JObj (frame_fields f).
(** [lib.rs:4-7]. *)
Definition version_value (v : Z) : json := JObj [(lit "schema_version", JInt v)].

(* ------------------------------------------------------------------ *)
(** * [Deserialize] *)

(** The values of an object under a key: a second one is an error ([None]). *)
Definition field (l : list (bytes * json)) (k : bytes) : option (option json) :=
  match filter (fun kv => beq (fst kv) k) l with
  | [] => Some None
  | [kv] => Some (Some (snd kv))
  | _ :: _ :: _ => None
  end.

Fixpoint all_some {A} (l : list (option A)) : option (list A) :=
  match l with
  | [] => Some []
  | Some a :: l => match all_some l with Some r => Some (a :: r) | None => None end
  | None :: _ => None
  end.

(** A struct is an object, whose other fields are ignored, or an array of exactly its fields. *)
Definition struct_fields (names : list bytes) (j : json) : option (list (option json)) :=
  match j with
  | JObj l => all_some (map (field l) names)
  | JArr l => if (length l =? length names)%nat then Some (map Some l) else None
  | _ => None
  end.

(** Fields of the types [String], [i64], [u32], [Vec<String>], [Level]: a missing one is an error, *)
Definition as_string (j : json) : option bytes := match j with JStr s => Some s | _ => None end.
Definition as_int (lo hi : Z) (j : json) : option Z :=
  match j with JInt x => if in_range lo hi x then Some x else None | _ => None end.
Definition as_strings (j : json) : option (list bytes) := match j with JArr l => all_some (map as_string l) | _ => None end.
Definition as_level (j : json) : option level :=
  match j with
  | JStr s => level_of_name s
  | JObj [(k, JNull)] => level_of_name k
  | _ => None
  end.
Definition required {A} (f : json -> option A) (o : option json) : option A := match o with Some j => f j | None => None end.
(** but not for an [Option]. *)
Definition optional {A} (f : json -> option A) (o : option json) : option (option A) :=
  match o with
  | None | Some JNull => Some None
  | Some j => match f j with Some a => Some (Some a) | None => None end
  end.

Definition as_module (j : json) : option module_path :=
  match struct_fields [lit "crate_name"; lit "modules"; lit "function"] j with
  | Some [c; m; f] =>
      match required as_string c, required as_strings m, required as_string f with
      | Some c, Some m, Some f => Some (MkModulePath c m f)
      | _, _, _ => None
      end
  | _ => None
  end.
Definition as_place (j : json) : option place :=
  match struct_fields [lit "file"; lit "line"; lit "module_path"] j with
  | Some [f; l; m] =>
      match optional as_string f, optional (as_int 0 (2 ^ 32 - 1)) l, optional as_module m with
      | Some f, Some l, Some m => Some (MkPlace f l m)
      | _, _, _ => None
      end
  | _ => None
  end.
Definition as_frame (j : json) : option json_frame :=
  match struct_fields [lit "data"; lit "host_timestamp"; lit "level"; lit "location"; lit "target_timestamp"] j with
  | Some [d; h; l; p; t] =>
      match required as_string d, required (as_int (- 2 ^ 63) (2 ^ 63 - 1)) h, optional as_level l, required as_place p, required as_string t with
      | Some d, Some h, Some l, Some p, Some t => Some (MkJsonFrame d h l p t)
      | _, _, _, _, _ => None
      end
  | _ => None
  end.
Definition as_version (j : json) : option Z :=
  match struct_fields [lit "schema_version"] j with Some [v] => required (as_int 0 (2 ^ 32 - 1)) v | _ => None end.

(** [serde_json::from_str]. *)
Definition from_str {A} (f : json -> option A) (s : bytes) : option A :=
  match json_document s with Some j => f j | None => None end.

(* ------------------------------------------------------------------ *)
(** * The reader ([simple.rs]) *)

(** [str::lines]; [cur] is the line so far. *)
Fixpoint raw_lines (cur s : bytes) : list bytes :=
  match s with
  | [] => match cur with [] => [] | _ => [cur] end
  | c :: r => if c =? 10 then cur :: raw_lines [] r else raw_lines (cur ++ [c]) r
  end.
Definition chop_return (l : bytes) : bytes := if last l 0 =? 13 then removelast l else l.
Definition text_lines (s : bytes) : list bytes := map chop_return (raw_lines [] s).

(** [simple.rs:5-26]: every [unwrap] and the [unreachable!] is a panic. *)
Definition read_output (s : bytes) : outcome unit (list json_frame) :=
  match text_lines s with
  | first :: rest =>
      match from_str as_version first with
      | Some 1 => match all_some (map (from_str as_frame) rest) with Some l => Ok l | None => Panic end
      | _ => Panic
      end
  | [] => Panic
  end.
