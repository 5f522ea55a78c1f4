(** A reader for JSON documents (RFC 8259; numbers are integers), and what the sinks should write. *)
From Verif Require Import Base Utf8 ParserModel DecoderModel EncodeModel DisplayModel TextSpec SymbolModel EnvFilterModel LogFormatModel LogFormatSpec SinkModel.

(** An integer without leading zeros, neither a fraction nor with an exponent. *)
Definition read_nat (s : bytes) : option (Z * bytes) :=
  let '(d, r) := span is_digit s in
  match d with
  | [] => None
  | [c] => Some (dec_value 0 d, r)
  | c :: _ => if c =? 48 then None else Some (dec_value 0 d, r)
  end.
Definition ends_number (r : bytes) : bool :=
  match r with c :: _ => negb ((c =? 46) || (c =? 101) || (c =? 69)) | [] => true end.
Definition read_int (s : bytes) : option (json * bytes) :=
  let '(neg, t) := match s with c :: r => if c =? 45 then (true, r) else (false, s) | [] => (false, s) end in
  match read_nat t with
  | Some (n, r) => if ends_number r then Some (JInt (if neg : bool then - n else n), r) else None
  | None => None
  end.

Definition read_text (s : bytes) : option (bytes * bytes) :=
  match skip_ws s with
  | c :: r => if c =? 34 then match parse_str r with Ok p => Some p | _ => None end else None
  | [] => None
  end.

(** After an element: [Some true] for another one, [Some false] at the closing bracket. *)
Definition separator (close : Z) (s : bytes) : option (bool * bytes) :=
  match skip_ws s with
  | c :: r => if c =? 44 then Some (true, r) else if c =? close then Some (false, r) else None
  | [] => None
  end.

Section Lists.
  Context {A : Type} (item : bytes -> option (A * bytes)) (close : Z).
  Fixpoint items (fuel : nat) (s : bytes) : option (list A * bytes) :=
    match fuel with
    | O => None
    | S fuel' =>
        match item s with
        | Some (a, r) =>
            match separator close r with
            | Some (true, r) => match items fuel' r with Some (l, r) => Some (a :: l, r) | None => None end
            | Some (false, r) => Some ([a], r)
            | None => None
            end
        | None => None
        end
    end.
  Definition list_of (fuel : nat) (s : bytes) : option (list A * bytes) :=
    match skip_ws s with
    | c :: r => if c =? close then Some ([], r) else items fuel s
    | [] => None
    end.
End Lists.

Definition member (value : bytes -> option (json * bytes)) (s : bytes) : option (bytes * json * bytes) :=
  match read_text s with
  | Some (k, r) =>
      match skip_ws r with
      | c :: r => if c =? 58 then match value r with Some (v, r) => Some (k, v, r) | None => None end else None
      | [] => None
      end
  | None => None
  end.

Fixpoint json_read (fuel : nat) (s : bytes) : option (json * bytes) :=
  match fuel with
  | O => None
  | S fuel' =>
      match skip_ws s with
      | [] => None
      | c :: r =>
          if c =? 34 then match parse_str r with Ok (v, r) => Some (JStr v, r) | _ => None end
          else if c =? 91 then
            match list_of (json_read fuel') 93 fuel' r with Some (l, r) => Some (JArr l, r) | None => None end
          else if c =? 123 then
            match list_of (member (json_read fuel')) 125 fuel' r with Some (l, r) => Some (JObj l, r) | None => None end
          else if c =? 110 then match strip_prefix (lit "ull") r with Some r => Some (JNull, r) | None => None end
          else read_int (c :: r)
      end
  end.

(** The value of a document: nothing but white space may follow. *)
Definition json_document (s : bytes) : option json :=
  match json_read (S (length s)) s with
  | Some (j, r) => match skip_ws r with [] => Some j | _ => None end
  | None => None
  end.

(** A text on one line. *)
Definition one_line (s : bytes) : Prop := Forall (fun b => 32 <= b) s.

Definition byte_text (s : bytes) : Prop := Forall (fun b => 0 <= b) s.
Definition opt_text (o : option bytes) : Prop := match o with Some s => byte_text s | None => True end.

(** The value under a key, and under a path of keys. *)
Fixpoint lookup (k : bytes) (l : list (bytes * json)) : option json :=
  match l with [] => None | (k', v) :: l => if beq k k' then Some v else lookup k l end.
Fixpoint get (path : list bytes) (j : json) : option json :=
  match path with
  | [] => Some j
  | k :: path => match j with JObj l => match lookup k l with Some v => get path v | None => None end | _ => None end
  end.

(** Crate, modules and function of a module path; their names have no colons. *)
Definition no_colon (s : bytes) : Prop := ~ In 58 s.
Definition reports_module (m : option bytes) (j : json) : Prop :=
  match m with
  | None => get [lit "location"; lit "module_path"] j = Some JNull
  | Some p =>
      (forall c modules f, Forall no_colon (c :: modules ++ [f]) -> p = join (lit "::") (c :: modules ++ [f]) ->
         get [lit "location"; lit "module_path"; lit "crate_name"] j = Some (JStr c) /\
         get [lit "location"; lit "module_path"; lit "modules"] j = Some (JArr (map JStr modules)) /\
         get [lit "location"; lit "module_path"; lit "function"] j = Some (JStr f)) /\
      ((forall a b, p <> a ++ lit "::" ++ b) -> get [lit "location"; lit "module_path"] j = Some JNull)
  end.

(** A JSON value with everything that is known about a frame. *)
Definition reports (now : Z) (l : option level) (time message : bytes) (file : option bytes) (line : option Z) (module_path : option bytes)
    (j : json) : Prop :=
  get [lit "data"] j = Some (JStr message) /\
  get [lit "level"] j = Some (match l with Some l => JStr (level_upper l) | None => JNull end) /\
  get [lit "target_timestamp"] j = Some (JStr time) /\
  (now < 2 ^ 63 -> get [lit "host_timestamp"] j = Some (JInt now)) /\
  get [lit "location"; lit "file"] j = Some (match file with Some f => JStr f | None => JNull end) /\
  get [lit "location"; lit "line"] j = Some (match line with Some n => JInt n | None => JNull end) /\
  reports_module module_path j.

(** The lines of the standard output and of the standard error. *)
Definition stdout_of (l : list output) : bytes := flat_map (fun o => match o with Stdout s => s | Stderr _ => [] end) l.
Definition stderr_of (l : list output) : bytes := flat_map (fun o => match o with Stderr s => s | Stdout _ => [] end) l.
Definition as_lines (l : list bytes) : bytes := flat_map (fun s => s ++ [10]) l.

(** ** Statements and their lines *)

Section Lines.
  Context (X : externals) (tbl : table).

  (** The texts of timestamp and message, as the program means them. *)
  Definition says_statement (timestamp_args args : list aval) (fr : frame) (time message : bytes) : Prop :=
    (exists frags, parse (f_format fr) Strict = Ok frags /\ says_line X tbl None frags args message) /\
    match t_timestamp tbl with
    | Some e => exists frags, parse (e_string e) Strict = Ok frags /\ says_line X tbl None frags timestamp_args time
    | None => time = []
    end.
End Lines.

Definition level_column (l : level) : bytes :=
  match l with LTrace => lit "TRACE" | LDebug => lit "DEBUG" | LInfo => lit "INFO " | LWarn => lit "WARN " | LError => lit "ERROR" end.

(** The line of the default format. *)
Definition default_line (has_timestamp : bool) (l : option level) (time message : bytes) : bytes :=
  match l with
  | Some l => (if has_timestamp then (match time with [] => lit "<time>" | _ => time end) ++ lit " " else []) ++ level_column l ++ lit " " ++ message
  | None => message
  end.

(** Messages that are not shown as comparisons, and not beyond the supported width. *)
Definition ordinary (Y : external) (s : bytes) : Prop :=
  (forall before a b, ~ comparison s before a b) /\ ~ short_values s /\
  match x_max Y with Some m => Z.of_nat (length s) <= m | None => True end.

Definition wide_enough (Y : external) : Prop := match x_max Y with Some m => 6 <= m | None => True end.
