(** Model of the symbol names that carry the strings from the device binary to the host:
    [macros/src/construct/symbol.rs] (writing) and [decoder/src/elf2table/symbol.rs]
    (reading, through [serde_json::from_str] on a derived [Deserialize]).

    serde_json is not part of the repository; its grammar (string escapes, skipping of
    ignored values, objects and arrays for structs, no trailing characters) is modelled
    here from its documentation and source.  [Err] is any error. *)
From Verif Require Import Base Utf8 ParserModel DecoderModel Numerals DisplayModel.

(* ------------------------------------------------------------------ *)
(** * Writing *)

(** [construct/symbol.rs:9-41]; the tag includes the [defmt_] prefix. *)
Record symbol := MkSymbol {
  s_package : bytes; s_disambiguator : Z; s_tag : bytes; s_data : bytes; s_crate : bytes }.

(** [char::is_control]: general category Cc. *)
Definition is_control (c : Z) : bool := in_range 0 31 c || in_range 127 159 c.

(** [construct/symbol.rs:67-79]: one char of [json_escape]. *)
Definition escape_char (c : Z) : bytes :=
  if c =? 92 then [92; 92]
  else if c =? 34 then [92; 34]
  else if c =? 10 then [92; 110]
  else if is_control c || (c =? 64) then [92; 117] ++ pad_integral false [] (num_str 16 false c) 4
  else utf8_encode c.

(** Rust strings are valid UTF-8, so the second case does not occur. *)
Definition chars (s : bytes) : list Z :=
  match utf8_decode s with Some cs => cs | None => [] end.

Definition json_escape (s : bytes) : bytes := concat (map escape_char (chars s)).

(** [construct/symbol.rs:55-64] [mangle]. *)
Definition mangle (y : symbol) : bytes :=
  lit "{""package"":""" ++ json_escape (s_package y) ++
  lit """,""tag"":""" ++ json_escape (s_tag y) ++
  lit """,""data"":""" ++ json_escape (s_data y) ++
  lit """,""disambiguator"":""" ++ dec_str (s_disambiguator y) ++
  lit """,""crate_name"":""" ++ json_escape (s_crate y) ++ lit """}".

(* ------------------------------------------------------------------ *)
(** * Reading: JSON *)

Definition is_ws (c : Z) : bool := (c =? 32) || (c =? 10) || (c =? 9) || (c =? 13).

Fixpoint skip_ws (s : bytes) : bytes :=
  match s with
  | c :: r => if is_ws c then skip_ws r else s
  | [] => []
  end.

Definition hex_val (c : Z) : option Z :=
  if in_range 48 57 c then Some (c - 48)
  else if in_range 97 102 c then Some (c - 87)
  else if in_range 65 70 c then Some (c - 55)
  else None.

Definition hex4 (a b c d : Z) : option Z :=
  match hex_val a, hex_val b, hex_val c, hex_val d with
  | Some a, Some b, Some c, Some d => Some (((a * 16 + b) * 16 + c) * 16 + d)
  | _, _, _, _ => None
  end.

(** The escapes of one letter. *)
Definition simple_escape (e : Z) : option Z :=
  if e =? 34 then Some 34
  else if e =? 92 then Some 92
  else if e =? 47 then Some 47
  else if e =? 98 then Some 8
  else if e =? 102 then Some 12
  else if e =? 110 then Some 10
  else if e =? 114 then Some 13
  else if e =? 116 then Some 9
  else None.

Definition prepend (x : bytes) (r : outcome unit (bytes * bytes)) : outcome unit (bytes * bytes) :=
  p <- r ;; Ok (x ++ fst p, snd p).

(** A string after its opening quote: its value and the rest. *)
Fixpoint parse_str (s : bytes) : outcome unit (bytes * bytes) :=
  match s with
  | [] => Err tt
  | c :: r =>
      if c =? 34 then Ok ([], r)
      else if c =? 92 then
        match r with
        | [] => Err tt
        | e :: r1 =>
            match simple_escape e with
            | Some x => prepend [x] (parse_str r1)
            | None =>
                if e =? 117 then
                  match r1 with
                  | h1 :: h2 :: h3 :: h4 :: r2 =>
                      match hex4 h1 h2 h3 h4 with
                      | None => Err tt
                      | Some n =>
                          if in_range 56320 57343 n then Err tt
                          else if in_range 55296 56319 n then
                            match r2 with
                            | x :: y :: k1 :: k2 :: k3 :: k4 :: r3 =>
                                if (x =? 92) && (y =? 117) then
                                  match hex4 k1 k2 k3 k4 with
                                  | Some m =>
                                      if in_range 56320 57343 m
                                      then prepend (utf8_encode ((n - 55296) * 1024 + (m - 56320) + 65536)) (parse_str r3)
                                      else Err tt
                                  | None => Err tt
                                  end
                                else Err tt
                            | _ => Err tt
                            end
                          else prepend (utf8_encode n) (parse_str r2)
                      end
                  | _ => Err tt
                  end
                else Err tt
            end
        end
      else if c <? 32 then Err tt
      else prepend [c] (parse_str r)
  end.

(** Skipping a string: surrogates are not checked. *)
Fixpoint ignore_str (s : bytes) : outcome unit bytes :=
  match s with
  | [] => Err tt
  | c :: r =>
      if c =? 34 then Ok r
      else if c =? 92 then
        match r with
        | [] => Err tt
        | e :: r1 =>
            match simple_escape e with
            | Some _ => ignore_str r1
            | None =>
                if e =? 117 then
                  match r1 with
                  | h1 :: h2 :: h3 :: h4 :: r2 =>
                      match hex4 h1 h2 h3 h4 with Some _ => ignore_str r2 | None => Err tt end
                  | _ => Err tt
                  end
                else Err tt
            end
        end
      else if c <? 32 then Err tt
      else ignore_str r
  end.

Fixpoint skip_digits (s : bytes) : bytes :=
  match s with
  | c :: r => if is_digit c then skip_digits r else s
  | [] => []
  end.

Definition some_digits (s : bytes) : outcome unit bytes :=
  match s with
  | c :: r => if is_digit c then Ok (skip_digits r) else Err tt
  | [] => Err tt
  end.

(** A number, after its sign. *)
Definition ignore_exponent (s : bytes) : outcome unit bytes :=
  match s with
  | c :: r => if (c =? 43) || (c =? 45) then some_digits r else some_digits s
  | [] => Err tt
  end.
Definition ignore_fraction (s : bytes) : outcome unit bytes :=
  s <- match s with
       | c :: r => if c =? 46 then some_digits r else Ok s
       | [] => Ok s
       end ;;
  match s with
  | c :: r => if (c =? 101) || (c =? 69) then ignore_exponent r else Ok s
  | [] => Ok s
  end.
Definition ignore_number (s : bytes) : outcome unit bytes :=
  match s with
  | c :: r =>
      if c =? 48 then
        match r with
        | d :: _ => if is_digit d then Err tt else ignore_fraction r
        | [] => ignore_fraction r
        end
      else if is_digit c then ignore_fraction (skip_digits r) else Err tt
  | [] => Err tt
  end.

Definition expect (p s : bytes) : outcome unit bytes :=
  match strip_prefix p s with Some r => Ok r | None => Err tt end.

(** A value that is neither an array nor an object. *)
Definition ignore_scalar (s : bytes) : outcome unit bytes :=
  match s with
  | c :: r =>
      if c =? 110 then expect (lit "ull") r
      else if c =? 116 then expect (lit "rue") r
      else if c =? 102 then expect (lit "alse") r
      else if c =? 45 then ignore_number r
      else if is_digit c then ignore_number s
      else if c =? 34 then ignore_str r
      else Err tt
  | [] => Err tt
  end.

(** After a value ([comma]) or an opening bracket: closing brackets, then either the end
    of the outermost value or the next one ([frame] is the innermost open bracket). *)
Inductive closed := CDone (rest : bytes) | CNext (frame : Z) (stack : list Z) (rest : bytes).

Definition closing (frame : Z) : Z := if frame =? 91 then 93 else 125.

Fixpoint close_brackets (comma : bool) (frame : Z) (stack : list Z) (s : bytes) : outcome unit closed :=
  match s with
  | [] => Err tt
  | c :: r =>
      if is_ws c then close_brackets comma frame stack r
      else if (c =? 44) && comma then Ok (CNext frame stack r)
      else if c =? closing frame then
        match stack with
        | [] => Ok (CDone r)
        | f :: stack' => close_brackets true f stack' r
        end
      else if comma then Err tt
      else Ok (CNext frame stack s)
  end.

Definition expect_colon (s : bytes) : outcome unit bytes := expect [58] (skip_ws s).

(** Before the next value: in an object, its key. *)
Definition ignore_key (frame : Z) (s : bytes) : outcome unit bytes :=
  if frame =? 123 then
    r <- expect [34] (skip_ws s) ;;
    r <- ignore_str r ;;
    expect_colon r
  else Ok s.

Fixpoint ignore_value (fuel : nat) (stack : list Z) (s : bytes) : outcome unit bytes :=
  match fuel with
  | O => NoFuel
  | S fuel' =>
      let s := skip_ws s in
      n <- match s with
           | c :: r =>
               if (c =? 91) || (c =? 123) then close_brackets false c stack r
               else
                 r <- ignore_scalar s ;;
                 match stack with
                 | [] => Ok (CDone r)
                 | f :: stack' => close_brackets true f stack' r
                 end
           | [] => Err tt
           end ;;
      match n with
      | CDone r => Ok r
      | CNext f st r =>
          r <- ignore_key f r ;;
          ignore_value fuel' (f :: st) r
      end
  end.

(* ------------------------------------------------------------------ *)
(** * Reading: the struct *)

(** [elf2table/symbol.rs:5-31]. *)
Record dsymbol := MkDSymbol {
  d_package : bytes; d_disambiguator : bytes; d_tag : bytes; d_data : bytes; d_crate : option bytes }.

(** The fields read so far. *)
Record fields := MkFields {
  f_package : option bytes; f_disambiguator : option bytes; f_tag : option bytes; f_data : option bytes;
  f_crate : option (option bytes) }.

Definition read_string (s : bytes) : outcome unit (bytes * bytes) :=
  r <- expect [34] (skip_ws s) ;; parse_str r.

Definition read_option (s : bytes) : outcome unit (option bytes * bytes) :=
  match skip_ws s with
  | c :: r =>
      if c =? 110 then r <- expect (lit "ull") r ;; Ok (None, r)
      else p <- read_string s ;; Ok (Some (fst p), snd p)
  | [] => Err tt
  end.

(** The value of field [key]; a field that is already there is an error. *)
Definition read_field (fuel : nat) (key : bytes) (f : fields) (s : bytes) : outcome unit (fields * bytes) :=
  if beq key (lit "package") then
    match f_package f with
    | Some _ => Err tt
    | None => p <- read_string s ;; Ok (MkFields (Some (fst p)) (f_disambiguator f) (f_tag f) (f_data f) (f_crate f), snd p)
    end
  else if beq key (lit "disambiguator") then
    match f_disambiguator f with
    | Some _ => Err tt
    | None => p <- read_string s ;; Ok (MkFields (f_package f) (Some (fst p)) (f_tag f) (f_data f) (f_crate f), snd p)
    end
  else if beq key (lit "tag") then
    match f_tag f with
    | Some _ => Err tt
    | None => p <- read_string s ;; Ok (MkFields (f_package f) (f_disambiguator f) (Some (fst p)) (f_data f) (f_crate f), snd p)
    end
  else if beq key (lit "data") then
    match f_data f with
    | Some _ => Err tt
    | None => p <- read_string s ;; Ok (MkFields (f_package f) (f_disambiguator f) (f_tag f) (Some (fst p)) (f_crate f), snd p)
    end
  else if beq key (lit "crate_name") then
    match f_crate f with
    | Some _ => Err tt
    | None => p <- read_option s ;; Ok (MkFields (f_package f) (f_disambiguator f) (f_tag f) (f_data f) (Some (fst p)), snd p)
    end
  else r <- ignore_value fuel [] s ;; Ok (f, r).

(** All fields but [crate_name] are required. *)
Definition finish (f : fields) : outcome unit dsymbol :=
  match f with
  | MkFields (Some p) (Some d) (Some t) (Some x) c =>
      Ok (MkDSymbol p d t x (match c with Some c => c | None => None end))
  | _ => Err tt
  end.

(** The entries of an object, after the opening brace. *)
Fixpoint read_map (fuel : nat) (first : bool) (f : fields) (s : bytes) : outcome unit (dsymbol * bytes) :=
  match fuel with
  | O => NoFuel
  | S fuel' =>
      match skip_ws s with
      | [] => Err tt
      | c :: r =>
          if c =? 125 then y <- finish f ;; Ok (y, r)
          else
            s1 <- (if first then Ok (c :: r) else if c =? 44 then Ok (skip_ws r) else Err tt) ;;
            r <- expect [34] s1 ;;
            k <- parse_str r ;;
            r <- expect_colon (snd k) ;;
            p <- read_field fuel (fst k) f r ;;
            read_map fuel' false (fst p) (snd p)
      end
  end.

(** The elements of an array, after the opening bracket, in the order of the struct. *)
Definition next_element (first : bool) (s : bytes) : outcome unit bytes :=
  match skip_ws s with
  | [] => Err tt
  | c :: r =>
      if c =? 93 then Err tt
      else if first then Ok (c :: r)
      else if c =? 44 then
        match skip_ws r with
        | [] => Err tt
        | d :: r' => if d =? 93 then Err tt else Ok (d :: r')
        end
      else Err tt
  end.

Definition read_seq (s : bytes) : outcome unit (dsymbol * bytes) :=
  s <- next_element true s ;; p <- read_string s ;;
  s <- next_element false (snd p) ;; d <- read_string s ;;
  s <- next_element false (snd d) ;; t <- read_string s ;;
  s <- next_element false (snd t) ;; x <- read_string s ;;
  s <- next_element false (snd x) ;; c <- read_option s ;;
  r <- expect [93] (skip_ws (snd c)) ;;
  Ok (MkDSymbol (fst p) (fst d) (fst t) (fst x) (fst c), r).

(** [elf2table/symbol.rs:42-45] [Symbol::demangle]. *)
Definition demangle (raw : bytes) : outcome unit dsymbol :=
  match skip_ws raw with
  | c :: r =>
      p <- (if c =? 123 then read_map (S (length raw)) true (MkFields None None None None None) r
            else if c =? 91 then read_seq r
            else Err tt) ;;
      match skip_ws (snd p) with
      | [] => Ok (fst p)
      | _ :: _ => Err tt
      end
  | [] => Err tt
  end.

(** [elf2table/symbol.rs:47-64] [Symbol::tag]; [None] is [SymbolTag::Custom]. *)
Definition tag_from_str (s : bytes) : option tag :=
  if beq s (lit "defmt_prim") then Some GPrim
  else if beq s (lit "defmt_derived") then Some GDerived
  else if beq s (lit "defmt_bitflags") then Some GBitflags
  else if beq s (lit "defmt_write") then Some GWrite
  else if beq s (lit "defmt_timestamp") then Some GTimestamp
  else if beq s (lit "defmt_bitflags_value") then Some GBitflagsValue
  else if beq s (lit "defmt_str") then Some GStr
  else if beq s (lit "defmt_println") then Some GPrintln
  else if beq s (lit "defmt_trace") then Some GTrace
  else if beq s (lit "defmt_debug") then Some GDebug
  else if beq s (lit "defmt_info") then Some GInfo
  else if beq s (lit "defmt_warn") then Some GWarn
  else if beq s (lit "defmt_error") then Some GError
  else None.
