(** Model of the format string parser, crate [defmt-parser]. *)
From Verif Require Import Base.

(** The host is a 64-bit machine: [usize::MAX = 2^64 - 1]. *)
Definition usize_max : Z := 2 ^ 64 - 1.

(** Widths of the fixed-size integer types. *)
Inductive width := W8 | W16 | W32 | W64 | W128.

Definition width_bytes (w : width) : nat :=
  match w with W8 => 1 | W16 => 2 | W32 => 4 | W64 => 8 | W128 => 16 end.

(** [parser/src/types.rs:3-46] [enum Type].  [U8..U128]/[I8..I128] are grouped
    as [TU w]/[TI w]; [BitField(start..end)] is [TBitField start end]. *)
Inductive ty :=
| TBitField (lo hi : Z)
| TBool | TChar
| TDebug | TDisplay | TFormatSequence
| TF32 | TF64
| TFormat | TFormatArray (len : Z) | TFormatSlice
| TI (w : width) | TIsize
| TIStr | TStr
| TU (w : width) | TUsize
| TU8Slice | TU8Array (len : Z).

Definition width_eqb (a b : width) : bool :=
  match a, b with
  | W8, W8 | W16, W16 | W32, W32 | W64, W64 | W128, W128 => true
  | _, _ => false
  end.

(** Derived [PartialEq] of [Type]. *)
Definition ty_eqb (a b : ty) : bool :=
  match a, b with
  | TBitField l h, TBitField l' h' => (l =? l') && (h =? h')
  | TBool, TBool | TChar, TChar | TDebug, TDebug | TDisplay, TDisplay
  | TFormatSequence, TFormatSequence | TF32, TF32 | TF64, TF64 | TFormat, TFormat
  | TFormatSlice, TFormatSlice | TIsize, TIsize | TIStr, TIStr | TStr, TStr
  | TUsize, TUsize | TU8Slice, TU8Slice => true
  | TFormatArray n, TFormatArray n' | TU8Array n, TU8Array n' => n =? n'
  | TI w, TI w' | TU w, TU w' => width_eqb w w'
  | _, _ => false
  end.

(** [parser/src/display_hint.rs:132-136] [enum TimePrecision]. *)
Inductive precision := Micros | Millis | Seconds.

(** [parser/src/display_hint.rs:6-57] [enum DisplayHint]. *)
Inductive hint :=
| HNoHint (zero_pad : Z)
| HHex (alternate uppercase : bool) (zero_pad : Z)
| HOctal (alternate : bool) (zero_pad : Z)
| HBinary (alternate : bool) (zero_pad : Z)
| HAscii
| HDebug
| HSeconds (p : precision)
| HTime (p : precision)
| HIso8601 (p : precision)
| HBitflags (name package disambiguator : bytes) (crate_name : option bytes)
| HCbor
| HUnknown (s : bytes).

(** [parser/src/lib.rs:23-50] [enum Error]. *)
Inductive perr :=
| InvalidTypeSpecifier (s : bytes)
| InvalidInteger
| InvalidArraySpecifierMissingLength
| InvalidArraySpecifierMissingBracket
| TrailingDataAfterBitfieldRange
| MalformedFormatString
| UnknownDisplayHint (s : bytes)
| UnexpectedContentInFormatString (s : bytes)
| UnmatchedOpenBracket
| UnmatchedCloseBracket
| ConflictingTypes (index : Z) (a b : ty)
| UnusedArgument (index : Z).

(** [parser/src/lib.rs:52-61] the parameter struct and [63-71] [enum Fragment]. *)
Record parameter := MkParameter { p_index : Z; p_ty : ty; p_hint : option hint }.
Inductive fragment := FLit (s : bytes) | FParam (p : parameter).

(** [parser/src/lib.rs:94-98] [struct Param]. *)
Record param := Param { pr_index : option Z; pr_ty : ty; pr_hint : option hint }.

(** [parser/src/lib.rs:178-185] [enum ParserMode]. *)
Inductive mode := Strict | ForwardsCompatible.

(** [parser/src/lib.rs:100-108] [enum Level]. *)
Inductive level := LTrace | LDebug | LInfo | LWarn | LError.

(** [parser/src/lib.rs:110-119] [Level::as_str]. *)
Definition level_str (l : level) : bytes :=
  match l with
  | LTrace => lit "trace" | LDebug => lit "debug" | LInfo => lit "info"
  | LWarn => lit "warn" | LError => lit "error"
  end.

(* ------------------------------------------------------------------ *)
(** * Numbers *)

Definition is_digit (b : Z) : bool := (48 <=? b) && (b <=? 57).

(** Number of leading ASCII digits. *)
Fixpoint digits (s : bytes) : nat :=
  match s with
  | c :: s' => if is_digit c then S (digits s') else O
  | [] => O
  end.

Fixpoint dec_value (acc : Z) (s : bytes) : Z :=
  match s with
  | [] => acc
  | c :: s' => dec_value (10 * acc + (c - 48)) s'
  end.

(** [str::parse::<uN>()] on a string known to consist of ASCII digits only:
    fails when empty or above [max]. *)
Definition parse_digits (max : Z) (s : bytes) : option Z :=
  match s with
  | [] => None
  | _ => let v := dec_value 0 s in if v <=? max then Some v else None
  end.

(** [parser/src/display_hint.rs:142-151] [parse_integer::<usize>]; returns
    (rest, number). *)
Definition parse_integer (s : bytes) : option (bytes * Z) :=
  match parse_digits usize_max (firstn (digits s) s) with
  | Some n => Some (skipn (digits s) s, n)
  | None => None
  end.

(* ------------------------------------------------------------------ *)
(** * Types *)

(** [parser/src/types.rs:49-81] [FromStr for Type]. *)
Definition type_from_str (s : bytes) : option ty :=
  if beq s (lit "u8") then Some (TU W8)
  else if beq s (lit "u16") then Some (TU W16)
  else if beq s (lit "u32") then Some (TU W32)
  else if beq s (lit "u64") then Some (TU W64)
  else if beq s (lit "u128") then Some (TU W128)
  else if beq s (lit "usize") then Some TUsize
  else if beq s (lit "i8") then Some (TI W8)
  else if beq s (lit "i16") then Some (TI W16)
  else if beq s (lit "i32") then Some (TI W32)
  else if beq s (lit "i64") then Some (TI W64)
  else if beq s (lit "i128") then Some (TI W128)
  else if beq s (lit "isize") then Some TIsize
  else if beq s (lit "f32") then Some TF32
  else if beq s (lit "f64") then Some TF64
  else if beq s (lit "bool") then Some TBool
  else if beq s (lit "str") then Some TStr
  else if beq s (lit "istr") then Some TIStr
  else if beq s (lit "__internal_Debug") then Some TDebug
  else if beq s (lit "__internal_Display") then Some TDisplay
  else if beq s (lit "__internal_FormatSequence") then Some TFormatSequence
  else if beq s (lit "[u8]") then Some TU8Slice
  else if beq s (lit "?") then Some TFormat
  else if beq s (lit "[?]") then Some TFormatSlice
  else if beq s (lit "char") then Some TChar
  else None.

(** Whether [i] is a char boundary of the UTF-8 string [s]
    ([str::is_char_boundary]); slicing elsewhere panics. *)
Definition is_char_boundary (s : bytes) (i : nat) : bool :=
  if (i =? length s)%nat then true
  else match nth_error s i with
       | Some b => negb ((128 <=? b) && (b <? 192))
       | None => false
       end.

(** [parser/src/lib.rs:122-151] [parse_range].  The slice on line 132 panics
    when fewer than two bytes follow the digits, or when the second byte
    after the digits is inside a multi-byte character. *)
Definition parse_range (s : bytes) : outcome perr (option ((Z * Z) * nat)) :=
  let sd := digits s in
  match parse_digits 255 (firstn sd s) with
  | None => Ok None
  | Some start =>
      if negb (is_char_boundary s (sd + 2)) then Panic
      else if negb (beq (firstn 2 (skipn sd s)) (lit "..")) then Ok None
      else
        let s2 := skipn (sd + 2) s in
        let ed := digits s2 in
        match parse_digits 255 (firstn ed s2) with
        | None => Ok None
        | Some end_ =>
            if (end_ <=? start) || (128 <=? start) || (128 <? end_) then Ok None
            else Ok (Some ((start, end_), sd + ed + 2)%nat)
        end
  end.

(** Position of the first byte satisfying [f] ([str::find] with an ASCII
    class), with the rest of the string starting there. *)
Fixpoint drop_while (f : Z -> bool) (s : bytes) : bytes :=
  match s with
  | c :: s' => if f c then drop_while f s' else s
  | [] => []
  end.

(** [parser/src/lib.rs:156-176] [parse_array]. *)
Definition parse_array (s : bytes) : outcome perr Z :=
  let s1 := drop_while (fun c => c =? 32) s in
  match s1 with
  | [] => Err InvalidArraySpecifierMissingLength
  | _ =>
      let d := digits s1 in
      match skipn d s1 with
      | [] => Err InvalidArraySpecifierMissingBracket
      | s2 =>
          match parse_digits usize_max (firstn d s1) with
          | None => Err InvalidInteger
          | Some len =>
              if beq s2 (lit "]") then Ok len
              else Err InvalidArraySpecifierMissingBracket
          end
      end
  end.

(* ------------------------------------------------------------------ *)
(** * Hints *)

(** [parser/src/display_hint.rs:81-93]. *)
Definition parse_bitflags (s stripped : bytes) : hint :=
  match split_on 64 stripped with
  | [n; p; d] => HBitflags n p d None
  | [n; p; d; c] => HBitflags n p d (Some c)
  | _ => HUnknown s
  end.

(** [parser/src/display_hint.rs:61-127] [DisplayHint::parse]. *)
Definition parse_hint (s : bytes) : option hint :=
  let '(alternate, s) :=
    match strip_prefix (lit "#") s with Some r => (true, r) | None => (false, s) end in
  let padded :=
    match strip_prefix (lit "0") s with
    | Some r => parse_integer r
    | None => Some (s, 0)
    end in
  match padded with
  | None => None
  | Some (s, zero_pad) =>
      match strip_prefix (lit "__internal_bitflags_") s with
      | Some stripped => Some (parse_bitflags s stripped)
      | None =>
          if beq s (lit "") then Some (HNoHint zero_pad)
          else if beq s (lit "us") then Some (HSeconds Micros)
          else if beq s (lit "ms") then Some (HSeconds Millis)
          else if beq s (lit "tus") then Some (HTime Micros)
          else if beq s (lit "tms") then Some (HTime Millis)
          else if beq s (lit "ts") then Some (HTime Seconds)
          else if beq s (lit "a") then Some HAscii
          else if beq s (lit "b") then Some (HBinary alternate zero_pad)
          else if beq s (lit "o") then Some (HOctal alternate zero_pad)
          else if beq s (lit "x") then Some (HHex alternate false zero_pad)
          else if beq s (lit "X") then Some (HHex alternate true zero_pad)
          else if beq s (lit "iso8601ms") then Some (HIso8601 Millis)
          else if beq s (lit "iso8601s") then Some (HIso8601 Seconds)
          else if beq s (lit "cbor") then Some HCbor
          else if beq s (lit "?") then Some HDebug
          else None
      end
  end.

(* ------------------------------------------------------------------ *)
(** * Parameters *)

(** [parser/src/lib.rs:213-214]: split at the first [':'] (which stays in the
    second part). *)
Definition split_type (s : bytes) : bytes * bytes :=
  match position (fun c => c =? 58) s with
  | Some n => (firstn n s, skipn n s)
  | None => (s, [])
  end.

(** [parser/src/lib.rs:220-234]; [input] is only used in the error. *)
Definition parse_type (input type_fragment : bytes) : outcome perr ty :=
  match type_from_str type_fragment with
  | Some t => Ok t
  | None =>
      match strip_prefix (lit "[u8;") type_fragment with
      | Some s => n <- parse_array s ;; Ok (TU8Array n)
      | None =>
          match strip_prefix (lit "[?;") type_fragment with
          | Some s => n <- parse_array s ;; Ok (TFormatArray n)
          | None =>
              r <- parse_range type_fragment ;;
              match r with
              | Some ((lo, hi), used) =>
                  if negb (used =? length type_fragment)%nat
                  then Err TrailingDataAfterBitfieldRange
                  else Ok (TBitField lo hi)
              | None => Err (InvalidTypeSpecifier input)
              end
          end
      end
  end.

(** [parser/src/lib.rs:239-256]: the optional hint. *)
Definition parse_hint_part (input : bytes) (m : mode) : outcome perr (option hint) :=
  match strip_prefix (lit ":") input with
  | Some [] => Err MalformedFormatString
  | Some h =>
      match parse_hint h, m with
      | Some a, _ => Ok (Some a)
      | None, Strict => Err (UnknownDisplayHint h)
      | None, ForwardsCompatible => Ok (Some (HUnknown h))
      end
  | None =>
      match input with
      | [] => Ok None
      | _ => Err (UnexpectedContentInFormatString input)
      end
  end.

(** [parser/src/lib.rs:190-259] [parse_param]. *)
Definition parse_param (input : bytes) (m : mode) : outcome perr param :=
  let d := digits input in
  index <-
    (if (d =? 0)%nat then Ok None
     else match parse_digits usize_max (firstn d input) with
          | Some i => Ok (Some i)
          | None => Err InvalidInteger
          end) ;;
  let input := skipn d input in
  '(t, input) <-
    (match strip_prefix (lit "=") input with
     | Some input =>
         let '(tf, rest) := split_type input in
         t <- parse_type input tf ;; Ok (t, rest)
     | None => Ok (TFormat, input)
     end) ;;
  h <- parse_hint_part input m ;;
  Ok (Param index t h).

(* ------------------------------------------------------------------ *)
(** * Literals *)

(** [parser/src/lib.rs:265-282]: scan for single braces. *)
Fixpoint scan_braces (last_open last_close : bool) (s : bytes) : outcome perr unit :=
  match s with
  | [] =>
      if last_open then Err UnmatchedOpenBracket
      else if last_close then Err UnmatchedCloseBracket
      else Ok tt
  | c :: s' =>
      if c =? 123 then scan_braces (negb last_open) last_close s'
      else if c =? 125 then scan_braces last_open (negb last_close) s'
      else if last_open then Err UnmatchedOpenBracket
      else if last_close then Err UnmatchedCloseBracket
      else scan_braces last_open last_close s'
  end.

(** [str::replace("cc", "c")]: leftmost non-overlapping. *)
Fixpoint undouble (c : Z) (s : bytes) : bytes :=
  match s with
  | [] => []
  | x :: s1 =>
      if x =? c then
        match s1 with
        | y :: s2 => if y =? c then c :: undouble c s2 else x :: undouble c s1
        | [] => [x]
        end
      else x :: undouble c s1
  end.

(** [parser/src/lib.rs:261-288] [push_literal]. *)
Definition push_literal (frags : list fragment) (s : bytes) : outcome perr (list fragment) :=
  _ <- scan_braces false false s ;;
  Ok (frags ++ [FLit (undouble 125 (undouble 123 s))]).

(* ------------------------------------------------------------------ *)
(** * Bitfield ranges *)

(** [parser/src/lib.rs:292-316] [get_max_bitfield_range]: [Panic] is
    [unreachable!()] on a non-bitfield parameter. *)
Fixpoint bitfield_ranges (ps : list parameter) : option (list (Z * Z)) :=
  match ps with
  | [] => Some []
  | p :: ps' =>
      match p_ty p, bitfield_ranges ps' with
      | TBitField lo hi, Some l => Some ((lo, hi) :: l)
      | _, _ => None
      end
  end.

Fixpoint zmax (l : list Z) : option Z :=
  match l with
  | [] => None
  | x :: l' => match zmax l' with Some y => Some (Z.max x y) | None => Some x end
  end.
Fixpoint zmin (l : list Z) : option Z :=
  match l with
  | [] => None
  | x :: l' => match zmin l' with Some y => Some (Z.min x y) | None => Some x end
  end.

Definition get_max_bitfield_range (ps : list parameter) : option (option (Z * Z)) :=
  match bitfield_ranges ps with
  | None => None
  | Some rs =>
      match zmin (map fst rs), zmax (map snd rs) with
      | Some a, Some b => Some (Some (a, b))
      | _, _ => Some None
      end
  end.

(* ------------------------------------------------------------------ *)
(** * The parser *)

Definition slice (s : bytes) (a b : nat) : bytes := firstn (b - a) (skipn a s).

(** State of the scan: fragments so far, index after the last ['}'], next
    implicit argument index. *)
Definition scan_state : Type := list fragment * nat * Z.

(** [parser/src/lib.rs:341-366]: a ['{'] at [pos] that starts a parameter;
    [rest] is the string after it. *)
Definition at_param (m : mode) (s : bytes) (pos : nat) (rest : bytes) (st : scan_state)
  : outcome perr scan_state :=
  let '(frags, end_pos, next) := st in
  frags <- (if (end_pos <? pos)%nat then push_literal frags (slice s end_pos pos) else Ok frags) ;;
  match position (fun c => c =? 125) rest with
  | None => Err UnmatchedOpenBracket
  | Some len =>
      p <- parse_param (firstn len rest) m ;;
      let '(idx, next) :=
        match pr_index p with Some i => (i, next) | None => (next, next + 1) end in
      Ok (frags ++ [FParam (MkParameter idx (pr_ty p) (pr_hint p))], (pos + 1 + len + 1)%nat, next)
  end.

(** [parser/src/lib.rs:327-367]: the main loop.  As in the Rust code the scan
    resumes right after the ['{'] of a parameter, not after its ['}']. *)
Fixpoint scan (m : mode) (s : bytes) (rest : bytes) (pos : nat) (st : scan_state)
  : outcome perr scan_state :=
  match rest with
  | [] => Ok st
  | c :: rest1 =>
      if negb (c =? 123) then scan m s rest1 (S pos) st
      else
        match rest1 with
        | c2 :: rest2 =>
            if c2 =? 123 then scan m s rest2 (S (S pos)) st
            else st' <- at_param m s pos rest1 st ;; scan m s rest1 (S pos) st'
        | [] => st' <- at_param m s pos rest1 st ;; scan m s rest1 (S pos) st'
        end
  end.

(** [parser/src/lib.rs:374-393]: argument type conflicts.  The [Vec<Option<Type>>]
    indexed by argument is represented sparsely by its [Some] entries and its
    length (so huge explicit indices do not need a huge list). *)
Fixpoint lookup_arg (i : Z) (args : list (Z * ty)) : option ty :=
  match args with
  | [] => None
  | (j, t) :: args' => if i =? j then Some t else lookup_arg i args'
  end.

Definition is_bitfield (t : ty) : bool := match t with TBitField _ _ => true | _ => false end.

(** [*index + 1] overflows for [usize::MAX] (debug: overflow panic; release:
    out-of-bounds index panic).  Allocation failure of the [resize] for other
    huge indices is not modelled. *)
Fixpoint check_types (frags : list fragment) (args : list (Z * ty)) (len : Z)
  : outcome perr (list (Z * ty) * Z) :=
  match frags with
  | [] => Ok (args, len)
  | FLit _ :: fs => check_types fs args len
  | FParam p :: fs =>
      if (len <=? p_index p) && (p_index p =? usize_max) then Panic
      else
        let len := if len <=? p_index p then p_index p + 1 else len in
        match lookup_arg (p_index p) args with
        | None => check_types fs (args ++ [(p_index p, p_ty p)]) len
        | Some other =>
            if is_bitfield other && is_bitfield (p_ty p) then check_types fs args len
            else if negb (ty_eqb other (p_ty p))
            then Err (ConflictingTypes (p_index p) other (p_ty p))
            else check_types fs args len
        end
  end.

(** [parser/src/lib.rs:395-400]: the first unused index.  With [n] entries the
    first gap, if any, is at most [n], so [n + 1] candidates suffice. *)
Fixpoint first_gap (n : nat) (i : Z) (args : list (Z * ty)) : Z :=
  match n with
  | O => i
  | S n' => match lookup_arg i args with
            | None => i
            | Some _ => first_gap n' (i + 1) args
            end
  end.

Definition check_dense (args : list (Z * ty)) (len : Z) : outcome perr unit :=
  let g := first_gap (length args) 0 args in
  if g <? len then Err (UnusedArgument g) else Ok tt.

(** [parser/src/lib.rs:318-403] [parse]. *)
Definition parse (s : bytes) (m : mode) : outcome perr (list fragment) :=
  '(frags, end_pos, _) <- scan m s s 0%nat ([], 0%nat, 0) ;;
  frags <- (if (end_pos =? length s)%nat then Ok frags else push_literal frags (skipn end_pos s)) ;;
  '(args, len) <- check_types frags [] 0 ;;
  _ <- check_dense args len ;;
  Ok frags.
