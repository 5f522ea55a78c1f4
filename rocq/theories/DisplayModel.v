(** Model of the display of decoded frames: [decoder/src/frame.rs].

    A text is [option bytes]; [None] is a panic.  Every function that the code takes
    from outside the repository without a simple definition is a field of
    [externals]. *)
From Verif Require Import Base Utf8 ParserModel DecoderModel Numerals.

(** - [x_f32], [x_f64]: [ryu::Buffer::format] on the bits of a float;
    - [x_debug_str]: [{:?}] of a [str];
    - [x_cbor]: [cbor_edn] rendering or error message of a byte string;
    - [x_paint]: the [colored] crate's output for a level. *)
Record externals := MkExternals {
  x_f32 : Z -> bytes;
  x_f64 : Z -> bytes;
  x_debug_str : bytes -> bytes;
  x_cbor : bytes -> bytes;
  x_paint : level -> bytes -> bytes }.

Definition text := option bytes.

Fixpoint concat_text (l : list text) : text :=
  match l with
  | [] => Some []
  | Some s :: l' => match concat_text l' with Some r => Some (s ++ r) | None => None end
  | None :: _ => None
  end.

Fixpoint join_text (sep : bytes) (l : list bytes) : bytes :=
  match l with
  | [] => []
  | [s] => s
  | s :: l' => s ++ sep ++ join_text sep l'
  end.

(** [core::fmt::Formatter::pad_integral] with the [0] flag: sign, prefix, zeros up to
    [width], digits.  (Memory is unbounded, and the 16-bit limit on widths of recent
    standard libraries is not modelled.) *)
Definition pad_integral (neg : bool) (prefix digits : bytes) (width : Z) : bytes :=
  let head := (if neg then lit "-" else []) ++ prefix in
  head ++ repeat 48 (Z.to_nat (width - Z.of_nat (length head) - Z.of_nat (length digits))) ++ digits.

(** [{x:0width$}] for [u128] and [i128]. *)
Definition show_dec (x width : Z) : bytes :=
  pad_integral (x <? 0) [] (dec_str (Z.abs x)) width.

(** [{x:0width$b}], [o], [x], [X], with or without [#], for [u128]. *)
Definition show_radix (base : Z) (upper alternate : bool) (prefix : bytes) (x width : Z) : bytes :=
  pad_integral false (if alternate then prefix else []) (num_str base upper x) width.

(* ------------------------------------------------------------------ *)
(** * Times *)

(** [frame.rs:431-477] [format_time]. *)
Definition format_time (timestamp : Z) (p : precision) : bytes :=
  let '(timestamp, decimals) :=
    match p with
    | Micros => (timestamp / 1000000, timestamp mod 1000000)
    | Millis => (timestamp / 1000, timestamp mod 1000)
    | Seconds => (timestamp, 0)
    end in
  let '(timestamp, seconds) := (timestamp / 60, timestamp mod 60) in
  let '(timestamp, minutes) := (timestamp / 60, timestamp mod 60) in
  let '(days, hours) := (timestamp / 24, timestamp mod 24) in
  (if days =? 0 then [] else dec_str days ++ lit ":") ++
  show_dec hours 2 ++ lit ":" ++ show_dec minutes 2 ++ lit ":" ++ show_dec seconds 2 ++
  match p with
  | Micros => lit "." ++ show_dec decimals 6
  | Millis => lit "." ++ show_dec decimals 3
  | Seconds => []
  end.

(** The calendar of the [time] crate (a dependency): year, month and day of a number
    of days since 1970-01-01. *)
Definition is_leap (y : Z) : bool :=
  (y mod 4 =? 0) && (negb (y mod 100 =? 0) || (y mod 400 =? 0)).

Definition month_lengths (leap : bool) : list Z :=
  [31; if leap then 29 else 28; 31; 30; 31; 30; 31; 31; 30; 31; 30; 31].

(** Month and day of a zero-based day of the year. *)
Fixpoint month_day (m : Z) (lens : list Z) (d : Z) : Z * Z :=
  match lens with
  | [] => (m, d + 1)
  | l :: lens' => if d <? l then (m, d + 1) else month_day (m + 1) lens' (d - l)
  end.

Definition civil (days : Z) : Z * Z * Z :=
  let n := days + 719162 in (* days since 0001-01-01 *)
  let q400 := n / 146097 in
  let r := n mod 146097 in
  let q100 := Z.min 3 (r / 36524) in
  let r := r - q100 * 36524 in
  let q4 := r / 1461 in
  let r := r - q4 * 1461 in
  let q1 := Z.min 3 (r / 365) in
  let r := r - q1 * 365 in
  let y := 400 * q400 + 100 * q100 + 4 * q4 + q1 + 1 in
  let '(m, d) := month_day 1 (month_lengths (is_leap y)) r in
  (y, m, d).

(** 999999-12-31T23:59:59, the last second [OffsetDateTime] can represent with the feature
    [large-dates] of the [time] crate, which [decoder/Cargo.toml:20-25] selects.  (The crate
    itself is not in the repository; instants that it cannot represent are taken to be
    rejected, as documented.) *)
Definition max_unix_seconds : Z := 31494784780799.

(** The component [[year]]: at least four digits, with a sign if there are more. *)
Definition show_year (y : Z) : bytes :=
  if y <? 10000 then show_dec y 4 else lit "+" ++ show_dec y (if y <? 100000 then 5 else 6).

(** [frame.rs:479-503] [format_iso8601]: the first [unwrap] panics when the instant is
    outside the range of [OffsetDateTime]. *)
Definition format_iso8601 (timestamp : Z) (p : precision) : text :=
  let unit := match p with Micros => 1000000 | Millis => 1000 | Seconds => 1 end in
  let secs := timestamp / unit in
  let sub := timestamp mod unit in
  if max_unix_seconds <? secs then None
  else
    let '(y, m, d) := civil (secs / 86400) in
    let t := secs mod 86400 in
    Some (show_year y ++ lit "-" ++ show_dec m 2 ++ lit "-" ++ show_dec d 2 ++ lit "T" ++
          show_dec (t / 3600) 2 ++ lit ":" ++ show_dec (t / 60 mod 60) 2 ++ lit ":" ++ show_dec (t mod 60) 2 ++
          match p with
          | Micros => lit "." ++ show_dec sub 6
          | Millis => lit "." ++ show_dec sub 3
          | Seconds => []
          end ++ lit "Z").

(* ------------------------------------------------------------------ *)
(** * Integers, bytes, strings *)

Definition key_eqb (a b : bitflags_key) : bool :=
  beq (k_ident a) (k_ident b) && beq (k_package a) (k_package b) && beq (k_disambig a) (k_disambig b) &&
  match k_crate a, k_crate b with
  | Some x, Some y => beq x y
  | None, None => true
  | _, _ => false
  end.

Fixpoint lookup_flags (k : bitflags_key) (l : list (bitflags_key * list (bytes * Z))) : option (list (bytes * Z)) :=
  match l with
  | [] => None
  | (k', fs) :: l' => if key_eqb k k' then Some fs else lookup_flags k l'
  end.

(** [frame.rs:283-301]. *)
Definition format_flags (flags : list (bytes * Z)) (x : Z) : bytes :=
  let set_flags := filter (fun f => if (snd f =? 0) && negb (x =? 0) then false
                                    else Z.land x (snd f) =? snd f) flags in
  match map fst set_flags with
  | [] => lit "(empty)"
  | names => join_text (lit " | ") names
  end.

(** [frame.rs:218-311] [format_u128]. *)
Definition format_u128 (tbl : table) (x : Z) (h : option hint) : bytes :=
  match h with
  | Some (HNoHint w) => show_dec x w
  | Some (HBinary alt w) => show_radix 2 false alt (lit "0b") x w
  | Some (HOctal alt w) => show_radix 8 false alt (lit "0o") x w
  | Some (HHex alt up w) => show_radix 16 up alt (lit "0x") x w
  | Some (HSeconds Micros) => dec_str (x / 1000000) ++ lit "." ++ show_dec (x mod 1000000) 6
  | Some (HSeconds Millis) => dec_str (x / 1000) ++ lit "." ++ show_dec (x mod 1000) 3
  | Some (HTime p) => format_time x p
  | Some (HBitflags name package disambiguator crate_name) =>
      match lookup_flags (MkKey name package disambiguator crate_name) (t_bitflags tbl) with
      | Some flags => format_flags flags x
      | None => dec_str x
      end
  | _ => dec_str x
  end.

(** [frame.rs:313-352] [format_i128] and [13-39] [I128Hex].  Binary and octal print
    the 128-bit two's complement. *)
Definition format_i128 (x : Z) (t : ty) (h : option hint) : text :=
  match h with
  | Some (HNoHint w) => Some (show_dec x w)
  | Some (HBinary alt w) => Some (show_radix 2 false alt (lit "0b") (x mod 2 ^ 128) w)
  | Some (HOctal alt w) => Some (show_radix 8 false alt (lit "0o") (x mod 2 ^ 128) w)
  | Some (HHex alt up w) =>
      match t with
      | TI n => Some (show_radix 16 up alt (lit "0x") (x mod 2 ^ (8 * Z.of_nat (width_bytes n))) w)
      | _ => None
      end
  | _ => Some (show_dec x 0)
  end.

(** [frame.rs:362-382]: one byte of a byte string literal. *)
Definition escape_byte (b : Z) : bytes :=
  if b =? 9 then [92; 116]
  else if b =? 10 then [92; 110]
  else if b =? 13 then [92; 114]
  else if b =? 32 then [32]
  else if b =? 34 then [92; 34]
  else if b =? 92 then [92; 92]
  else if (33 <=? b) && (b <=? 126) then [b]
  else [92; 120] ++ pad_integral false [] (num_str 16 false b) 2.

Definition byte_string (s : bytes) : bytes := [98; 34] ++ flat_map escape_byte s ++ [34].

(** [frame.rs:354-415] [format_bytes]. *)
Definition format_bytes (X : externals) (tbl : table) (s : bytes) (h : option hint) : bytes :=
  match h with
  | Some HAscii => byte_string s
  | Some (HHex _ _ _) | Some (HOctal _ _) | Some (HBinary _ _) =>
      lit "[" ++ join_text (lit ", ") (map (fun b => format_u128 tbl b h) s) ++ lit "]"
  | Some HCbor => x_cbor X s
  | _ => lit "[" ++ join_text (lit ", ") (map dec_str s) ++ lit "]"
  end.

(** [frame.rs:417-429] [format_str]. *)
Definition format_str (X : externals) (s : bytes) (h : option hint) : bytes :=
  match h with Some HDebug => x_debug_str X s | _ => s end.

(* ------------------------------------------------------------------ *)
(** * Arguments *)

Definition or_hint (own parent : option hint) : option hint :=
  match own with Some _ => own | None => parent end.

(** [frame.rs:128-133]: shifts by 128 or more, and [128 - end] below zero, panic. *)
Definition select_bits (x lo hi : Z) : option Z :=
  let left := 128 - hi in
  let right := left + lo in
  if (0 <=? left) && (left <? 128) && (0 <=? right) && (right <? 128)
  then Some (Z.shiftr (Z.shiftl x left mod 2 ^ 128) right)
  else None.

(** [frame.rs:124-157]: an unsigned argument. *)
Definition show_uxx (X : externals) (tbl : table) (x : Z) (p : parameter) (parent : option hint) : text :=
  let h := or_hint (p_hint p) parent in
  match p_ty p with
  | TBitField lo hi =>
      match select_bits x lo hi with
      | None => None
      | Some bits =>
          match h with
          | Some HAscii =>
              Some (format_bytes X tbl (skipn (Z.to_nat ((128 - hi + lo) / 8)) (rev (le_bytes 16 bits))) h)
          | _ => Some (format_u128 tbl bits h)
          end
      end
  | _ =>
      match h with
      | Some (HIso8601 prec) => format_iso8601 (x mod 2 ^ 64) prec
      | Some HDebug => Some (format_u128 tbl x parent)
      | _ => Some (format_u128 tbl x h)
      end
  end.

Definition show_bool (b : bool) : bytes := if b then lit "true" else lit "false".

(** One parameter of a fragment list, given how to show each argument. *)
Definition shower : Type := parameter -> option hint -> text.

Definition show_fragment (shows : list shower) (parent : option hint) (f : fragment) : text :=
  match f with
  | FLit s => Some s
  | FParam p =>
      match nth_error shows (Z.to_nat (p_index p)) with
      | Some g => g p parent
      | None => None
      end
  end.

(** [frame.rs:106-216] [format_args]: a panic if the string does not parse or has too
    few arguments. *)
Definition show_format (f : bytes) (shows : list shower) (parent : option hint) : text :=
  match parse f ForwardsCompatible with
  | Ok frags => concat_text (map (show_fragment shows parent) frags)
  | _ => None
  end.

(** [frame.rs:177-187]: all elements of a slice as bytes. *)
Fixpoint element_bytes (es : list (bytes * list arg)) : option bytes :=
  match es with
  | [] => Some []
  | (_, [AUxx v]) :: es' =>
      if (0 <=? v) && (v <? 256)
      then match element_bytes es' with Some r => Some (v :: r) | None => None end
      else None
  | _ => None
  end.

Definition is_ascii_hint (h : option hint) : bool := match h with Some HAscii => true | _ => false end.

Fixpoint join_texts (l : list text) : text :=
  match l with
  | [] => Some []
  | [s] => s
  | s :: l' => match s, join_texts l' with Some a, Some b => Some (a ++ lit ", " ++ b) | _, _ => None end
  end.

Section Show.
  Context (X : externals) (tbl : table).

  (** [frame.rs:121-211]. *)
  Fixpoint show_arg (a : arg) (p : parameter) (parent : option hint) {struct a} : text :=
    let h := or_hint (p_hint p) parent in
    match a with
    | ABool b => Some (show_bool b)
    | AF32 x => Some (x_f32 X x)
    | AF64 x => Some (x_f64 X x)
    | AUxx x => show_uxx X tbl x p parent
    | AIxx x => format_i128 x (p_ty p) h
    | AStr s | APreformatted s | AIStr s => Some (format_str X s h)
    | AFormat f args =>
        show_format f (map show_arg args) (if is_ascii_hint parent then parent else h)
    | AFormatSequence args =>
        concat_text (map (fun a' => show_format (lit "{=?}") [show_arg a'] h) args)
    | AFormatSlice es =>
        if is_ascii_hint h && existsb (fun e => beq (fst e) (lit "{=u8}")) es
        then match element_bytes es with Some s => Some (format_bytes X tbl s h) | None => None end
        else
          match join_texts (map (fun e => show_format (fst e) (map show_arg (snd e)) h) es) with
          | Some s => Some (lit "[" ++ s ++ lit "]")
          | None => None
          end
    | ASlice s => Some (format_bytes X tbl s h)
    | AChar c => Some (utf8_encode c)
    end.

  Definition format_args (f : bytes) (args : list arg) (parent : option hint) : text :=
    show_format f (map show_arg args) parent.

  (** [frame.rs:521-532] [DisplayMessage], [506-519] [DisplayTimestamp]. *)
  Definition display_message (fr : frame) : text := format_args (f_format fr) (f_args fr) None.

  Definition display_timestamp (fr : frame) : option text :=
    match f_timestamp_format fr with
    | Some f => Some (format_args f (f_timestamp_args fr) None)
    | None => None
    end.

  Definition level_name (l : level) : bytes :=
    match l with
    | LTrace => lit "TRACE" | LDebug => lit "DEBUG" | LInfo => lit "INFO"
    | LWarn => lit "WARN" | LError => lit "ERROR"
    end.

  (** [frame.rs:543-584] [DisplayFrame]. *)
  Definition display_frame (colored : bool) (fr : frame) : text :=
    let lvl :=
      match f_level fr with
      | Some l => (if colored then x_paint X l (level_name l) else level_name l) ++ lit " "
      | None => []
      end in
    let timestamp :=
      match f_timestamp_format fr with
      | Some f => match format_args f (f_timestamp_args fr) None with Some s => Some (s ++ lit " ") | None => None end
      | None => Some []
      end in
    concat_text [timestamp; Some lvl; display_message fr].
End Show.
