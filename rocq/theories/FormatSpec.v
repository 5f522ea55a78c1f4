(** Specification of format strings: how a sequence of literal texts and
    parameters is written ([book/src/format-strings], [parser/README]). *)
From Verif Require Import Base ParserModel Numerals.

(** Literal text is written with braces doubled. *)
Fixpoint escape (s : bytes) : bytes :=
  match s with
  | [] => []
  | c :: s' =>
      if c =? 123 then 123 :: 123 :: escape s'
      else if c =? 125 then 125 :: 125 :: escape s'
      else c :: escape s'
  end.

Definition show_width (w : width) : bytes :=
  match w with W8 => lit "8" | W16 => lit "16" | W32 => lit "32" | W64 => lit "64" | W128 => lit "128" end.

Definition show_ty (t : ty) : bytes :=
  match t with
  | TBitField lo hi => dec_str lo ++ lit ".." ++ dec_str hi
  | TBool => lit "bool"
  | TChar => lit "char"
  | TDebug => lit "__internal_Debug"
  | TDisplay => lit "__internal_Display"
  | TFormatSequence => lit "__internal_FormatSequence"
  | TF32 => lit "f32"
  | TF64 => lit "f64"
  | TFormat => lit "?"
  | TFormatArray n => lit "[?;" ++ dec_str n ++ lit "]"
  | TFormatSlice => lit "[?]"
  | TI w => lit "i" ++ show_width w
  | TIsize => lit "isize"
  | TIStr => lit "istr"
  | TStr => lit "str"
  | TU w => lit "u" ++ show_width w
  | TUsize => lit "usize"
  | TU8Slice => lit "[u8]"
  | TU8Array n => lit "[u8;" ++ dec_str n ++ lit "]"
  end.

Definition show_alt (alternate : bool) : bytes := if alternate then lit "#" else [].
Definition show_pad (zero_pad : Z) : bytes := if zero_pad =? 0 then [] else lit "0" ++ dec_str zero_pad.

Definition show_hint (h : hint) : bytes :=
  match h with
  | HNoHint z => lit "0" ++ dec_str z
  | HHex alt up z => show_alt alt ++ show_pad z ++ (if up then lit "X" else lit "x")
  | HOctal alt z => show_alt alt ++ show_pad z ++ lit "o"
  | HBinary alt z => show_alt alt ++ show_pad z ++ lit "b"
  | HAscii => lit "a"
  | HDebug => lit "?"
  | HSeconds Micros => lit "us"
  | HSeconds Millis => lit "ms"
  | HSeconds Seconds => []
  | HTime Micros => lit "tus"
  | HTime Millis => lit "tms"
  | HTime Seconds => lit "ts"
  | HIso8601 Millis => lit "iso8601ms"
  | HIso8601 Seconds => lit "iso8601s"
  | HIso8601 Micros => []
  | HBitflags n p d c =>
      lit "__internal_bitflags_" ++ n ++ lit "@" ++ p ++ lit "@" ++ d ++
      match c with Some c => lit "@" ++ c | None => [] end
  | HCbor => lit "cbor"
  | HUnknown s => s
  end.

(** Types and hints that can be written down. *)
Definition show_ty_ok (t : ty) : Prop :=
  match t with
  | TBitField lo hi => 0 <= lo /\ lo < hi /\ hi <= 128
  | TFormatArray n | TU8Array n => 0 <= n <= usize_max
  | _ => True
  end.

Definition no_braces (s : bytes) : Prop := ~ In 123 s /\ ~ In 125 s.

Definition name_ok (s : bytes) : Prop := no_braces s /\ ~ In 64 s.

Definition show_hint_ok (m : mode) (h : hint) : Prop :=
  match h with
  | HNoHint z | HHex _ _ z | HOctal _ z | HBinary _ z => 0 <= z <= usize_max
  | HSeconds Seconds | HIso8601 Micros => False
  | HBitflags n p d c =>
      name_ok n /\ name_ok p /\ name_ok d /\ match c with Some c => name_ok c | None => True end
  | HUnknown s => m = ForwardsCompatible /\ s <> [] /\ parse_hint s = None /\ no_braces s
  | _ => True
  end.

(** A format string as a sequence of items. *)
Inductive item :=
| ILit (s : bytes)
| IParam (index : option Z) (t : option ty) (h : option hint).

Definition show_param (index : option Z) (t : option ty) (h : option hint) : bytes :=
  match index with Some i => dec_str i | None => [] end ++
  match t with Some t => lit "=" ++ show_ty t | None => [] end ++
  match h with Some h => lit ":" ++ show_hint h | None => [] end.

Definition show_item (i : item) : bytes :=
  match i with
  | ILit s => escape s
  | IParam idx t h => lit "{" ++ show_param idx t h ++ lit "}"
  end.

Definition show_items (l : list item) : bytes := concat (map show_item l).

Definition item_ok (m : mode) (i : item) : Prop :=
  match i with
  | ILit s => s <> []
  | IParam idx t h =>
      match idx with Some i => 0 <= i <= usize_max | None => True end /\
      match t with Some t => show_ty_ok t | None => True end /\
      match h with Some h => show_hint_ok m h | None => True end
  end.

(** Every item is writable and no two literals are adjacent. *)
Fixpoint items_ok (m : mode) (l : list item) : Prop :=
  match l with
  | [] => True
  | i :: l' =>
      item_ok m i /\ items_ok m l' /\
      match i, l' with ILit _, ILit _ :: _ => False | _, _ => True end
  end.

(** The meaning: parameters without an index are numbered from 0 in order (not
    counting explicit ones), the default type is [?]. *)
Fixpoint meaning (next : Z) (l : list item) : list fragment :=
  match l with
  | [] => []
  | ILit s :: l' => FLit s :: meaning next l'
  | IParam (Some i) t h :: l' =>
      FParam (MkParameter i (match t with Some t => t | None => TFormat end) h) :: meaning next l'
  | IParam None t h :: l' =>
      FParam (MkParameter next (match t with Some t => t | None => TFormat end) h) :: meaning (next + 1) l'
  end.

(** The arguments of a format string: indices [0..n] are all used, each with one
    type (bitfields counting as one). *)
Definition well_typed (ps : list parameter) : Prop :=
  exists n, 0 <= n /\
  (forall p, In p ps -> 0 <= p_index p < n) /\
  (forall i, 0 <= i < n -> exists p, In p ps /\ p_index p = i) /\
  (forall p q, In p ps -> In q ps -> p_index p = p_index q ->
     p_ty p = p_ty q \/ (is_bitfield (p_ty p) = true /\ is_bitfield (p_ty q) = true)).
