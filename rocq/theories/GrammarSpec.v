(** The grammar of format strings, as a relation between texts and what they mean.
    Written from the documentation ([book/src/format-strings], [book/src/hints.md],
    [parser/README.md]) and extended by what the parser takes beyond it; nothing here
    uses the parser's functions. *)
From Verif Require Import Base ParserModel FormatSpec.

(** ** Numbers: decimal digits, leading zeros allowed. *)
Definition digit (c : Z) : Prop := 48 <= c <= 57.

Inductive number : bytes -> Z -> Prop :=
| N_one c : digit c -> number [c] (c - 48)
| N_more ds n c : number ds n -> digit c -> number (ds ++ [c]) (10 * n + (c - 48)).

(** ** Types. *)
Inductive type_text : bytes -> ty -> Prop :=
| T_unsigned w : type_text (lit "u" ++ show_width w) (TU w)
| T_signed w : type_text (lit "i" ++ show_width w) (TI w)
| T_usize : type_text (lit "usize") TUsize
| T_isize : type_text (lit "isize") TIsize
| T_f32 : type_text (lit "f32") TF32
| T_f64 : type_text (lit "f64") TF64
| T_bool : type_text (lit "bool") TBool
| T_char : type_text (lit "char") TChar
| T_str : type_text (lit "str") TStr
| T_istr : type_text (lit "istr") TIStr
| T_debug : type_text (lit "__internal_Debug") TDebug
| T_display : type_text (lit "__internal_Display") TDisplay
| T_sequence : type_text (lit "__internal_FormatSequence") TFormatSequence
| T_format : type_text (lit "?") TFormat
| T_bytes : type_text (lit "[u8]") TU8Slice
| T_slice : type_text (lit "[?]") TFormatSlice
| T_byte_array sp ds n : Forall (fun c => c = 32) sp -> number ds n -> n <= usize_max ->
    type_text (lit "[u8;" ++ sp ++ ds ++ lit "]") (TU8Array n)
| T_array sp ds n : Forall (fun c => c = 32) sp -> number ds n -> n <= usize_max ->
    type_text (lit "[?;" ++ sp ++ ds ++ lit "]") (TFormatArray n)
| T_bits a b lo hi : number a lo -> number b hi -> lo < hi -> hi <= 128 ->
    type_text (a ++ lit ".." ++ b) (TBitField lo hi).

(** ** Display hints: an optional [#], an optional [0] with a number of columns, a name.
    Only the radix hints use the first two; the others take and ignore them. *)
Inductive hint_name (alternate : bool) (columns : Z) : bytes -> hint -> Prop :=
| H_none : hint_name alternate columns [] (HNoHint columns)
| H_us : hint_name alternate columns (lit "us") (HSeconds Micros)
| H_ms : hint_name alternate columns (lit "ms") (HSeconds Millis)
| H_tus : hint_name alternate columns (lit "tus") (HTime Micros)
| H_tms : hint_name alternate columns (lit "tms") (HTime Millis)
| H_ts : hint_name alternate columns (lit "ts") (HTime Seconds)
| H_a : hint_name alternate columns (lit "a") HAscii
| H_b : hint_name alternate columns (lit "b") (HBinary alternate columns)
| H_o : hint_name alternate columns (lit "o") (HOctal alternate columns)
| H_x : hint_name alternate columns (lit "x") (HHex alternate false columns)
| H_X : hint_name alternate columns (lit "X") (HHex alternate true columns)
| H_isoms : hint_name alternate columns (lit "iso8601ms") (HIso8601 Millis)
| H_isos : hint_name alternate columns (lit "iso8601s") (HIso8601 Seconds)
| H_cbor : hint_name alternate columns (lit "cbor") HCbor
| H_debug : hint_name alternate columns (lit "?") HDebug
| H_flags3 n p d : ~ In 64 n -> ~ In 64 p -> ~ In 64 d ->
    hint_name alternate columns (lit "__internal_bitflags_" ++ n ++ 64 :: p ++ 64 :: d) (HBitflags n p d None)
| H_flags4 n p d c : ~ In 64 n -> ~ In 64 p -> ~ In 64 d -> ~ In 64 c ->
    hint_name alternate columns (lit "__internal_bitflags_" ++ n ++ 64 :: p ++ 64 :: d ++ 64 :: c)
      (HBitflags n p d (Some c))
(* any other number of parts is an unknown hint, in both modes *)
| H_flags_bad x : count_occ Z.eq_dec x 64 <> 2%nat -> count_occ Z.eq_dec x 64 <> 3%nat ->
    hint_name alternate columns (lit "__internal_bitflags_" ++ x) (HUnknown (lit "__internal_bitflags_" ++ x)).

Inductive columns_text : bytes -> Z -> Prop :=
| C_none : columns_text [] 0
| C_some ds n : number ds n -> n <= usize_max -> columns_text (48 :: ds) n.

Inductive hint_text : bytes -> hint -> Prop :=
| HT (alternate : bool) cs columns name h : columns_text cs columns -> hint_name alternate columns name h ->
    hint_text ((if alternate then lit "#" else []) ++ cs ++ name) h.

(** ** Parameters: what stands between the braces. *)
Inductive index_part : bytes -> option Z -> Prop :=
| I_none : index_part [] None
| I_some ds n : number ds n -> n <= usize_max -> index_part ds (Some n).

Inductive type_part : bytes -> ty -> Prop :=
| TP_none : type_part [] TFormat
| TP_some x t : type_text x t -> type_part (61 :: x) t.

Inductive hint_part (m : mode) : bytes -> option hint -> Prop :=
| HP_none : hint_part m [] None
| HP_some x h : x <> [] -> hint_text x h -> hint_part m (58 :: x) (Some h)
| HP_unknown x : m = ForwardsCompatible -> x <> [] -> (forall h, ~ hint_text x h) ->
    hint_part m (58 :: x) (Some (HUnknown x)).

Inductive param_text (m : mode) : bytes -> param -> Prop :=
| PT a b c i t h : index_part a i -> type_part b t -> hint_part m c h ->
    param_text m (a ++ b ++ c) (Param i t h).

(** ** Literal text.  [literal false] reads text in which every brace is doubled, except
    that a single closing brace may stand if it is directly followed by [{{]; from then on
    ([literal true]) braces only may follow, until a second single closing brace. *)
Definition starts_with (c : Z) (s : bytes) : Prop := match s with x :: _ => x = c | [] => False end.

Inductive literal : bool -> bytes -> bytes -> Prop :=
| L_end : literal false [] []
| L_char c s v : c <> 123 -> c <> 125 -> literal false s v -> literal false (c :: s) (c :: v)
| L_open o s v : literal o s v -> literal o (123 :: 123 :: s) (123 :: v)
| L_close o s v : literal o s v -> literal o (125 :: 125 :: s) (125 :: v)
| L_first s v : literal true (123 :: 123 :: s) v -> literal false (125 :: 123 :: 123 :: s) (125 :: v)
| L_second s v : ~ starts_with 125 s -> literal false s v -> literal true (125 :: s) (125 :: v).

(** ** Format strings.  A parameter without an index gets the next number. *)
Definition placed (next : Z) (p : param) : parameter :=
  MkParameter (match pr_index p with Some i => i | None => next end) (pr_ty p) (pr_hint p).
Definition next_after (next : Z) (p : param) : Z :=
  match pr_index p with Some _ => next | None => next + 1 end.

(** Opening braces inside a parameter: a doubled one is part of the text; a single one is
    read again as a parameter that ends at the same closing brace. *)
Inductive nested (m : mode) : Z -> bytes -> list parameter -> Z -> Prop :=
| E_end next : nested m next [] [] next
| E_char next c s ps next' : c <> 123 -> nested m next s ps next' -> nested m next (c :: s) ps next'
| E_pair next s ps next' : nested m next s ps next' -> nested m next (123 :: 123 :: s) ps next'
| E_open next s p ps next' : ~ starts_with 123 s -> param_text m s p ->
    nested m (next_after next p) s ps next' -> nested m next (123 :: s) (placed next p :: ps) next'.

(** [format m next s fs]: the text [s] means the fragments [fs], numbering from [next]. *)
Inductive format (m : mode) : Z -> bytes -> list fragment -> Prop :=
| F_end next : format m next [] []
| F_literal next text v s fs : text <> [] -> literal false text v ->
    (s = [] \/ exists r, s = 123 :: r /\ ~ starts_with 123 r) ->
    format m next s fs -> format m next (text ++ s) (FLit v :: fs)
| F_param next body p ps next' s fs : ~ starts_with 123 body -> ~ In 125 body ->
    param_text m body p -> nested m (next_after next p) body ps next' ->
    format m next' s fs ->
    format m next (123 :: body ++ 125 :: s) (FParam (placed next p) :: map FParam ps ++ fs).

(** ** Strings at which the parser panics. *)

(** [index = digits r] with a number of at most 255 and an [r] that cannot be cut after two
    bytes: shorter than two bytes, or its third byte in the middle of a character. *)
Definition uncuttable (r : bytes) : Prop :=
  match r with
  | [] | [_] => True
  | [_; _] => False
  | _ :: _ :: c :: _ => 128 <= c < 192
  end.

Inductive bad_param : bytes -> Prop :=
| BP a i ds n r h : index_part a i -> number ds n -> n <= 255 ->
    match r with c :: _ => ~ digit c | [] => True end -> uncuttable r -> ~ In 58 r ->
    (h = [] \/ exists x, h = 58 :: x) ->
    bad_param (a ++ 61 :: ds ++ r ++ h).

(** Inside an accepted parameter. *)
Inductive nested_bad (m : mode) : bytes -> Prop :=
| EB_char c s : c <> 123 -> nested_bad m s -> nested_bad m (c :: s)
| EB_pair s : nested_bad m s -> nested_bad m (123 :: 123 :: s)
| EB_here s : ~ starts_with 123 s -> bad_param s -> nested_bad m (123 :: s)
| EB_open s p : ~ starts_with 123 s -> param_text m s p -> nested_bad m s -> nested_bad m (123 :: s).

(** After a well-formed beginning. *)
Inductive bad_format (m : mode) : Z -> bytes -> Prop :=
| B_literal next text v s : text <> [] -> literal false text v ->
    (exists r, s = 123 :: r /\ ~ starts_with 123 r) ->
    bad_format m next s -> bad_format m next (text ++ s)
| B_here next body s : ~ starts_with 123 body -> ~ In 125 body -> bad_param body ->
    bad_format m next (123 :: body ++ 125 :: s)
| B_nested next body p s : ~ starts_with 123 body -> ~ In 125 body -> param_text m body p ->
    nested_bad m body -> bad_format m next (123 :: body ++ 125 :: s)
| B_later next body p ps next' s : ~ starts_with 123 body -> ~ In 125 body -> param_text m body p ->
    nested m (next_after next p) body ps next' -> bad_format m next' s ->
    bad_format m next (123 :: body ++ 125 :: s).

(** Well-formed, but an argument is [usize::MAX] and the ones before it have no conflict. *)
Definition overflowing (fs : list fragment) : Prop :=
  exists ps1 p ps2, flat_map (fun f => match f with FParam p => [p] | FLit _ => [] end) fs = ps1 ++ p :: ps2 /\
    p_index p = usize_max /\
    forall q q', In q ps1 -> In q' ps1 -> p_index q <> usize_max /\
      (p_index q = p_index q' ->
       p_ty q = p_ty q' \/ exists a b c d, p_ty q = TBitField a b /\ p_ty q' = TBitField c d).
