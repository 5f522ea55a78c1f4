(** The grammar of JSON (RFC 8259), and which JSON texts are a symbol.  Independent of the
    readers in [SymbolModel]. *)
From Verif Require Import Base Utf8 SymbolModel.

(** White space. *)
Definition blank (w : bytes) : Prop := Forall (fun c => In c [32; 10; 9; 13]) w.

Definition decimal (c : Z) : Prop := 48 <= c <= 57.

Inductive hex_digit : Z -> Z -> Prop :=
| Hex_digit c : 48 <= c <= 57 -> hex_digit c (c - 48)
| Hex_lower c : 97 <= c <= 102 -> hex_digit c (c - 97 + 10)
| Hex_upper c : 65 <= c <= 70 -> hex_digit c (c - 65 + 10).

(** Four hexadecimal digits. *)
Inductive hex_four : bytes -> Z -> Prop :=
| Hex_four a b c d w x y z : hex_digit a w -> hex_digit b x -> hex_digit c y -> hex_digit d z ->
    hex_four [a; b; c; d] (w * 4096 + x * 256 + y * 16 + z).

(** The letter of an escape and the character it stands for: quote, backslash, slash, backspace, form feed, line
    feed, carriage return, tab. *)
Definition letters : list (Z * Z) := [(34, 34); (92, 92); (47, 47); (98, 8); (102, 12); (110, 10); (114, 13); (116, 9)].

(** The text between the quotes is a spelling of the string. *)
Inductive spelled : bytes -> bytes -> Prop :=
| Sp_nil : spelled [] []
| Sp_plain c v s : 32 <= c -> c <> 34 -> c <> 92 -> spelled v s -> spelled (c :: v) (c :: s)
| Sp_letter e x v s : In (e, x) letters -> spelled v s -> spelled (x :: v) (92 :: e :: s)
| Sp_unit h n v s : hex_four h n -> ~ 55296 <= n < 57344 -> spelled v s -> spelled (utf8_encode n ++ v) (92 :: 117 :: h ++ s)
| Sp_pair h n k m v s : hex_four h n -> 55296 <= n < 56320 -> hex_four k m -> 56320 <= m < 57344 -> spelled v s ->
    spelled (utf8_encode (65536 + (n - 55296) * 1024 + (m - 56320)) ++ v) (92 :: 117 :: h ++ 92 :: 117 :: k ++ s).

(** A string by the grammar alone, in which escapes may stand for lone surrogates. *)
Inductive string_text : bytes -> Prop :=
| St_nil : string_text []
| St_plain c s : 32 <= c -> c <> 34 -> c <> 92 -> string_text s -> string_text (c :: s)
| St_letter e x s : In (e, x) letters -> string_text s -> string_text (92 :: e :: s)
| St_unit h n s : hex_four h n -> string_text s -> string_text (92 :: 117 :: h ++ s).

Definition digits (s : bytes) : Prop := s <> [] /\ Forall decimal s.
Definition whole (s : bytes) : Prop := s = [48] \/ exists c r, s = c :: r /\ 49 <= c <= 57 /\ Forall decimal r.
Definition fraction (s : bytes) : Prop := s = [] \/ exists d, s = 46 :: d /\ digits d.
Definition exponent (s : bytes) : Prop := s = [] \/ exists e g d, s = e :: g ++ d /\ In e [101; 69] /\ In g [[]; [43]; [45]] /\ digits d.
Definition number (s : bytes) : Prop := exists m w f x, s = m ++ w ++ f ++ x /\ In m [[]; [45]] /\ whole w /\ fraction f /\ exponent x.

Inductive scalar : bytes -> Prop :=
| Sc_null : scalar (lit "null")
| Sc_true : scalar (lit "true")
| Sc_false : scalar (lit "false")
| Sc_number s : number s -> scalar s
| Sc_string s : string_text s -> scalar (34 :: s ++ [34]).

(** The bracket that closes an array or an object. *)
Inductive brackets : Z -> Z -> Prop := Br_array : brackets 91 93 | Br_object : brackets 123 125.

(** What is before a value in an object: its key and a colon. *)
Inductive key_text : Z -> bytes -> Prop :=
| K_array : key_text 91 []
| K_object s w : string_text s -> blank w -> key_text 123 (34 :: s ++ 34 :: w ++ [58]).

(** A value, and what follows a value inside of brackets. *)
Inductive value : bytes -> Prop :=
| V_scalar s : scalar s -> value s
| V_empty o c w : brackets o c -> blank w -> value (o :: w ++ [c])
| V_full o w k w' v t : blank w -> key_text o k -> blank w' -> value v -> more o t -> value (o :: w ++ k ++ w' ++ v ++ t)
with more : Z -> bytes -> Prop :=
| M_close o c w : brackets o c -> blank w -> more o (w ++ [c])
| M_next o w w1 k w2 v t : blank w -> blank w1 -> key_text o k -> blank w2 -> value v -> more o t ->
    more o (w ++ 44 :: w1 ++ k ++ w2 ++ v ++ t).

Scheme value_mut := Minimality for value Sort Prop
with more_mut := Minimality for more Sort Prop.

(* ------------------------------------------------------------------ *)
(** * Symbols *)

Definition known_fields : list bytes := [lit "package"; lit "disambiguator"; lit "tag"; lit "data"; lit "crate_name"].

(** The value of a field: a string, [null], or anything in a field that is not known. *)
Inductive content := CText (s : bytes) | CNull | COther.

Inductive holds : bytes -> content -> bytes -> Prop :=
| H_text k v s : In k known_fields -> spelled v s -> holds k (CText v) (34 :: s ++ [34])
| H_null : holds (lit "crate_name") CNull (lit "null")
| H_other k t : ~ In k known_fields -> value t -> holds k COther t.

Inductive member : bytes -> content -> bytes -> Prop :=
| Member k ks w w' c t : spelled k ks -> blank w -> blank w' -> holds k c t -> member k c (34 :: ks ++ 34 :: w ++ 58 :: w' ++ t).

Inductive members : list (bytes * content) -> bytes -> Prop :=
| Ms_nil : members [] []
| Ms_cons k c t w w' ms r : blank w -> blank w' -> member k c t -> members ms r -> members ((k, c) :: ms) (w ++ 44 :: w' ++ t ++ r).

Inductive object_text : list (bytes * content) -> bytes -> Prop :=
| O_empty w : blank w -> object_text [] (123 :: w ++ [125])
| O_full k c t w w' ms r : blank w -> blank w' -> member k c t -> members ms r ->
    object_text ((k, c) :: ms) (123 :: w ++ t ++ r ++ w' ++ [125]).

(** The members are the fields of [y], in any order: none of them twice, and others between them. *)
Definition fields_of (ms : list (bytes * content)) (y : dsymbol) : Prop :=
  (forall a k c b c' d, In k known_fields -> ms <> a ++ (k, c) :: b ++ (k, c') :: d) /\
  In (lit "package", CText (d_package y)) ms /\ In (lit "disambiguator", CText (d_disambiguator y)) ms /\
  In (lit "tag", CText (d_tag y)) ms /\ In (lit "data", CText (d_data y)) ms /\
  match d_crate y with
  | Some s => In (lit "crate_name", CText s) ms
  | None => In (lit "crate_name", CNull) ms \/ forall c, ~ In (lit "crate_name", c) ms
  end.

(** A quoted string with white space around it. *)
Inductive padded : bytes -> bytes -> Prop :=
| Padded v s w w' : blank w -> blank w' -> spelled v s -> padded v (w ++ 34 :: s ++ 34 :: w').
Inductive padded_option : option bytes -> bytes -> Prop :=
| Padded_some v t : padded v t -> padded_option (Some v) t
| Padded_none w w' : blank w -> blank w' -> padded_option None (w ++ lit "null" ++ w').

(** The JSON texts that are a symbol: an object, or an array of the values. *)
Inductive symbol_text (y : dsymbol) : bytes -> Prop :=
| Sy_object ms t w w' : blank w -> blank w' -> object_text ms t -> fields_of ms y -> symbol_text y (w ++ t ++ w')
| Sy_array p d t x c w w' : blank w -> blank w' -> padded (d_package y) p -> padded (d_disambiguator y) d -> padded (d_tag y) t ->
    padded (d_data y) x -> padded_option (d_crate y) c ->
    symbol_text y (w ++ 91 :: p ++ 44 :: d ++ 44 :: t ++ 44 :: x ++ 44 :: c ++ 93 :: w').
