(** The wire format, stated without reference to the decoder: which bytes stand for which
    arguments ([book/src/encoding.md], [decoder/src/decoder.rs]). *)
From Verif Require Import Base Utf8 ParserModel DecoderModel Numerals PrepareProofs EncodeModel EncodeSpec.

Definition bars (s : bytes) : nat := length (filter (fun c => c =? 124) s).

(** The smallest of the allowed sizes that is large enough. *)
Definition smallest (sizes : list nat) (large_enough : nat -> Prop) (n : nat) : Prop :=
  In n sizes /\ large_enough n /\ forall m, In m sizes -> large_enough m -> (n <= m)%nat.

(** Bytes of the discriminant of a string with alternatives. *)
Definition discriminant_size (s : bytes) : nat -> Prop :=
  smallest [1; 2; 4; 8]%nat (fun n => Z.of_nat (bars s) < 2 ^ (8 * Z.of_nat n)).

(** Bytes that hold the bytes touched by bits [lo..hi]. *)
Definition container_size (lo hi : Z) : nat -> Prop :=
  smallest [1; 2; 4; 8; 16]%nat (fun n => (hi - 1) / 8 - lo / 8 < Z.of_nat n).

Section Wire.
  Context (tbl : table).

  (** Index [i] designates string [s], which may be used for nested values. *)
  Definition nested_at (i : Z) (s : bytes) : Prop :=
    0 <= i < 2 ^ 16 /\ exists e, lookup_entry i (t_entries tbl) = Some e /\ e_string e = s /\
      ~ In (e_tag e) [GTrace; GDebug; GInfo; GWarn; GError].

  (** Bytes [d] select format string [v] from the interned string [s]. *)
  Inductive selects (s : bytes) : bytes -> bytes -> Prop :=
  | Sel_whole : ~ In 124 s -> selects s s []
  | Sel_alternative k n v : In 124 s -> nth_error (split_on 124 s) k = Some v -> discriminant_size s n ->
      selects s v (le_bytes n (Z.of_nat k)).

  Inductive wire : ty -> arg -> bytes -> Prop :=
  | W_bool (b : bool) : wire TBool (ABool b) [if b then 1 else 0]
  | W_u w x : 0 <= x < 2 ^ (8 * Z.of_nat (width_bytes w)) -> wire (TU w) (AUxx x) (le_bytes (width_bytes w) x)
  | W_usize x : 0 <= x < 2 ^ 32 -> wire TUsize (AUxx x) (le_bytes 4 x)
  | W_i w x : - 2 ^ (8 * Z.of_nat (width_bytes w) - 1) <= x < 2 ^ (8 * Z.of_nat (width_bytes w) - 1) ->
      wire (TI w) (AIxx x) (le_bytes (width_bytes w) x)
  | W_isize x : - 2 ^ 31 <= x < 2 ^ 31 -> wire TIsize (AIxx x) (le_bytes 4 x)
  | W_f32 x : 0 <= x < 2 ^ 32 -> wire TF32 (AF32 x) (le_bytes 4 x)
  | W_f64 x : 0 <= x < 2 ^ 64 -> wire TF64 (AF64 x) (le_bytes 8 x)
  | W_char c : is_scalar c = true -> wire TChar (AChar c) (le_bytes 4 c)
  | W_str s n : n = Z.of_nat (length s) -> n < 2 ^ 32 -> utf8_valid s = true -> wire TStr (AStr s) (le_bytes 4 n ++ s)
  | W_istr i s : nested_at i s -> wire TIStr (AIStr s) (le_bytes 2 i)
  | W_debug s : utf8_valid s = true -> wire TDebug (APreformatted s) (s ++ [255])
  | W_display s : utf8_valid s = true -> wire TDisplay (APreformatted s) (s ++ [255])
  | W_bytes s n : n = Z.of_nat (length s) -> n < 2 ^ 32 -> bytes_ok s -> wire TU8Slice (ASlice s) (le_bytes 4 n ++ s)
  | W_byte_array s n : n = Z.of_nat (length s) -> bytes_ok s -> wire (TU8Array n) (ASlice s) s
  | W_bits lo hi n x : 0 <= lo < hi -> container_size lo hi n -> 0 <= x < 2 ^ (8 * Z.of_nat n) ->
      wire (TBitField lo hi) (AUxx (x * 2 ^ (lo / 8 * 8) mod 2 ^ 128)) (le_bytes n x)
  | W_format i s v d args b : nested_at i s -> selects s v d -> wire_format v args b ->
      wire TFormat (AFormat v args) (le_bytes 2 i ++ d ++ b)
  | W_slice i s es n b : n = Z.of_nat (length es) -> n < 2 ^ 32 -> nested_at i s -> wire_elements s es b ->
      wire TFormatSlice (AFormatSlice es) (le_bytes 4 n ++ le_bytes 2 i ++ b)
  | W_array i s es n b : n = Z.of_nat (length es) -> nested_at i s -> wire_elements s es b ->
      wire (TFormatArray n) (AFormatSlice es) (le_bytes 2 i ++ b)
  | W_sequence args b : wire_sequence args b -> wire TFormatSequence (AFormatSequence args) b
  with wire_args : list ty -> list arg -> bytes -> Prop :=
  | WA_nil : wire_args [] [] []
  | WA_cons t ts a args b bs : wire t a b -> wire_args ts args bs -> wire_args (t :: ts) (a :: args) (b ++ bs)
  with wire_format : bytes -> list arg -> bytes -> Prop :=
  | WF_intro f tys args b : arg_types f ForwardsCompatible tys -> wire_args tys args b -> wire_format f args b
  with wire_elements : bytes -> list (bytes * list arg) -> bytes -> Prop :=
  | WE_nil s : wire_elements s [] []
  | WE_cons s v d args b es bs : selects s v d -> wire_format v args b -> wire_elements s es bs ->
      wire_elements s ((v, args) :: es) (d ++ b ++ bs)
  with wire_sequence : list arg -> bytes -> Prop :=
  | WS_end : wire_sequence [] [0; 0]
  | WS_next i s args b rest bs : i <> 0 -> nested_at i s -> wire_format s args b -> wire_sequence rest bs ->
      wire_sequence (AFormat s args :: rest) (le_bytes 2 i ++ b ++ bs).

  (** The bytes of a whole message. *)
  Inductive wire_frame : frame -> bytes -> Prop :=
  | Wire_frame i e ts ts_args tb args b :
      0 <= i < 2 ^ 16 -> lookup_entry i (t_entries tbl) = Some e ->
      match t_timestamp tbl, ts with
      | Some te, Some f => f = e_string te /\ wire_format f ts_args tb
      | None, None => ts_args = [] /\ tb = []
      | _, _ => False
      end ->
      wire_format (e_string e) args b ->
      wire_frame (MkFrame (tag_level (e_tag e)) i ts ts_args (e_string e) args) (le_bytes 2 i ++ tb ++ b).
End Wire.

Scheme wire_mut := Minimality for wire Sort Prop
with wire_args_mut := Minimality for wire_args Sort Prop
with wire_format_mut := Minimality for wire_format Sort Prop
with wire_elements_mut := Minimality for wire_elements Sort Prop
with wire_sequence_mut := Minimality for wire_sequence Sort Prop.
Combined Scheme wire_combined from wire_mut, wire_args_mut, wire_format_mut, wire_elements_mut, wire_sequence_mut.
