(** How many bytes a message takes, by the types and values it is made of
    ([book/src/format-slices.md], [book/src/istr.md], [book/src/ser-array.md], [book/src/ser-bitfield.md] and others). *)
From Verif Require Import Base ParserModel DecoderModel EncodeModel EncodeSpec.

Definition size (s : bytes) : Z := Z.of_nat (length s).
Definition sum (l : list Z) : Z := fold_right Z.add 0 l.

(** Numbers take the bytes of their type, [usize] and [isize] four, texts their length and four bytes
    for it, interned texts two bytes, whatever is in them. *)
Inductive prim_takes : prim -> rval -> Z -> Prop :=
| T_i w x : prim_takes (PI w) (VNum x) (Z.of_nat (width_bytes w))
| T_u w x : prim_takes (PU w) (VNum x) (Z.of_nat (width_bytes w))
| T_isize x : prim_takes PIsize (VNum x) 4
| T_usize x : prim_takes PUsize (VNum x) 4
| T_f32 x : prim_takes PF32 (VNum x) 4
| T_f64 x : prim_takes PF64 (VNum x) 8
| T_bool x : prim_takes PBool (VNum x) 1
| T_char x : prim_takes PChar (VNum x) 4
| T_str s : prim_takes PStr (VText s) (4 + size s)
| T_istr s : prim_takes PIStr (VText s) 2.

(** Least number of bytes for the number of an alternative, if there is a choice. *)
Inductive choice : Z -> Z -> Prop :=
| C_one : choice 1 0
| C_1 n : 2 <= n <= 255 -> choice n 1
| C_2 n : 256 <= n <= 65535 -> choice n 2
| C_4 n : 65536 <= n < 2 ^ 32 -> choice n 4
| C_8 n : 2 ^ 32 <= n -> choice n 8.

(** Bytes between which bits [lo..hi] lie, rounded up to the size of an integer. *)
Inductive bits_take (lo hi : Z) : Z -> Prop :=
| B_take n : In n [1; 2; 4; 8; 16] -> (hi - 1) / 8 - lo / 8 < n ->
    (forall m, In m [1; 2; 4; 8; 16] -> (hi - 1) / 8 - lo / 8 < m -> n <= m) -> bits_take lo hi n.

(** The data of a value, without the two bytes of its own tag: [takes t v n].  Components of known
    primitive types have no tags, all others have one each; elements of lists share one. *)
Inductive takes : rty -> rval -> Z -> Prop :=
| K_prim p v n : prim_takes p v n -> takes (RPrim p) v n
| K_ref t v n : takes t v n -> takes (RRef t) v n
| K_opaque t v n : takes t v n -> takes (ROpaque t) v n
| K_slice t vs ns : Forall2 (takes t) vs ns -> takes (RSlice t) (VList vs) (4 + 2 + sum ns)
| K_array k t vs ns : listed_length k = true -> Forall2 (takes t) vs ns -> takes (RArray k t) (VList vs) (2 + sum ns)
| K_big_array k t vs ns : listed_length k = false -> Forall2 (takes t) vs ns -> takes (RArray k t) (VList vs) (4 + 2 + sum ns)
| K_comp s ts vs n : all_take ts vs n -> takes (RComp s ts) (VList vs) n
| K_alt alts k s ts vs n : nth_error alts k = Some (s, ts) -> all_take ts vs n -> takes (RLibEnum alts) (VVar k vs) (1 + n)
| K_debug s : takes RDebug (VText s) (size s + 1)
| K_display s : takes RDisplay (VText s) (size s + 1)
| K_struct name k fs vs n : fields_take fs vs n -> takes (RStruct name k fs) (VList vs) n
| K_enum variants j name k fs vs c n : nth_error variants j = Some (name, k, fs) -> choice (Z.of_nat (length variants)) c -> fields_take fs vs n ->
    takes (REnum variants) (VVar j vs) (c + n)
| K_flags w n p d c x : takes (RFlags w n p d c) (VNum x) (Z.of_nat (width_bytes w))
| K_manual ws n : writes_take ws n -> takes RManual (VWrites ws) (n + 2)
with all_take : list rty -> list rval -> Z -> Prop :=
| A_nil : all_take [] [] 0
| A_cons t ts v vs n m : takes t v n -> all_take ts vs m -> all_take (t :: ts) (v :: vs) (2 + n + m)
with fields_take : list field -> list rval -> Z -> Prop :=
| F_nil : fields_take [] [] 0
| F_adapter name a t fs s vs m : fields_take fs vs m -> fields_take ((name, Some a, t) :: fs) (VText s :: vs) (2 + (size s + 1) + m)
| F_native name t p fs v vs n m : as_native t = Some p -> prim_takes p v n -> fields_take fs vs m ->
    fields_take ((name, None, t) :: fs) (v :: vs) (n + m)
| F_format name t fs v vs n m : as_native t = None -> takes t v n -> fields_take fs vs m ->
    fields_take ((name, None, t) :: fs) (v :: vs) (2 + n + m)
(** A hand-written [format]: two bytes for each string that is written, and two at the end. *)
with writes_take : list wcall -> Z -> Prop :=
| W_nil : writes_take [] 0
| W_write s tys args ws n m : arg_types s Strict tys -> args_take tys args n -> writes_take ws m ->
    writes_take (SWrite s args :: ws) (2 + n + m)
| W_splice t ws' ws n m : strip t = RManual -> writes_take ws' n -> writes_take ws m -> writes_take (SDelegate t (VWrites ws') :: ws) (n + m)
| W_delegate t v ws n m : strip t <> RManual -> takes t v n -> writes_take ws m -> writes_take (SDelegate t v :: ws) (2 + n + m)
(** Arguments by the type they are sent with; bitfields of one argument are sent together. *)
with arg_takes : ty -> aval -> Z -> Prop :=
| G_prim x p v n : prim_of_ty x = Some p -> prim_takes p v n -> arg_takes x (AvPrim v) n
| G_fmt t v n : takes t v n -> arg_takes TFormat (AvFmt t v) (2 + n)
| G_slice t vs ns : Forall2 (takes t) vs ns -> arg_takes TFormatSlice (AvSlice t vs) (4 + 2 + sum ns)
| G_array k t vs ns : Forall2 (takes t) vs ns -> arg_takes (TFormatArray k) (AvSlice t vs) (2 + sum ns)
| G_debug s : arg_takes TDebug (AvText s) (size s + 1)
| G_display s : arg_takes TDisplay (AvText s) (size s + 1)
| G_bytes s : arg_takes TU8Slice (AvBytes s) (4 + size s)
| G_byte_array k s : arg_takes (TU8Array k) (AvBytes s) (size s)
| G_bits lo hi w x n : 0 <= lo -> lo < hi -> hi <= 128 -> bits_take lo hi n -> arg_takes (TBitField lo hi) (AvBits w x) n
with args_take : list ty -> list aval -> Z -> Prop :=
| L_nil : args_take [] [] 0
| L_cons x tys a l n m : arg_takes x a n -> args_take tys l m -> args_take (x :: tys) (a :: l) (n + m).

(** The arguments of a format string. *)
Definition string_takes (s : bytes) (args : list aval) (n : Z) : Prop := exists tys, arg_types s Strict tys /\ args_take tys args n.
