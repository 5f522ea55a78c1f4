(** Model of the device side: the code generated by the logging macros and
    [derive(Format)], the [Format] implementations of [defmt] and the
    [defmt::export] functions they call.

    The bytes of a frame are modelled as one list (the concatenation of all
    [export::write] calls, see C03).  [addr s] is the address the linker gave to the
    symbol that holds the string [s]. *)
From Verif Require Import Base ParserModel Numerals.

(* ------------------------------------------------------------------ *)
(** * Rust types that implement [Format] *)

(** Types with a [prim!] implementation ([defmt/src/impls/primitives.rs:23-40]). *)
Inductive prim :=
| PI (w : width) | PIsize | PU (w : width) | PUsize
| PF32 | PF64 | PBool | PStr | PIStr | PChar.

(** Field attributes [#[defmt(Debug2Format)]], [#[defmt(Display2Format)]]. *)
Inductive adapter := ADebug2 | ADisplay2.

Inductive fkind := KUnit | KNamed | KUnnamed.

(** - [RRef]: [&T], [&mut T] and the other [delegate_format!] types ([Box], [Rc],
      [Vec], [String], ...: [defmt/src/impls/alloc_.rs]);
    - [ROpaque]: the same type reached through a name that the derive macro does not
      recognise as native (a type parameter or alias);
    - [RComp s ts]: library types that intern [s] and write tag and data of each
      component: [()] and tuples ([defmt/src/impls/tuples.rs:4-55]),
      [PhantomData] ([core_/mod.rs:75-85]);
    - [RLibEnum alts]: library types that intern [s0|s1|..], write a [u8] and
      then tag and data of each component: [Option], [Result], [RefCell]
      ([defmt/src/impls/core_/mod.rs:22-73], [core_/cell.rs:12-34]);
    - [RManual]: types that only implement [format] (with [write!] calls), using the
      default methods of [defmt/src/traits.rs:46-60];
    - [RStruct], [REnum]: [derive(Format)];
    - [RFlags w name package disambiguator crate]: a type made by [bitflags!]
      ([macros/src/items/bitflags.rs]) with an unsigned representation of width [w]. *)
Inductive rty :=
| RPrim (p : prim)
| RRef (t : rty)
| ROpaque (t : rty)
| RSlice (t : rty)
| RArray (n : Z) (t : rty)
| RComp (s : bytes) (ts : list rty)
| RLibEnum (alts : list (bytes * list rty))
| RDebug
| RDisplay
| RManual
| RStruct (name : bytes) (k : fkind) (fs : list (bytes * option adapter * rty))
| REnum (vs : list (bytes * fkind * list (bytes * option adapter * rty)))
| RFlags (w : width) (name package disambiguator crate : bytes).

Definition field : Type := bytes * option adapter * rty.
Definition variant : Type := bytes * fkind * list field.

Definition option_ty (t : rty) : rty :=
  RLibEnum [(lit "None", []); (lit "Some({=?})", [t])].
Definition result_ty (t e : rty) : rty :=
  RLibEnum [(lit "Err({=?})", [e]); (lit "Ok({=?})", [t])].
Definition refcell_ty (t : rty) : rty :=
  RLibEnum [(lit "RefCell {{ value: <borrowed> }}", []); (lit "RefCell {{ value: {=?} }}", [t])].

(** Values.  Numbers cover integers, booleans (0, 1), chars and the bits of
    floats; texts cover [str], the contents of an interned [Str] and the output of
    [Debug]/[Display].  A hand-written [format] is the list of things it does:
    [write!] calls and calls of other values' [format] methods. *)
Inductive rval :=
| VNum (x : Z)
| VText (s : bytes)
| VList (vs : list rval)
| VVar (k : nat) (vs : list rval)
| VWrites (ws : list wcall)
with wcall :=
| SWrite (s : bytes) (args : list aval)
| SDelegate (t : rty) (v : rval)
(** Arguments of a logging macro or [write!]. *)
with aval :=
| AvPrim (v : rval)
| AvFmt (t : rty) (v : rval)
| AvSlice (t : rty) (vs : list rval)
| AvText (s : bytes)
| AvBytes (s : bytes)
| AvBits (w : width) (x : Z).

(** Delegation. *)
Fixpoint strip (t : rty) : rty :=
  match t with RRef t' | ROpaque t' => strip t' | _ => t end.

(** [macros/src/derives/format/codegen/fields.rs:154-169] [as_native_type]. *)
Fixpoint as_native (t : rty) : option prim :=
  match t with
  | RPrim PIStr | RPrim PChar => None
  | RPrim p => Some p
  | RRef t' => as_native t'
  | _ => None
  end.

(* ------------------------------------------------------------------ *)
(** * Format strings *)

Definition width_name (w : width) : bytes :=
  match w with W8 => lit "8" | W16 => lit "16" | W32 => lit "32" | W64 => lit "64" | W128 => lit "128" end.

Definition prim_name (p : prim) : bytes :=
  match p with
  | PI w => lit "i" ++ width_name w
  | PIsize => lit "isize"
  | PU w => lit "u" ++ width_name w
  | PUsize => lit "usize"
  | PF32 => lit "f32"
  | PF64 => lit "f64"
  | PBool => lit "bool"
  | PStr => lit "str"
  | PIStr => lit "istr"
  | PChar => lit "char"
  end.

(** [defmt/src/impls/arrays.rs:33-100]: array lengths with their own format string. *)
Definition listed_length (n : Z) : bool :=
  (0 <=? n) && (n <=? 32) ||
  existsb (Z.eqb n)
    [64; 128; 256; 512; 1024; 2048; 4096; 8192; 16384; 32768; 65536; 131072; 262144; 524288;
     1048576; 2097152; 4194304; 8388608; 16777216; 33554432; 67108864; 134217728; 268435456;
     536870912; 1073741824; 100; 1000; 10000; 100000; 1000000; 10000000; 100000000; 1000000000].

(** The type specifier of a field: [fields.rs:42-47]. *)
Definition field_ty_name (t : rty) : bytes :=
  match as_native t with Some p => prim_name p | None => lit "?" end.

(** [fields.rs:9-92] [codegen]: the text appended for the fields. *)
Definition field_str (k : fkind) (f : field) : bytes :=
  let '(name, _, t) := f in
  match k with
  | KNamed => name ++ lit ": {=" ++ field_ty_name t ++ lit ":?}"
  | _ => lit "{=" ++ field_ty_name t ++ lit "}"
  end.

Fixpoint fields_body (k : fkind) (fs : list field) : bytes :=
  match fs with
  | [] => []
  | [f] => field_str k f
  | f :: fs' => field_str k f ++ lit ", " ++ fields_body k fs'
  end.

Definition fields_str (k : fkind) (fs : list field) : bytes :=
  match k, fs with
  | KUnit, _ => []
  | _, [] => []
  | KNamed, _ => lit " {{ " ++ fields_body k fs ++ lit " }}"
  | KUnnamed, _ => lit "(" ++ fields_body k fs ++ lit ")"
  end.

Fixpoint join_bar (l : list bytes) : bytes :=
  match l with
  | [] => []
  | [s] => s
  | s :: l' => s ++ lit "|" ++ join_bar l'
  end.

(** [macros/src/derives/format/codegen.rs:23-32], [codegen/enum_data.rs:15-47]. *)
Definition variant_str (v : variant) : bytes :=
  let '(name, k, fs) := v in name ++ fields_str k fs.

Definition enum_str (vs : list variant) : bytes :=
  match vs with [] => lit "!" | _ => join_bar (map variant_str vs) end.

Definition debug_tag : bytes := lit "{=__internal_Debug}".
Definition display_tag : bytes := lit "{=__internal_Display}".
Definition sequence_tag : bytes := lit "{=__internal_FormatSequence}".

(** [bitflags.rs:18-25]. *)
Definition flags_str (w : width) (name package disambiguator crate : bytes) : bytes :=
  lit "{=u" ++ width_name w ++ lit ":__internal_bitflags_" ++ name ++ lit "@" ++ package ++ lit "@" ++
  disambiguator ++ lit "@" ++ crate ++ lit "}".

(** [T::_format_tag()]: the string interned by the implementation. *)
Definition format_tag (t : rty) : bytes :=
  match strip t with
  | RPrim p => lit "{=" ++ prim_name p ++ lit "}"
  | RSlice _ => lit "{=[?]}"
  | RArray n _ => if listed_length n then lit "{=[?;" ++ dec_str n ++ lit "]}" else lit "{=[?]}"
  | RComp s _ => s
  | RLibEnum alts => join_bar (map fst alts)
  | RDebug => debug_tag
  | RDisplay => display_tag
  | RManual => sequence_tag
  | RStruct name k fs => name ++ fields_str k fs
  | REnum vs => enum_str vs
  | RFlags w n p d c => flags_str w n p d c
  | RRef _ | ROpaque _ => []
  end.

(* ------------------------------------------------------------------ *)
(** * Generated encoders *)

Definition prim_of_ty (t : ty) : option prim :=
  match t with
  | TI w => Some (PI w) | TIsize => Some PIsize | TU w => Some (PU w) | TUsize => Some PUsize
  | TF32 => Some PF32 | TF64 => Some PF64 | TBool => Some PBool
  | TStr => Some PStr | TIStr => Some PIStr | TChar => Some PChar
  | _ => None
  end.

(** [enum_data.rs:81-100] [DiscriminantEncoder::new]: bytes of the discriminant. *)
Definition discriminant_bytes (variants : Z) : nat :=
  if variants =? 1 then 0
  else if variants <=? 255 then 1
  else if variants <=? 65535 then 2
  else if variants <=? 4294967295 then 4
  else 8.

(** [macros/src/function_like/log/codegen.rs:108-135]: bytes sent for a bitfield
    argument whose ranges span [lo..hi]; the default branch is [unreachable!()]. *)
Definition truncated_size (lo hi : Z) : nat :=
  let sz := (hi - 1) / 8 - lo / 8 + 1 in
  if sz =? 1 then 1
  else if sz =? 2 then 2
  else if (3 <=? sz) && (sz <=? 4) then 4
  else if (5 <=? sz) && (sz <=? 8) then 8
  else 16.

(** [codegen.rs:46-49]: the type of the first parameter with the given index. *)
Fixpoint first_ty (ps : list parameter) (i : Z) : option ty :=
  match ps with
  | [] => None
  | p :: ps' => if p_index p =? i then Some (p_ty p) else first_ty ps' i
  end.

Definition frag_parameters (fs : list fragment) : list parameter :=
  flat_map (fun f => match f with FParam p => [p] | FLit _ => [] end) fs.

Section Maps.
  Context {A B C : Type} (f : A -> B -> C) (g : Z -> B -> C).
  Fixpoint map2 (l : list A) (m : list B) {struct m} : list C :=
    match l, m with
    | a :: l', b :: m' => f a b :: map2 l' m'
    | _, _ => []
    end.
  Fixpoint mapi (i : Z) (m : list B) {struct m} : list C :=
    match m with
    | b :: m' => g i b :: mapi (i + 1) m'
    | [] => []
    end.
End Maps.

Section Device.
  Context (addr : bytes -> Z).

  (** [defmt/src/export/mod.rs:190-192] [istr]. *)
  Definition put_istr (s : bytes) : bytes := le_bytes 2 (addr s).

  (** [defmt/src/export/integers.rs:3-22], [export/mod.rs:152-174, 190-197];
      [usize]/[isize] are cut to 32 bits. *)
  Definition put_prim (p : prim) (v : rval) : bytes :=
    match p, v with
    | PI w, VNum x | PU w, VNum x => le_bytes (width_bytes w) x
    | PIsize, VNum x | PUsize, VNum x => le_bytes 4 x
    | PF32, VNum x => le_bytes 4 x
    | PF64, VNum x => le_bytes 8 x
    | PBool, VNum x => le_bytes 1 x
    | PChar, VNum x => le_bytes 4 x
    | PStr, VText s => le_bytes 4 (Z.of_nat (length s)) ++ s
    | PIStr, VText s => put_istr s
    | _, _ => []
    end.

  (** [codegen.rs:108-135]: [export::uN(&truncate( *arg >> (lowest_byte * 8)))]. *)
  Definition put_bits (lo hi : Z) (x : Z) : bytes :=
    le_bytes (truncated_size lo hi) (Z.shiftr x (lo / 8 * 8)).

  (** [x._format_data()], with the generated match arms; combinations that do not
      type check give the empty list. *)
  Fixpoint format_data (t : rty) (v : rval) {struct v} : bytes :=
    match strip t, v with
    | RPrim p, _ => put_prim p v
    | RSlice e, VList vs =>
        le_bytes 4 (Z.of_nat (length vs)) ++ put_istr (format_tag e) ++ concat (map (format_data e) vs)
    | RArray n e, VList vs =>
        if listed_length n then put_istr (format_tag e) ++ concat (map (format_data e) vs)
        else le_bytes 4 (Z.of_nat (length vs)) ++ put_istr (format_tag e) ++ concat (map (format_data e) vs)
    | RComp _ ts, VList vs =>
        concat (map2 (fun t' v' => put_istr (format_tag t') ++ format_data t' v') ts vs)
    | RLibEnum alts, VVar k vs =>
        le_bytes 1 (Z.of_nat k) ++
        concat (map2 (fun t' v' => put_istr (format_tag t') ++ format_data t' v')
          (match nth_error alts k with Some (_, ts) => ts | None => [] end) vs)
    | RDebug, VText s => s ++ [255]
    | RDisplay, VText s => s ++ [255]
    | RManual, VWrites ws => concat (map write_call ws) ++ le_bytes 2 0
    | RStruct _ _ fs, VList vs =>
        concat (map2 (fun f v' =>
          let '(_, a, t') := f in
          match a with
          | Some ADebug2 => put_istr debug_tag ++ format_data RDebug v'
          | Some ADisplay2 => put_istr display_tag ++ format_data RDisplay v'
          | None =>
              match as_native t' with
              | Some p => put_prim p v'
              | None => put_istr (format_tag t') ++ format_data t' v'
              end
          end) fs vs)
    | REnum variants, VVar k vs =>
        le_bytes (discriminant_bytes (Z.of_nat (length variants))) (Z.of_nat k) ++
        concat (map2 (fun f v' =>
          let '(_, a, t') := f in
          match a with
          | Some ADebug2 => put_istr debug_tag ++ format_data RDebug v'
          | Some ADisplay2 => put_istr display_tag ++ format_data RDisplay v'
          | None =>
              match as_native t' with
              | Some p => put_prim p v'
              | None => put_istr (format_tag t') ++ format_data t' v'
              end
          end)
          (match nth_error variants k with Some (_, _, fs) => fs | None => [] end) vs)
    | RFlags w _ _ _ _, VNum _ => put_prim (PU w) v
    | _, _ => []
    end

  (** One statement of a hand-written [format].  [write!]
      ([macros/src/function_like/write.rs:38-49]) writes the interned string and the
      arguments.  Calling [format] of another value writes tag and data
      ([default_format!], [defmt/src/impls/mod.rs:1-9]), or whatever that value's own
      hand-written [format] writes.  (The [format] generated by the derive macro is
      [unreachable!()]; see [delegate_panics].) *)
  with write_call (w : wcall) {struct w} : bytes :=
    match w with
    | SWrite s args =>
        match parse s Strict with
        | Ok frags => put_istr s ++ concat (mapi (encode_arg (frag_parameters frags)) 0 args)
        | _ => []
        end
    | SDelegate t v =>
        match strip t, v with
        | RManual, VWrites ws => concat (map write_call ws)
        | _, _ => put_istr (format_tag t) ++ format_data t v
        end
    end

  (** [codegen.rs:62-140] [encode_arg] for argument number [i]. *)
  with encode_arg (ps : list parameter) (i : Z) (a : aval) {struct a} : bytes :=
    match first_ty ps i, a with
    | Some x, AvPrim v => match prim_of_ty x with Some p => put_prim p v | None => [] end
    | Some TFormat, AvFmt t v => put_istr (format_tag t) ++ format_data t v
    | Some TFormatSlice, AvSlice t vs =>
        le_bytes 4 (Z.of_nat (length vs)) ++ put_istr (format_tag t) ++ concat (map (format_data t) vs)
    | Some (TFormatArray _), AvSlice t vs => put_istr (format_tag t) ++ concat (map (format_data t) vs)
    | Some TDebug, AvText s | Some TDisplay, AvText s => s ++ [255]
    | Some TU8Slice, AvBytes s => le_bytes 4 (Z.of_nat (length s)) ++ s
    | Some (TU8Array _), AvBytes s => s
    | Some (TBitField _ _), AvBits _ x =>
        match get_max_bitfield_range (filter (fun p => p_index p =? i) ps) with
        | Some (Some (lo, hi)) => put_bits lo hi x
        | _ => []
        end
    | _, _ => []
    end.

  (** [codegen.rs:43-57]: all arguments in index order. *)
  Definition encode_args (ps : list parameter) (args : list aval) : bytes :=
    concat (mapi (encode_arg ps) 0 args).

  (** The statements a macro invocation with format string [s] expands to; strings the
      strict parser rejects are compile-time errors (nothing is written). *)
  Definition macro_args (s : bytes) (args : list aval) : bytes :=
    match parse s Strict with
    | Ok frags => encode_args (frag_parameters frags) args
    | _ => []
    end.

  (** A log statement ([macros/src/function_like/log.rs:48-61],
      [export/mod.rs:212-226]): header, timestamp, arguments.  [timestamp!]
      ([macros/src/items/timestamp.rs:38-45]) writes its arguments only; without it the
      default timestamp writes nothing ([defmt/src/lib.rs:378-381]). *)
  Definition encode_frame (index : Z) (timestamp : option bytes) (timestamp_args : list aval)
      (format : bytes) (args : list aval) : bytes :=
    le_bytes 2 index ++
    match timestamp with Some s => macro_args s timestamp_args | None => [] end ++
    macro_args format args.

  (** Whether calling [format] on a value of type [t] panics:
      [macros/src/derives/format.rs:46-49], [items/bitflags.rs:48-50]. *)
  Definition delegate_panics (t : rty) : bool :=
    match strip t with RStruct _ _ _ | REnum _ | RFlags _ _ _ _ _ => true | _ => false end.
End Device.
