(** What the host has to show for a value logged on the device: a relation between
    Rust values and trees of format strings and decoded arguments. *)
From Verif Require Import Base Utf8 ParserModel DecoderModel Numerals PrepareProofs EncodeModel.

(** The types of the arguments of format string [s], one per argument, in order. *)
Definition arg_types (s : bytes) (m : mode) (tys : list ty) : Prop :=
  exists frags, parse s m = Ok frags /\
    (forall p, In p (frag_parameters frags) -> p_index p < Z.of_nat (length tys)) /\
    (forall i t, nth_error tys i = Some t -> wire_ty (frag_parameters frags) (Z.of_nat i) t).

Definition no_bar (s : bytes) : Prop := ~ In 124 s.

(** Identifiers contain neither braces nor bars. *)
Definition ident_ok (s : bytes) : Prop := ~ In 123 s /\ ~ In 125 s /\ ~ In 124 s.

(** Names in the format string of [bitflags!] types. *)
Definition flags_name_ok (s : bytes) : Prop := ident_ok s /\ ~ In 64 s.

(** Debug2Format and Display2Format attributes on types that the derive macro
    takes for native do not work (C42). *)
Definition field_ok (f : field) : Prop :=
  let '(name, a, t) := f in
  ident_ok name /\ (a <> None -> as_native t = None).

(** Numbers of variants for which device and host agree on the discriminant (C15). *)
Definition variants_ok (n : Z) : Prop :=
  n <> 256 /\ n <> 65536 /\ n <> 2 ^ 32 /\ n < 2 ^ 64.

Definition variant_ok (v : variant) : Prop :=
  let '(name, k, fs) := v in
  name <> [] /\ ident_ok name /\ Forall field_ok fs /\ (k = KUnit -> fs = []).

(** The part of [x] sent for a bitfield argument spanning [lo..hi]: whole bytes,
    starting with the byte that contains bit [lo]. *)
Definition byte_window (lo hi x : Z) : Z :=
  let a := lo / 8 * 8 in
  (x / 2 ^ a) mod 2 ^ (8 * Z.of_nat (truncated_size lo hi)) * 2 ^ a.

Section Spec.
  Context (addr : bytes -> Z) (tbl : table).

  (** The string is in the host's table at the address used by the device, with a tag
      other than a log level.  Addresses start at 1 ([defmt/defmt.x.in:12-17]). *)
  Definition linked (s : bytes) : Prop :=
    0 < addr s < 65536 /\ get_without_level tbl (addr s) = Some s.

  Inductive prim_means : prim -> rval -> arg -> Prop :=
  | PM_i w x : - 2 ^ (8 * Z.of_nat (width_bytes w) - 1) <= x < 2 ^ (8 * Z.of_nat (width_bytes w) - 1) ->
      prim_means (PI w) (VNum x) (AIxx x)
  | PM_isize x : - 2 ^ 31 <= x < 2 ^ 31 -> prim_means PIsize (VNum x) (AIxx x)
  | PM_u w x : 0 <= x < 2 ^ (8 * Z.of_nat (width_bytes w)) -> prim_means (PU w) (VNum x) (AUxx x)
  | PM_usize x : 0 <= x < 2 ^ 32 -> prim_means PUsize (VNum x) (AUxx x)
  | PM_f32 x : 0 <= x < 2 ^ 32 -> prim_means PF32 (VNum x) (AF32 x)
  | PM_f64 x : 0 <= x < 2 ^ 64 -> prim_means PF64 (VNum x) (AF64 x)
  | PM_bool (b : bool) : prim_means PBool (VNum (if b then 1 else 0)) (ABool b)
  | PM_str s : utf8_valid s = true -> Z.of_nat (length s) < 2 ^ 32 -> prim_means PStr (VText s) (AStr s)
  | PM_istr s : linked s -> prim_means PIStr (VText s) (AIStr s)
  | PM_char c : is_scalar c = true -> prim_means PChar (VNum c) (AChar c).

  (** [means t v f args]: the value [v] of type [t] is shown as format string [f]
      with arguments [args]. *)
  Inductive means : rty -> rval -> bytes -> list arg -> Prop :=
  | M_prim p v a : prim_means p v a ->
      means (RPrim p) v (lit "{=" ++ prim_name p ++ lit "}") [a]
  | M_ref t v f a : means t v f a -> means (RRef t) v f a
  | M_opaque t v f a : means t v f a -> means (ROpaque t) v f a
  | M_slice t vs es : linked (format_tag t) -> Z.of_nat (length vs) < 2 ^ 32 ->
      means_elements t vs es ->
      means (RSlice t) (VList vs) (lit "{=[?]}") [AFormatSlice es]
  | M_array n t vs es : linked (format_tag t) -> n = Z.of_nat (length vs) -> n < 2 ^ 32 ->
      means_elements t vs es ->
      means (RArray n t) (VList vs)
        (if listed_length n then lit "{=[?;" ++ dec_str n ++ lit "]}" else lit "{=[?]}")
        [AFormatSlice es]
  | M_comp s ts vs args : arg_types s ForwardsCompatible (repeat TFormat (length ts)) -> no_bar s ->
      means_components ts vs args ->
      means (RComp s ts) (VList vs) s args
  | M_libenum alts k s ts vs args :
      nth_error alts k = Some (s, ts) ->
      (2 <= length alts)%nat -> Z.of_nat (length alts) <= 256 -> Forall (fun st => no_bar (fst st)) alts ->
      arg_types s ForwardsCompatible (repeat TFormat (length ts)) ->
      means_components ts vs args ->
      means (RLibEnum alts) (VVar k vs) s args
  | M_debug s : utf8_valid s = true -> means RDebug (VText s) (lit "{=__internal_Debug}") [APreformatted s]
  | M_display s : utf8_valid s = true -> means RDisplay (VText s) (lit "{=__internal_Display}") [APreformatted s]
  | M_manual ws args : means_writes ws args ->
      means RManual (VWrites ws) (lit "{=__internal_FormatSequence}") [AFormatSequence args]
  | M_struct name k fs vs args : variant_ok (name, k, fs) ->
      Z.of_nat (length fs) < usize_max ->
      means_fields fs vs args ->
      means (RStruct name k fs) (VList vs) (name ++ fields_str k fs) args
  | M_enum variants j name k fs vs args :
      nth_error variants j = Some (name, k, fs) ->
      Forall variant_ok variants -> variants_ok (Z.of_nat (length variants)) ->
      Z.of_nat (length fs) < usize_max ->
      means_fields fs vs args ->
      means (REnum variants) (VVar j vs) (name ++ fields_str k fs) args
  | M_flags w n p d c x : Forall flags_name_ok [n; p; d; c] -> 0 <= x < 2 ^ (8 * Z.of_nat (width_bytes w)) ->
      means (RFlags w n p d c) (VNum x) (flags_str w n p d c) [AUxx x]
  with means_elements : rty -> list rval -> list (bytes * list arg) -> Prop :=
  | ME_nil t : means_elements t [] []
  | ME_cons t v vs f a es : means t v f a -> means_elements t vs es ->
      means_elements t (v :: vs) ((f, a) :: es)
  with means_components : list rty -> list rval -> list arg -> Prop :=
  | MC_nil : means_components [] [] []
  | MC_cons t ts v vs f a args : linked (format_tag t) -> means t v f a ->
      means_components ts vs args ->
      means_components (t :: ts) (v :: vs) (AFormat f a :: args)
  with means_fields : list field -> list rval -> list arg -> Prop :=
  | MF_nil : means_fields [] [] []
  | MF_debug n t fs s vs args : utf8_valid s = true -> linked (lit "{=__internal_Debug}") ->
      means_fields fs vs args ->
      means_fields ((n, Some ADebug2, t) :: fs) (VText s :: vs)
        (AFormat (lit "{=__internal_Debug}") [APreformatted s] :: args)
  | MF_display n t fs s vs args : utf8_valid s = true -> linked (lit "{=__internal_Display}") ->
      means_fields fs vs args ->
      means_fields ((n, Some ADisplay2, t) :: fs) (VText s :: vs)
        (AFormat (lit "{=__internal_Display}") [APreformatted s] :: args)
  | MF_native n t p fs v vs a args : as_native t = Some p -> prim_means p v a ->
      means_fields fs vs args ->
      means_fields ((n, None, t) :: fs) (v :: vs) (a :: args)
  | MF_format n t fs v vs f a args : as_native t = None -> linked (format_tag t) -> means t v f a ->
      means_fields fs vs args ->
      means_fields ((n, None, t) :: fs) (v :: vs) (AFormat f a :: args)
  with means_writes : list wcall -> list arg -> Prop :=
  | MW_nil : means_writes [] []
  | MW_write s tys avs ws a args : linked s -> arg_types s Strict tys -> means_args tys avs a ->
      means_writes ws args ->
      means_writes (SWrite s avs :: ws) (AFormat s a :: args)
  | MW_splice t ws' ws a args : strip t = RManual -> means_writes ws' a -> means_writes ws args ->
      means_writes (SDelegate t (VWrites ws') :: ws) (a ++ args)
  | MW_delegate t v f ws a args : strip t <> RManual -> delegate_panics t = false ->
      linked (format_tag t) -> no_bar (format_tag t) -> means t v f a ->
      means_writes ws args ->
      means_writes (SDelegate t v :: ws) (AFormat f a :: args)
  with means_args : list ty -> list aval -> list arg -> Prop :=
  | MA_nil : means_args [] [] []
  | MA_cons x tys av avs a args : means_arg x av a -> means_args tys avs args ->
      means_args (x :: tys) (av :: avs) (a :: args)
  with means_arg : ty -> aval -> arg -> Prop :=
  | MG_prim x p v a : prim_of_ty x = Some p -> prim_means p v a -> means_arg x (AvPrim v) a
  | MG_fmt t v f a : linked (format_tag t) -> means t v f a -> means_arg TFormat (AvFmt t v) (AFormat f a)
  | MG_slice t vs es : linked (format_tag t) -> Z.of_nat (length vs) < 2 ^ 32 -> means_elements t vs es ->
      means_arg TFormatSlice (AvSlice t vs) (AFormatSlice es)
  | MG_array n t vs es : linked (format_tag t) -> n = Z.of_nat (length vs) -> means_elements t vs es ->
      means_arg (TFormatArray n) (AvSlice t vs) (AFormatSlice es)
  | MG_debug s : utf8_valid s = true -> means_arg TDebug (AvText s) (APreformatted s)
  | MG_display s : utf8_valid s = true -> means_arg TDisplay (AvText s) (APreformatted s)
  | MG_bytes s : bytes_ok s -> Z.of_nat (length s) < 2 ^ 32 -> means_arg TU8Slice (AvBytes s) (ASlice s)
  | MG_byte_array n s : bytes_ok s -> n = Z.of_nat (length s) -> means_arg (TU8Array n) (AvBytes s) (ASlice s)
  | MG_bits lo hi w x : 0 <= lo -> lo < hi -> hi <= 128 ->
      0 <= x < 2 ^ (8 * Z.of_nat (width_bytes w)) ->
      lo / 8 < Z.of_nat (width_bytes w) -> (truncated_size lo hi <= width_bytes w)%nat ->
      means_arg (TBitField lo hi) (AvBits w x) (AUxx (byte_window lo hi x)).

  (** What a log statement at address [index] is shown as. *)
  Definition frame_means (index : Z) (timestamp_args args : list aval) (fr : frame) : Prop :=
    0 <= index < 65536 /\ f_index fr = index /\
    get_with_level tbl index = Some (f_level fr, f_format fr) /\
    (exists tys, arg_types (f_format fr) Strict tys /\ means_args tys args (f_args fr)) /\
    match t_timestamp tbl with
    | None => f_timestamp_format fr = None /\ f_timestamp_args fr = []
    | Some e => f_timestamp_format fr = Some (e_string e) /\
        exists tys, arg_types (e_string e) Strict tys /\ means_args tys timestamp_args (f_timestamp_args fr)
    end.
End Spec.

Scheme means_mut := Minimality for means Sort Prop
with means_elements_mut := Minimality for means_elements Sort Prop
with means_components_mut := Minimality for means_components Sort Prop
with means_fields_mut := Minimality for means_fields Sort Prop
with means_writes_mut := Minimality for means_writes Sort Prop
with means_args_mut := Minimality for means_args Sort Prop
with means_arg_mut := Minimality for means_arg Sort Prop.
Combined Scheme means_combined from means_mut, means_elements_mut, means_components_mut,
  means_fields_mut, means_writes_mut, means_args_mut, means_arg_mut.
