(** The text shown for a logged value, read off the value and its type: what a reader of
    the log expects to see.  No format strings of derived types, no bytes and no decoded
    arguments occur here. *)
From Verif Require Import Base Utf8 ParserModel DecoderModel Numerals EncodeModel EncodeTop DisplayModel DisplayProofs.

Definition is_debug_hint (h : option hint) : bool := match h with Some HDebug => true | _ => false end.

(** [a], [b], [c] as [open a, b, c close]. *)
Definition listing (l r : bytes) (ss : list bytes) : bytes := l ++ join_text (lit ", ") ss ++ r.

(** Fields of a struct or variant, in Rust's notation. *)
Definition fields_text (k : fkind) (names texts : list bytes) : bytes :=
  match k, texts with
  | KUnit, _ | _, [] => []
  | KNamed, _ => listing (lit " { ") (lit " }") (map2 (fun n s => n ++ lit ": " ++ s) names texts)
  | KUnnamed, _ => listing (lit "(") (lit ")") texts
  end.

Definition is_list_of (t u : rty) : Prop := t = RSlice u \/ exists n, t = RArray n u.

Definition is_u8 (t : rty) : Prop := strip t = RPrim (PU W8).

(** The hint for the inside of a nested value: the parameter's own one, else the
    surrounding one; but a surrounding [:a] prevails. *)
Definition inner_hint (own parent : option hint) : option hint :=
  if is_ascii_hint parent then parent else or_hint own parent.

(** The names of the flags that a value has, in the order of the list. *)
Inductive flags_of (x : Z) : list (bytes * Z) -> list bytes -> Prop :=
| FO_nil : flags_of x [] []
| FO_has name v fs names : contained x v -> flags_of x fs names -> flags_of x ((name, v) :: fs) (name :: names)
| FO_lacks name v fs names : ~ contained x v -> flags_of x fs names -> flags_of x ((name, v) :: fs) names.

Definition flags_text (names : list bytes) : bytes :=
  match names with [] => lit "(empty)" | _ => join_text (lit " | ") names end.

Section Text.
  Context (X : externals) (tbl : table).

  (** A primitive value logged by a parameter with hint [own] inside a value that is
      logged with hint [parent].  What [format_u128] and [format_i128] print is the
      subject of C23, C24 and C26; [format_iso8601] is that of C25. *)
  Definition leaf_text (own parent : option hint) (p : prim) (v : rval) : option bytes :=
    let h := or_hint own parent in
    match p, v with
    | PU _, VNum x | PUsize, VNum x =>
        match h with
        | Some (HIso8601 prec) => format_iso8601 (x mod 2 ^ 64) prec
        | Some HDebug => Some (format_u128 tbl x parent)
        | _ => Some (format_u128 tbl x h)
        end
    | PI w, VNum x => format_i128 x (TI w) h
    | PIsize, VNum x => format_i128 x TIsize h
    | PBool, VNum x => Some (if x =? 1 then lit "true" else lit "false")
    | PF32, VNum x => Some (x_f32 X x)
    | PF64, VNum x => Some (x_f64 X x)
    | PChar, VNum c => Some (utf8_encode c)
    | PStr, VText s | PIStr, VText s => Some (if is_debug_hint h then x_debug_str X s else s)
    | _, _ => None
    end.

  (** [says h t v s]: the value [v] of type [t], where hint [h] applies, reads [s]. *)
  Inductive says : option hint -> rty -> rval -> bytes -> Prop :=
  | T_prim h p v s : leaf_text None h p v = Some s -> says h (RPrim p) v s
  | T_ref h t v s : says h t v s -> says h (RRef t) v s
  | T_opaque h t v s : says h t v s -> says h (ROpaque t) v s
  | T_list h t u vs ss : is_list_of t u -> h <> Some HAscii \/ ~ is_u8 u ->
      says_all h u vs ss -> says h t (VList vs) (listing (lit "[") (lit "]") ss)
  | T_ascii t u x xs : is_list_of t u -> is_u8 u ->
      says (Some HAscii) t (VList (map VNum (x :: xs))) (byte_string (x :: xs))
  | T_ascii_empty t u : is_list_of t u -> is_u8 u ->
      says (Some HAscii) t (VList []) (lit "[]")
  | T_comp h f ts vs frags s : parse f ForwardsCompatible = Ok frags ->
      says_line h frags (map2 AvFmt ts vs) s -> says h (RComp f ts) (VList vs) s
  | T_libenum h alts k f ts vs frags s : nth_error alts k = Some (f, ts) ->
      parse f ForwardsCompatible = Ok frags ->
      says_line h frags (map2 AvFmt ts vs) s -> says h (RLibEnum alts) (VVar k vs) s
  | T_debug h s : says h RDebug (VText s) (if is_debug_hint h then x_debug_str X s else s)
  | T_display h s : says h RDisplay (VText s) (if is_debug_hint h then x_debug_str X s else s)
  | T_manual h ws s : says_writes h ws s -> says h RManual (VWrites ws) s
  | T_struct h name k fs vs ss : says_fields k h fs vs ss ->
      says h (RStruct name k fs) (VList vs) (name ++ fields_text k (map (fun f => fst (fst f)) fs) ss)
  | T_enum h variants j name k fs vs ss : nth_error variants j = Some (name, k, fs) ->
      says_fields k h fs vs ss ->
      says h (REnum variants) (VVar j vs) (name ++ fields_text k (map (fun f => fst (fst f)) fs) ss)
  (** Flags: their names; the number if the binary has no flags of that type. *)
  | T_flags h w n p d c x fs names : lookup_flags (MkKey n p d (Some c)) (t_bitflags tbl) = Some fs ->
      flags_of x fs names -> says h (RFlags w n p d c) (VNum x) (flags_text names)
  | T_no_flags h w n p d c x : lookup_flags (MkKey n p d (Some c)) (t_bitflags tbl) = None ->
      says h (RFlags w n p d c) (VNum x) (dec_str x)
  with says_all : option hint -> rty -> list rval -> list bytes -> Prop :=
  | TA_nil h t : says_all h t [] []
  | TA_cons h t v vs s ss : says h t v s -> says_all h t vs ss -> says_all h t (v :: vs) (s :: ss)
  (** The fields of a struct or variant of kind [k]; named fields have the hint [:?]. *)
  with says_fields : fkind -> option hint -> list field -> list rval -> list bytes -> Prop :=
  | TF_nil k h : says_fields k h [] [] []
  | TF_cons k h f fs v vs s ss : says_field (match k with KNamed => Some HDebug | _ => None end) h f v s ->
      says_fields k h fs vs ss -> says_fields k h (f :: fs) (v :: vs) (s :: ss)
  with says_field : option hint -> option hint -> field -> rval -> bytes -> Prop :=
  | TD_adapter own h n a t s :
      says_field own h (n, Some a, t) (VText s) (if is_debug_hint (inner_hint own h) then x_debug_str X s else s)
  | TD_native own h n t p v s : as_native t = Some p -> leaf_text own h p v = Some s ->
      says_field own h (n, None, t) v s
  | TD_other own h n t v s : as_native t = None -> says (inner_hint own h) t v s ->
      says_field own h (n, None, t) v s
  (** The calls made by a hand-written [format]. *)
  with says_writes : option hint -> list wcall -> bytes -> Prop :=
  | TW_nil h : says_writes h [] []
  | TW_write h f frags args ws s1 s2 : parse f Strict = Ok frags -> says_line h frags args s1 ->
      says_writes h ws s2 -> says_writes h (SWrite f args :: ws) (s1 ++ s2)
  | TW_delegate h t v ws s1 s2 : says h t v s1 -> says_writes h ws s2 ->
      says_writes h (SDelegate t v :: ws) (s1 ++ s2)
  (** A parsed format string with its arguments. *)
  with says_line : option hint -> list fragment -> list aval -> bytes -> Prop :=
  | TL_nil h args : says_line h [] args []
  | TL_literal h l frags args s : says_line h frags args s -> says_line h (FLit l :: frags) args (l ++ s)
  | TL_param h p a frags args s1 s2 : nth_error args (Z.to_nat (p_index p)) = Some a ->
      says_arg p h a s1 -> says_line h frags args s2 -> says_line h (FParam p :: frags) args (s1 ++ s2)
  (** An argument of a log statement, for the parameter [p]. *)
  with says_arg : parameter -> option hint -> aval -> bytes -> Prop :=
  | TG_prim p h q v s : prim_of_ty (p_ty p) = Some q -> leaf_text (p_hint p) h q v = Some s ->
      says_arg p h (AvPrim v) s
  | TG_format p h t v s : p_ty p = TFormat -> says (inner_hint (p_hint p) h) t v s -> says_arg p h (AvFmt t v) s
  | TG_list p h t vs s : p_ty p = TFormatSlice \/ (exists n, p_ty p = TFormatArray n) ->
      says (or_hint (p_hint p) h) (RSlice t) (VList vs) s -> says_arg p h (AvSlice t vs) s
  | TG_text p h s : p_ty p = TDebug \/ p_ty p = TDisplay ->
      says_arg p h (AvText s) (if is_debug_hint (or_hint (p_hint p) h) then x_debug_str X s else s)
  | TG_bytes p h s : p_ty p = TU8Slice \/ (exists n, p_ty p = TU8Array n) ->
      says_arg p h (AvBytes s) (format_bytes X tbl s (or_hint (p_hint p) h))
  | TG_bits p h a b w x : p_ty p = TBitField a b ->
      says_arg p h (AvBits w x)
        (if is_ascii_hint (or_hint (p_hint p) h)
         then byte_string (rev (le_bytes (Z.to_nat ((b - a + 7) / 8)) (bit_slice a b x)))
         else format_u128 tbl (bit_slice a b x) (or_hint (p_hint p) h)).
End Text.
