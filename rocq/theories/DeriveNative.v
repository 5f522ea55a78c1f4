(** Adapter attributes on fields of native types: what the host shows (C42). *)
From Verif Require Import Base Utf8 ParserModel RzcobsModel DecoderModel DecoderProofs EncodeModel EncodeSpec DeriveProofs EncodeProofs EncodeTop EncodeExamples DecoderUnsafe.

Lemma format_fuel : forall tbl s x, arg_types s ForwardsCompatible [x] -> forall fuel b,
  decode_format tbl (S fuel) s b = rbind (decode_ty tbl (decode_format tbl fuel) (S fuel) x) (fun a => ret [a]) b.
Proof.
  intros tbl s x H fuel b. destruct (arg_types_prepare (fun _ => 0) _ _ _ H) as (frags & _ & E1 & E2). cbn [decode_format]. rewrite E1.
  rewrite (decode_params_types tbl _ _ _ [MkParameter 0 x None] E2). cbn [decode_params p_ty]. unfold rbind, bind, ret. cbn [fst snd].
  destruct (decode_ty _ _ _ _ _) as [[a r]| | |]; reflexivity.
Qed.

(** The format string has the native specifier, the data is a tag and a text: the host reads
    the native value out of the bytes of the tag and the text. *)
Theorem native_misread : forall addr tbl name k n ad t p s, variant_ok (name, k, [(n, None, t)]) -> k <> KUnit -> as_native t = Some p ->
  let st := RStruct name k [(n, Some ad, t)] in linked addr tbl (format_tag st) ->
  forall fuel rest,
  decode_ty tbl (decode_format tbl (S fuel)) (S (S fuel)) TFormat
    (put_istr addr (format_tag st) ++ format_data addr st (VList [VText s]) ++ rest) =
  match decode_ty tbl (decode_format tbl fuel) (S fuel) (ty_of_prim p) (put_istr addr (adapter_tag ad) ++ s ++ 255 :: rest) with
  | Ok (a, r) => Ok (AFormat (format_tag st) [a], r)
  | Err e => Err e
  | Panic => Panic
  | NoFuel => NoFuel
  end.
Proof.
  intros addr tbl name k n ad t p s V K N st L fuel rest. destruct L as [A G].
  assert (D : format_data addr st (VList [VText s]) = put_istr addr (adapter_tag ad) ++ s ++ [255]).
  { unfold st. cbn [format_data strip map2 concat]. destruct ad; cbn [adapter_tag]; rewrite app_nil_r; reflexivity. }
  assert (T : arg_types (format_tag st) ForwardsCompatible [ty_of_prim p]).
  { pose proof (variant_arg_types name k [(n, None, t)] V ltac:(cbn [length]; unfold usize_max; lia)) as T.
    cbn [map field_type] in T. unfold field_ty in T. rewrite N in T. exact T. }
  assert (B : has_bar (format_tag st) = false).
  { pose proof (variant_nobar _ V) as B. destruct (has_bar (format_tag st)) eqn:E; [|reflexivity]. exfalso. apply B.
    unfold has_bar in E. apply existsb_exists in E as (c & I & E). apply Z.eqb_eq in E. subst c. exact I. }
  rewrite D. cbn [decode_ty]. unfold get_format. rewrite <- !app_assoc. cbn [app].
  erewrite rbind_ok; [|erewrite rbind_ok by (apply read_u_le; change (256 ^ Z.of_nat 2) with 65536; lia); rewrite G; reflexivity].
  rewrite B. erewrite rbind_ok by reflexivity. unfold rbind at 1. rewrite (format_fuel tbl _ _ T). unfold rbind, bind, ret. cbn [fst snd].
  destruct (decode_ty _ _ _ _ _) as [[a r]| | |]; reflexivity.
Qed.

(** For an unsigned integer no wider than 16 bits it does not even depend on the text. *)
Theorem native_misread_u8 : forall addr tbl name k n ad t s, variant_ok (name, k, [(n, None, t)]) -> k <> KUnit -> as_native t = Some (PU W8) ->
  let st := RStruct name k [(n, Some ad, t)] in linked addr tbl (format_tag st) ->
  forall fuel rest,
  decode_ty tbl (decode_format tbl (S fuel)) (S (S fuel)) TFormat
    (put_istr addr (format_tag st) ++ format_data addr st (VList [VText s]) ++ rest) =
  Ok (AFormat (format_tag st) [AUxx (addr (adapter_tag ad) mod 256)], (addr (adapter_tag ad) / 256) mod 256 :: s ++ 255 :: rest).
Proof.
  intros addr tbl name k n ad t s V K N st L fuel rest. unfold st. rewrite (native_misread addr tbl name k n ad t (PU W8) s V K N L).
  cbn [ty_of_prim decode_ty width_bytes]. unfold put_istr. cbn [le_bytes app].
  assert (R : forall b l, read_u 1 (b :: l) = Ok (b, l)).
  { intros b l. unfold read_u, rbind, read_bytes. cbn [length].
    replace (Z.of_nat 1 <=? _) with true by (symmetry; apply Z.leb_le; lia).
    change (Z.to_nat _) with 1%nat. unfold bind, ret.
    cbn [firstn skipn fst snd le_value]. do 2 f_equal. lia. }
  erewrite rbind_ok by apply R. reflexivity.
Qed.

(** Inside a hand-written format the host never selects an alternative: whatever it makes of
    the value, it shows it with the whole string of its type. *)
Theorem delegate_whole : forall addr tbl t v, strip t <> RManual -> linked addr tbl (format_tag t) -> linked addr tbl (format_tag RManual) ->
  forall fuel rest a r,
  decode_ty tbl (decode_format tbl (S fuel)) (S (S fuel)) TFormat
    (put_istr addr (format_tag RManual) ++ format_data addr RManual (VWrites [SDelegate t v]) ++ rest) = Ok (a, r) ->
  exists args more, a = AFormat sequence_tag [AFormatSequence (AFormat (format_tag t) args :: more)].
Proof.
  intros addr tbl t v M [A G] [AS GS] fuel rest a r.
  assert (D : format_data addr RManual (VWrites [SDelegate t v]) = put_istr addr (format_tag t) ++ format_data addr t v ++ le_bytes 2 0).
  { cbn [format_data strip map write_call concat]. destruct (strip t) eqn:E; try congruence; destruct v; rewrite app_nil_r, <- app_assoc; reflexivity. }
  assert (T : arg_types sequence_tag ForwardsCompatible [TFormatSequence]).
  { exact (single_arg_types ForwardsCompatible TFormatSequence Logic.I eq_refl). }
  rewrite D. cbn [decode_ty]. unfold get_format. change (format_tag RManual) with sequence_tag in *.
  erewrite rbind_ok; [|erewrite rbind_ok by (apply read_u_le; change (256 ^ Z.of_nat 2) with 65536; lia); rewrite GS; reflexivity].
  change (has_bar sequence_tag) with false. cbn iota. erewrite rbind_ok by reflexivity. unfold rbind at 1. rewrite (format_fuel tbl _ _ T).
  cbn [decode_ty decode_sequence]. rewrite <- !app_assoc. unfold put_istr at 1.
  unfold rbind at 1. unfold rbind at 1. unfold rbind at 1. rewrite read_u_le by (change (256 ^ Z.of_nat 2) with 65536; lia).
  cbn [bind fst snd]. replace (addr (format_tag t) =? 0) with false by (symmetry; apply Z.eqb_neq; lia). rewrite G.
  cbn [lift_option]. unfold rbind, ret. cbn [bind fst snd].
  destruct (decode_format tbl fuel (format_tag t) _) as [[args q]| | |]; cbn [bind fst snd]; try discriminate.
  destruct (decode_sequence _ _ _ q) as [[more q']| | |]; cbn [bind fst snd]; try discriminate.
  intros H. inversion H. exists args, more. reflexivity.
Qed.
