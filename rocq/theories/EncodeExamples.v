(** Concrete programs for the examples of [Prop_Encode.v], and counterexamples. *)
From Verif Require Import Base Utf8 RzcobsModel ParserModel ParserProofs DecoderModel DecoderProofs
  DecoderPanic StreamModel StreamProofs PrepareProofs Numerals EncodeModel EncodeSpec EncodeProofs
  EncodeTop DecoderExamples.

(** The address of a string in a table. *)
Fixpoint find_addr (es : list (Z * entry)) (s : bytes) : Z :=
  match es with
  | [] => 0
  | (i, e) :: es' => if beq (e_string e) s then i else find_addr es' s
  end.

Definition linkedb (addr : bytes -> Z) (tbl : table) (s : bytes) : bool :=
  (0 <? addr s) && (addr s <? 65536) &&
  match get_without_level tbl (addr s) with Some s' => beq s' s | None => false end.

Lemma linkedb_ok : forall addr tbl s, linkedb addr tbl s = true -> linked addr tbl s.
Proof.
  unfold linkedb, linked. intros addr tbl s H. apply andb_true_iff in H as [H H2].
  split; [lia|]. destruct (get_without_level tbl (addr s)) as [s'|]; [|discriminate].
  apply beq_true in H2 as ->. reflexivity.
Qed.

Lemma arg_types_check : forall s m tys frags, parse s m = Ok frags ->
  map p_ty (prepare_params (params_of frags)) = tys -> arg_types s m tys.
Proof. intros s m tys frags H <-. eapply arg_types_exist; eauto. Qed.

(** [enum E { A, B(i32), C { x: bool } }] *)
Definition ex_enum : rty := REnum
  [(lit "A", KUnit, []); (lit "B", KUnnamed, [(lit "0", None, RPrim (PI W32))]);
   (lit "C", KNamed, [(lit "x", None, RRef (RPrim PBool))])].

(** [struct S { a: u8, b: Option<&u16>, #[defmt(Display2Format)] c: Foo, d: [E; 3], e: Manual }] *)
Definition ex_struct : rty := RStruct (lit "S") KNamed
  [(lit "a", None, RPrim (PU W8)); (lit "b", None, option_ty (RRef (RPrim (PU W16))));
   (lit "c", Some ADisplay2, ROpaque RManual); (lit "d", None, RArray 3 ex_enum);
   (lit "e", None, RManual); (lit "f", None, RComp (lit "({=?}, {=?})") [RPrim PF64; RSlice (RPrim PChar)])].

Definition ex_format : bytes :=
  lit "{0=?} {1=4..9} {1=0..4:x} {2=[?]} {3=str:a} {4=__internal_Debug} {5=[u8]} {0} {6=istr}".

Definition ex_write : bytes := lit "w {=usize} {=u8}".

Definition ex_prog : table := MkTable (Some (ent GTimestamp "{=u64:us}"))
  (combine (map (fun k => 3 * Z.of_nat k) (seq 1 20))
    ([MkEntry GWarn ex_format []; MkEntry GWrite ex_write []; MkEntry GPrim (lit "hello") []] ++
     map (fun s => MkEntry GDerived s [])
      [format_tag ex_struct; format_tag ex_enum; format_tag (option_ty RManual); lit "{=u16}";
       display_tag; debug_tag; sequence_tag; lit "{=[?;3]}"; lit "({=?}, {=?})"; lit "{=f64}";
       lit "{=[?]}"; lit "{=char}"; lit "Err({=?})|Ok({=?})"; lit "{=i8}"])) [] EncRzcobs.

Definition ex_addr : bytes -> Z := find_addr (t_entries ex_prog).

Definition ex_manual_value : rval :=
  VWrites [SWrite ex_write [AvPrim (VNum 70000); AvPrim (VNum 0)];
           SDelegate (RPrim (PI W8)) (VNum (-3));
           SDelegate (RRef RManual) (VWrites [SWrite ex_write [AvPrim (VNum 0); AvPrim (VNum 255)]])].

Definition ex_value : rval :=
  VList [VNum 200; VVar 1 [VNum 4660]; VText (lit "dis"); VList [VVar 2 [VNum 1]; VVar 0 []; VVar 1 [VNum (-7)]];
         ex_manual_value; VList [VNum 4611686018427387904; VList [VNum 65; VNum 128512]]].

Definition ex_args : list aval :=
  [AvFmt ex_struct ex_value; AvBits W16 47806;
   AvSlice (result_ty (RPrim (PU W16)) ex_enum) [VVar 0 [VVar 0 []]; VVar 1 [VNum 9]];
   AvPrim (VText (lit "text")); AvText (lit "dbg"); AvBytes [0; 255; 1]; AvPrim (VText (lit "hello"))].

Definition ex_shown : list arg :=
  let w a b := AFormat ex_write [AUxx a; AUxx b] in
  [AFormat (lit "S {{ a: {=u8:?}, b: {=?:?}, c: {=?:?}, d: {=?:?}, e: {=?:?}, f: {=?:?} }}")
     [AUxx 200; AFormat (lit "Some({=?})") [AFormat (lit "{=u16}") [AUxx 4660]];
      AFormat (lit "{=__internal_Display}") [APreformatted (lit "dis")];
      AFormat (lit "{=[?;3]}") [AFormatSlice
        [(lit "C {{ x: {=bool:?} }}", [ABool true]); (lit "A", []); (lit "B({=i32})", [AIxx (-7)])]];
      AFormat (lit "{=__internal_FormatSequence}")
        [AFormatSequence [w 70000 0; AFormat (lit "{=i8}") [AIxx (-3)]; w 0 255]];
      AFormat (lit "({=?}, {=?})") [AFormat (lit "{=f64}") [AF64 4611686018427387904];
        AFormat (lit "{=[?]}") [AFormatSlice [(lit "{=char}", [AChar 65]); (lit "{=char}", [AChar 128512])]]]];
   AUxx 47806;
   AFormatSlice [(lit "Err({=?})", [AFormat (lit "A") []]); (lit "Ok({=?})", [AFormat (lit "{=u16}") [AUxx 9]])];
   AStr (lit "text"); APreformatted (lit "dbg"); ASlice [0; 255; 1]; AIStr (lit "hello")].

Definition ex_frame : frame :=
  MkFrame (Some LWarn) 3 (Some (lit "{=u64:us}")) [AUxx 5000000000] ex_format ex_shown.

Lemma decode_ex_frame :
  let b := encode_frame ex_addr 3 (Some (lit "{=u64:us}")) [AvPrim (VNum 5000000000)] ex_format ex_args in
  decode ex_prog (b ++ [9; 9]) = Ok (ex_frame, length b).
Proof. vm_compute. reflexivity. Qed.

Ltac linked_tac := apply linkedb_ok; vm_compute; reflexivity.
Ltac types_tac := eapply arg_types_check; [vm_compute; reflexivity|vm_compute; reflexivity].
Ltac ident_tac := repeat split; let H := fresh in intro H; vm_compute in H; repeat (destruct H as [H|H]; [discriminate|]); exact H.
Ltac ok_tac :=
  repeat match goal with
  | |- Forall _ _ => constructor
  | |- variant_ok _ => cbn [variant_ok]; split; [discriminate|]; split; [ident_tac|]; split; [|try (discriminate || reflexivity)]
  | |- field_ok _ => cbn [field_ok]; split; [ident_tac|intros X; try reflexivity; now contradiction X]
  end.

Lemma ex_frame_means : frame_means ex_addr ex_prog 3 [AvPrim (VNum 5000000000)] ex_args ex_frame.
Proof.
  split; [lia|]. split; [reflexivity|]. split; [vm_compute; reflexivity|]. split.
  - eexists. split; [types_tac|].
    assert (E : forall j vs a name k fs, nth_error (match ex_enum with REnum l => l | _ => [] end) j = Some (name, k, fs) ->
      means_fields ex_addr ex_prog fs vs a -> Z.of_nat (length fs) < usize_max ->
      means ex_addr ex_prog ex_enum (VVar j vs) (name ++ fields_str k fs) a).
    { intros j vs a name k fs N M L. eapply M_enum; eauto; [ok_tac|].
      repeat split; vm_compute; discriminate || reflexivity. }
    assert (W : forall x y, 0 <= x < 2 ^ 32 -> 0 <= y < 256 ->
      means_args ex_addr ex_prog [TUsize; TU W8] [AvPrim (VNum x); AvPrim (VNum y)] [AUxx x; AUxx y]).
    { intros x y Hx Hy. repeat (apply MA_cons || apply MA_nil); (eapply MG_prim; [reflexivity|]); constructor; auto. }
    assert (U : forall w x, 0 <= x < 2 ^ (8 * Z.of_nat (width_bytes w)) ->
      means ex_addr ex_prog (RPrim (PU w)) (VNum x) (lit "{=" ++ prim_name (PU w) ++ lit "}") [AUxx x]).
    { intros w x H. apply M_prim. constructor. exact H. }
    unfold ex_args, ex_frame, ex_shown. cbn [f_args].
    apply MA_cons.
    { (* the struct *)
      apply MG_fmt; [linked_tac|].
      apply (M_struct _ _ (lit "S") KNamed); [ok_tac|vm_compute; reflexivity|].
      unfold ex_value.
      eapply MF_native; [reflexivity|constructor; vm_compute; split; discriminate || reflexivity|].
      eapply MF_format; [reflexivity|linked_tac| |].
      { eapply (M_libenum _ _ _ 1); [reflexivity|cbn; lia|cbn; lia| |types_tac|].
        - ok_tac; ident_tac.
        - eapply MC_cons; [linked_tac| |apply MC_nil]. apply M_ref, (U W16). vm_compute. split; discriminate || reflexivity. }
      eapply MF_display; [reflexivity|linked_tac|].
      eapply MF_format; [reflexivity|linked_tac| |].
      { apply (M_array _ _ 3); [linked_tac|reflexivity|lia|].
        repeat (apply ME_cons || apply ME_nil).
        - apply (E 2%nat _ _ (lit "C") KNamed [(lit "x", None, RRef (RPrim PBool))]); [reflexivity| |vm_compute; reflexivity].
          eapply MF_native; [reflexivity| |constructor]. apply (PM_bool _ _ true).
        - apply (E 0%nat _ _ (lit "A") KUnit []); [reflexivity|constructor|vm_compute; reflexivity].
        - apply (E 1%nat _ _ (lit "B") KUnnamed [(lit "0", None, RPrim (PI W32))]); [reflexivity| |vm_compute; reflexivity].
          eapply MF_native; [reflexivity| |constructor]. constructor. cbn. lia. }
      eapply MF_format; [reflexivity|linked_tac| |].
      { apply M_manual. unfold ex_manual_value.
        eapply MW_write; [linked_tac|types_tac|apply W; lia|].
        eapply MW_delegate; [discriminate|reflexivity|linked_tac|ident_tac| |].
        { apply (M_prim _ _ (PI W8)). constructor. cbn. lia. }
        rewrite <- (app_nil_r [AFormat ex_write [AUxx 0; AUxx 255]]).
        eapply MW_splice; [reflexivity| |constructor].
        eapply MW_write; [linked_tac|types_tac|apply W; lia|constructor]. }
      eapply MF_format; [reflexivity|linked_tac| |constructor].
      apply M_comp; [types_tac|ident_tac|].
      eapply MC_cons; [linked_tac| |].
      { apply (M_prim _ _ PF64). constructor. lia. }
      eapply MC_cons; [linked_tac| |constructor].
      apply M_slice; [linked_tac|cbn; lia|].
      repeat (apply ME_cons || apply ME_nil); apply (M_prim _ _ PChar); constructor; reflexivity. }
    apply MA_cons.
    { change 47806 with (byte_window 0 9 47806) at 2. apply MG_bits; cbn; lia. }
    apply MA_cons.
    { apply MG_slice; [linked_tac|cbn; lia|].
      apply ME_cons; [|apply ME_cons; [|apply ME_nil]].
      - eapply (M_libenum _ _ _ 0); [reflexivity|cbn; lia|cbn; lia| |types_tac|].
        + ok_tac; ident_tac.
        + eapply MC_cons; [linked_tac| |apply MC_nil].
          apply (E 0%nat _ _ (lit "A") KUnit []); [reflexivity|constructor|vm_compute; reflexivity].
      - eapply (M_libenum _ _ _ 1); [reflexivity|cbn; lia|cbn; lia| |types_tac|].
        + ok_tac; ident_tac.
        + eapply MC_cons; [linked_tac| |apply MC_nil]. apply (U W16). cbn. lia. }
    apply MA_cons. { eapply MG_prim; [reflexivity|]. constructor; [reflexivity|cbn; lia]. }
    apply MA_cons. { constructor. reflexivity. }
    apply MA_cons. { constructor; [repeat constructor; lia|cbn; lia]. }
    apply MA_cons; [|apply MA_nil]. eapply MG_prim; [reflexivity|]. constructor. linked_tac.
  - cbn [t_timestamp ex_prog]. split; [reflexivity|]. eexists. split; [types_tac|].
    apply MA_cons; [|apply MA_nil]. eapply MG_prim; [reflexivity|]. constructor. cbn. lia.
Qed.

(** Two such frames, written in pieces, with [ex_prog] as the host's table. *)
Lemma ex_prog_safe : table_safe ex_prog.
Proof. apply table_safe_b_ok. vm_compute. reflexivity. Qed.

(* ------------------------------------------------------------------ *)
(** * Counterexamples *)

(** An enum with 256 variants V0 .. V255. *)
Definition big_variants : list variant :=
  map (fun k => (lit "V" ++ dec_str (Z.of_nat k), KUnit, [])) (seq 0 256).

Definition big_prog : table := MkTable None
  [(1, ent GInfo "{=?} {=u8}"); (2, MkEntry GDerived (enum_str big_variants) [])] [] EncRzcobs.

(** [info!("{=?} {=u8}", V3, 7)] is shown as "V3 0": the second discriminant byte is
    taken for the next argument. *)
Lemma enum_256 :
  length big_variants = 256%nat /\
  let addr := find_addr (t_entries big_prog) in
  exists fr n,
    decode big_prog (encode_frame addr 1 None [] (lit "{=?} {=u8}")
      [AvFmt (REnum big_variants) (VVar 3 []); AvPrim (VNum 7)]) = Ok (fr, n) /\
    f_args fr = [AFormat (lit "V3") []; AUxx 0].
Proof. split; [reflexivity|]. vm_compute. eexists. eexists. split; reflexivity. Qed.

(** [struct S { #[defmt(Debug2Format)] x: u8 }] *)
Definition adapter_struct : rty :=
  RStruct (lit "S") KNamed [(lit "x", Some ADebug2, RPrim (PU W8))].

Definition adapter_prog : table := MkTable None
  [(1, ent GInfo "{=?}"); (2, MkEntry GDerived (format_tag adapter_struct) []);
   (259, MkEntry GDerived debug_tag [])] [] EncRzcobs.

(** [S { x: 5 }] is shown as "S { x: 3 }", 3 being part of an address, and with the
    raw encoding the rest of the value would be taken for the next frame. *)
Lemma adapter_native :
  let addr := find_addr (t_entries adapter_prog) in
  let b := encode_frame addr 1 None [] (lit "{=?}") [AvFmt adapter_struct (VList [VText (lit "5")])] in
  exists fr n, decode adapter_prog b = Ok (fr, n) /\ (n < length b)%nat /\
    f_args fr = [AFormat (lit "S {{ x: {=u8:?} }}") [AUxx 3]].
Proof. vm_compute. eexists. eexists. split; [reflexivity|]. split; [lia|reflexivity]. Qed.

Lemma means_fields_app : forall addr tbl fs1 vs1 a1 fs2 vs2 a2,
  means_fields addr tbl fs1 vs1 a1 -> means_fields addr tbl fs2 vs2 a2 ->
  means_fields addr tbl (fs1 ++ fs2) (vs1 ++ vs2) (a1 ++ a2).
Proof.
  intros addr tbl fs1 vs1 a1 fs2 vs2 a2 H1 H2. induction H1; cbn [app]; auto.
  - apply MF_debug; auto.
  - apply MF_display; auto.
  - eapply MF_native; eauto.
  - eapply MF_format; eauto.
Qed.

Definition adapter_tag (a : adapter) : bytes :=
  match a with ADebug2 => lit "{=__internal_Debug}" | ADisplay2 => lit "{=__internal_Display}" end.

Lemma adapter_field : forall addr tbl name k n ad t s fs1 vs1 a1 fs2 vs2 a2,
  let st := RStruct name k (fs1 ++ (n, Some ad, t) :: fs2) in
  variant_ok (name, k, fs1 ++ (n, Some ad, t) :: fs2) ->
  Z.of_nat (length (fs1 ++ (n, Some ad, t) :: fs2)) < usize_max ->
  linked addr tbl (format_tag st) -> linked addr tbl (adapter_tag ad) ->
  means_fields addr tbl fs1 vs1 a1 -> means_fields addr tbl fs2 vs2 a2 -> utf8_valid s = true ->
  exists k', forall fuel, (k' <= fuel)%nat -> forall rest,
    decode_ty tbl (decode_format tbl fuel) (S fuel) TFormat
      (put_istr addr (format_tag st) ++ format_data addr st (VList (vs1 ++ VText s :: vs2)) ++ rest)
    = Ok (AFormat (format_tag st) (a1 ++ AFormat (adapter_tag ad) [APreformatted s] :: a2), rest).
Proof.
  intros addr tbl name k n ad t s fs1 vs1 a1 fs2 vs2 a2 st V L HL HA M1 M2 U.
  apply value_round_trip; auto. apply M_struct; auto. apply means_fields_app; auto.
  destruct ad; [apply MF_debug|apply MF_display]; auto.
Qed.

(** A hand-written [format] that calls [Some(5u8).format(f)]. *)
Definition delegate_prog : table := MkTable None
  [(1, ent GInfo "{=?}"); (2, MkEntry GDerived sequence_tag []); (3, ent GDerived "None|Some({=?})");
   (4, ent GPrim "{=u8}")] [] EncRzcobs.

Lemma delegate_option :
  let addr := find_addr (t_entries delegate_prog) in
  decode delegate_prog (encode_frame addr 1 None [] (lit "{=?}")
    [AvFmt RManual (VWrites [SDelegate (option_ty (RPrim (PU W8))) (VVar 1 [VNum 5])])]) = Err Malformed.
Proof. vm_compute. reflexivity. Qed.

(** [S { a: 1, #[defmt(Debug2Format)] b: T }] for the positive example. *)
Definition adapter_fields : list field := [(lit "a", None, RPrim (PU W8)); (lit "b", Some ADebug2, ROpaque RManual)].
Definition adapter_ok_prog : table := MkTable None
  [(1, ent GInfo "{=?}"); (2, MkEntry GDerived (format_tag (RStruct (lit "S") KNamed adapter_fields)) []);
   (259, MkEntry GDerived debug_tag [])] [] EncRzcobs.

Lemma adapter_ok :
  let addr := find_addr (t_entries adapter_ok_prog) in
  let b := encode_frame addr 1 None [] (lit "{=?}")
             [AvFmt (RStruct (lit "S") KNamed adapter_fields) (VList [VNum 1; VText (lit "dbg")])] in
  exists fr, decode adapter_ok_prog b = Ok (fr, length b) /\
    f_args fr = [AFormat (lit "S {{ a: {=u8:?}, b: {=?:?} }}")
      [AUxx 1; AFormat (lit "{=__internal_Debug}") [APreformatted (lit "dbg")]]].
Proof. vm_compute. eexists. split; reflexivity. Qed.

Lemma some_arg_types : forall s m frags, parse s m = Ok frags -> exists tys, arg_types s m tys.
Proof. intros s m frags H. eexists. eapply arg_types_exist; eauto. Qed.

Lemma enum_round_trip : forall addr tbl variants j name k fs vs args,
  nth_error variants j = Some (name, k, fs) ->
  Forall variant_ok variants ->
  (let n := Z.of_nat (length variants) in n <> 256 /\ n <> 65536 /\ n <> 2 ^ 32 /\ n < 2 ^ 64) ->
  Z.of_nat (length fs) < usize_max ->
  means_fields addr tbl fs vs args ->
  linked addr tbl (format_tag (REnum variants)) ->
  exists k', forall fuel, (k' <= fuel)%nat -> forall rest,
    decode_ty tbl (decode_format tbl fuel) (S fuel) TFormat
      (put_istr addr (format_tag (REnum variants)) ++ format_data addr (REnum variants) (VVar j vs) ++ rest)
    = Ok (AFormat (name ++ fields_str k fs) args, rest).
Proof. intros. apply value_round_trip; auto. eapply M_enum; eauto. Qed.

Lemma enum_300 : exists variants : list variant, Z.of_nat (length variants) = 300 /\
  Forall variant_ok variants /\ discriminant_bytes 300 = 2%nat /\ discriminant_width 299 = Some 2%nat.
Proof.
  exists (map (fun k => (lit "V", KUnnamed, [(lit "0", None, RPrim PUsize)])) (seq 0 300)).
  split; [reflexivity|]. split; [|split; reflexivity].
  apply Forall_forall. intros v H. apply in_map_iff in H as (k & <- & _). ok_tac.
Qed.

Lemma repeated_types :
  arg_types (lit "{1=0..4} {0=u8} {1=10..12} {0=u8:x} {0=u8}") Strict [TU W8; TBitField 0 12] /\
  arg_types (lit "{=u8}{=0..12}") Strict [TU W8; TBitField 0 12].
Proof. split; types_tac. Qed.

Lemma delegate_round_trip : forall addr tbl t v f a,
  strip t <> RManual -> delegate_panics t = false -> no_bar (format_tag t) ->
  linked addr tbl (format_tag t) -> linked addr tbl (format_tag RManual) -> means addr tbl t v f a ->
  exists k, forall fuel, (k <= fuel)%nat -> forall rest,
    decode_ty tbl (decode_format tbl fuel) (S fuel) TFormat
      (put_istr addr (format_tag RManual) ++ format_data addr RManual (VWrites [SDelegate t v]) ++ rest)
    = Ok (AFormat (lit "{=__internal_FormatSequence}") [AFormatSequence [AFormat f a]], rest).
Proof.
  intros addr tbl t v f a S P B L LM M. apply value_round_trip; auto.
  apply M_manual. apply MW_delegate; auto. constructor.
Qed.

Lemma ex_option : linked ex_addr ex_prog (format_tag (option_ty (RSlice (RPrim PChar)))) /\
  means ex_addr ex_prog (option_ty (RSlice (RPrim PChar))) (VVar 1 [VList [VNum 65; VNum 66]])
    (lit "Some({=?})") [AFormat (lit "{=[?]}") [AFormatSlice [(lit "{=char}", [AChar 65]); (lit "{=char}", [AChar 66])]]].
Proof.
  split; [linked_tac|].
  eapply (M_libenum _ _ _ 1); [reflexivity|cbn; lia|cbn; lia| |types_tac|].
  - ok_tac; ident_tac.
  - eapply MC_cons; [linked_tac| |apply MC_nil]. apply M_slice; [linked_tac|cbn; lia|].
    repeat (apply ME_cons || apply ME_nil); apply (M_prim _ _ PChar); constructor; reflexivity.
Qed.
