(** Concrete displays and counterexamples for [Prop_Display.v]; bitfields end to end. *)
From Verif Require Import Base Utf8 RzcobsModel ParserModel ParserProofs ParserMore FormatSpec DecoderModel DecoderProofs PrepareProofs Numerals
  EncodeModel EncodeSpec EncodeProofs DeriveProofs EncodeTop DecoderExamples EncodeExamples DisplayModel DisplayProofs DisplayTotal
  DisplayLayout.

(** Stand-ins for the functions from outside the repository. *)
Definition X0 : externals :=
  MkExternals (fun x => lit "f" ++ dec_str x) (fun x => lit "f" ++ dec_str x)
    (fun s => [34] ++ s ++ [34]) (fun s => lit "cbor") (fun _ s => s).

(** Means of a bitfield argument: bits [a..b] of the logged value. *)
Lemma means_args_nth : forall addr tbl tys avs args i av, means_args addr tbl tys avs args -> nth_error avs i = Some av ->
  exists t a, nth_error tys i = Some t /\ nth_error args i = Some a /\ means_arg addr tbl t av a.
Proof.
  intros addr tbl tys avs args i av H. revert i. induction H as [|x tys av' avs a args H1 H2 IH]; intros [|i] N; try discriminate.
  - injection N as ->. exists x, a. auto.
  - exact (IH i N).
Qed.

Theorem bits_end_to_end : forall X addr tbl index ts_args args fr frags p a b w x,
  frame_means addr tbl index ts_args args fr ->
  parse (f_format fr) Strict = Ok frags -> In (FParam p) frags -> p_ty p = TBitField a b ->
  nth_error args (Z.to_nat (p_index p)) = Some (AvBits w x) ->
  exists shown, nth_error (f_args fr) (Z.to_nat (p_index p)) = Some shown /\
    show_arg X tbl shown p None =
    Some (if is_ascii_hint (p_hint p)
          then byte_string (rev (le_bytes (Z.to_nat ((b - a + 7) / 8)) (bit_slice a b x)))
          else format_u128 tbl (bit_slice a b x) (p_hint p)).
Proof.
  intros X addr tbl index ts_args args fr frags p a b w x (_ & _ & _ & (tys & (frags' & E' & R & W) & M) & _) E I T N.
  rewrite E in E'. injection E' as <-.
  destruct (means_args_nth _ _ _ _ _ _ _ M N) as (t & sh & Nt & Ns & Ma).
  exists sh. split; auto. specialize (W _ _ Nt).
  assert (Hp : In p (frag_parameters frags)).
  { rewrite frag_parameters_frag, <- params_of_frag. now apply params_of_in. }
  destruct (parse_parsed_ok _ _ _ E) as (n & PO). rewrite <- frag_parameters_frag in PO.
  pose proof (po_range _ _ PO p Hp) as Ri. rewrite Z2Nat.id in W by lia.
  inversion Ma; subst.
  - destruct W as [(B & _)|(lo' & hi' & Y & (_ & _ & C))]; [discriminate|]. injection Y as <- <-.
    destruct (C p a b Hp eq_refl T) as [C1 C2].
    pose proof (po_valid _ _ PO p Hp) as V. rewrite T in V. cbn [ty_valid] in V.
    destruct p as [i pt h]. cbn [p_ty p_hint p_index] in *. subst pt.
    rewrite (bits_shown X tbl lo hi a b x i h None) by (auto; lia).
    destruct h; reflexivity.
Qed.

Theorem bits_logged : forall X addr tbl index ts_args args fr frags p a b w x rest,
  frame_means addr tbl index ts_args args fr ->
  parse (f_format fr) Strict = Ok frags -> In (FParam p) frags -> p_ty p = TBitField a b ->
  nth_error args (Z.to_nat (p_index p)) = Some (AvBits w x) ->
  let bytes := encode_frame addr index (option_map e_string (t_timestamp tbl)) ts_args (f_format fr) args in
  exists shown, decode tbl (bytes ++ rest) = Ok (fr, length bytes) /\
    nth_error (f_args fr) (Z.to_nat (p_index p)) = Some shown /\
    show_arg X tbl shown p None =
    Some (if is_ascii_hint (p_hint p)
          then byte_string (rev (le_bytes (Z.to_nat ((b - a + 7) / 8)) (bit_slice a b x)))
          else format_u128 tbl (bit_slice a b x) (p_hint p)).
Proof.
  intros X addr tbl index ts_args args fr frags p a b w x rest M P I T N. cbv zeta.
  destruct (bits_end_to_end X addr tbl index ts_args args fr frags p a b w x M P I T N) as (shown & H1 & H2).
  exists shown. split; [apply decode_frame; exact M|auto].
Qed.

(* ------------------------------------------------------------------ *)
(** * Examples *)

Definition shown (tbl : table) (fr : frame) : text := display_frame X0 tbl false fr.

Lemma ex_frame_shown : shown ex_prog ex_frame = Some (lit
  "5000.000000 WARN S { a: 200, b: Some(4660), c: ""dis"", d: [C { x: true }, A, B(-7)], e: w 70000 0-3w 0 255, f: (f4611686018427387904, [A, " ++
  utf8_encode 128512 ++ lit "]) } 11 e [Err(A), Ok(9)] text dbg [0, 255, 1] S { a: 200, b: Some(4660), c: ""dis"", d: [C { x: true }, A, B(-7)], e: w 70000 0-3w 0 255, f: (f4611686018427387904, [A, " ++
  utf8_encode 128512 ++ lit "]) } hello").
Proof. vm_compute. reflexivity. Qed.

Definition one (s : string) : table := MkTable None [(1, ent GInfo s)] [] EncRzcobs.

(** [info!("{=isize:x}", 10)] *)
Lemma isize_hex_frame : exists fr n,
  decode (one "{=isize:x}") (encode_frame (fun _ => 0) 1 None [] (lit "{=isize:x}") [AvPrim (VNum 10)]) = Ok (fr, n) /\
  forall X, display_message X (one "{=isize:x}") fr = None.
Proof. eexists. eexists. split; [vm_compute; reflexivity|]. intros X. vm_compute. reflexivity. Qed.

(** [info!("{=u64:iso8601s}", 31494784780800)]: the year 1000000. *)
Lemma iso8601_frame : exists fr n,
  decode (one "{=u64:iso8601s}")
    (encode_frame (fun _ => 0) 1 None [] (lit "{=u64:iso8601s}") [AvPrim (VNum 31494784780800)]) = Ok (fr, n) /\
  forall X, display_message X (one "{=u64:iso8601s}") fr = None.
Proof. eexists. eexists. split; [vm_compute; reflexivity|]. intros X. vm_compute. reflexivity. Qed.

(** A slice of alternatives, one of them exactly ["{=u8}"], shown with [:a]. *)
Definition alternatives : table := MkTable None
  [(1, ent GInfo "{=[?]:a}"); (2, ent GDerived "{=u8}|{=bool}")] [] EncRzcobs.

Lemma alternatives_frame : exists fr n,
  decode alternatives [1; 0; 2; 0; 0; 0; 2; 0; 0; 65; 1; 1] = Ok (fr, n) /\
  forall X, display_message X alternatives fr = None.
Proof. eexists. eexists. split; [vm_compute; reflexivity|]. intros X. vm_compute. reflexivity. Qed.

(** [struct S { x: i8 }], [struct T { x: u8 }] and [struct N { t: T }] under [:x]. *)
Definition field_struct (name field : string) (t : rty) : rty := RStruct (lit name) KNamed [(lit field, None, t)].

Definition hint_prog : table := MkTable None
  ([(1, ent GInfo "{=?:x}")] ++
   combine [2; 3; 4]
     (map (fun t => MkEntry GDerived (format_tag t) [])
       [field_struct "S" "x" (RPrim (PI W8)); field_struct "T" "x" (RPrim (PU W8));
        field_struct "N" "t" (field_struct "T" "x" (RPrim (PU W8)))])) [] EncRzcobs.

Definition hint_shown (t : rty) (v : rval) : outcome decode_error text :=
  match decode hint_prog (encode_frame (find_addr (t_entries hint_prog)) 1 None [] (lit "{=?:x}") [AvFmt t v]) with
  | Ok (fr, _) => Ok (display_message X0 hint_prog fr)
  | Err e => Err e
  | Panic => Panic
  | NoFuel => NoFuel
  end.

Lemma hints_lost :
  hint_shown (field_struct "T" "x" (RPrim (PU W8))) (VList [VNum 10]) = Ok (Some (lit "T { x: a }")) /\
  hint_shown (field_struct "S" "x" (RPrim (PI W8))) (VList [VNum 10]) = Ok (Some (lit "S { x: 10 }")) /\
  hint_shown (field_struct "N" "t" (field_struct "T" "x" (RPrim (PU W8)))) (VList [VList [VNum 10]]) =
    Ok (Some (lit "N { t: T { x: 10 } }")).
Proof. repeat split; vm_compute; reflexivity. Qed.

(** An outer [:a] wins over an inner hint. *)
Definition ascii_outer : table := MkTable None
  [(1, ent GInfo "{=?:a}"); (2, ent GWrite "{=?:x}"); (3, ent GDerived "{=u8}")] [] EncRzcobs.

(** [N] is shown in decimal although [:x] stands next to it. *)
Lemma ascii_wins :
  exists fr n, decode ascii_outer [1; 0; 2; 0; 3; 0; 200] = Ok (fr, n) /\
    display_message X0 ascii_outer fr = Some (lit "200").
Proof. eexists. eexists. split; [vm_compute; reflexivity|vm_compute; reflexivity]. Qed.

(** A displayable program. *)
Definition string_okb (hex : bool) (f : bytes) : bool :=
  match parse f ForwardsCompatible with
  | Ok frags => forallb (fun p =>
      match p_hint p with Some (HIso8601 _) => false | Some (HHex _ _ _) => hex | _ => true end &&
      match p_ty p with TIsize => negb hex | _ => true end) (params_of frags)
  | _ => true
  end.

Definition strings_of (tbl : table) : list bytes :=
  match t_timestamp tbl with Some e => [e_string e] | None => [] end ++
  flat_map (fun ie => e_string (snd ie) :: split_on 124 (e_string (snd ie))) (t_entries tbl).

Definition displayableb (tbl : table) : bool :=
  (forallb (string_okb true) (strings_of tbl) || forallb (string_okb false) (strings_of tbl)) &&
  forallb (fun ie => negb (has_bar (e_string (snd ie))) ||
    negb (existsb (beq u8_str) (split_on 124 (e_string (snd ie))))) (t_entries tbl).

Lemma lookup_in : forall i es e, lookup_entry i es = Some e -> exists j, In (j, e) es.
Proof.
  induction es as [|[j x] es IH]; intros e H; cbn [lookup_entry] in H; [discriminate|].
  destruct (i =? j); [injection H as ->; exists j; now left|]. destruct (IH e H) as (k & Hk). exists k. now right.
Qed.

Lemma displayableb_ok : forall tbl, displayableb tbl = true -> displayable tbl.
Proof.
  intros tbl H. unfold displayableb in H. apply andb_prop in H as [H H3].
  assert (S : forall f, table_string tbl f -> In f (strings_of tbl)).
  { intros f [(e & T & ->)|(i & e & L & D)]; unfold strings_of; apply in_or_app.
    - left. rewrite T. now left.
    - right. apply lookup_in in L as (j & L). apply in_flat_map. exists (j, e). split; auto. cbn [snd].
      destruct D as [->|D]; [now left|now right]. }
  assert (P : forall hex, forallb (string_okb hex) (strings_of tbl) = true -> forall p, table_parameter tbl p ->
    match p_hint p with Some (HIso8601 _) => false | Some (HHex _ _ _) => hex | _ => true end = true /\
    (p_ty p = TIsize -> hex = false)).
  { intros hex F p (f & frags & T & E & I). rewrite forallb_forall in F. specialize (F f (S f T)).
    unfold string_okb in F. rewrite E, forallb_forall in F. specialize (F p (params_of_in _ _ I)).
    apply andb_prop in F as [F1 F2]. split; auto. intros Y. rewrite Y in F2. now destruct hex. }
  assert (P' : exists hex, forall p, table_parameter tbl p ->
    match p_hint p with Some (HIso8601 _) => false | Some (HHex _ _ _) => hex | _ => true end = true /\
    (p_ty p = TIsize -> hex = false)).
  { apply orb_prop in H as [H|H]; eexists; apply (P _ H). }
  destruct P' as (hex & P'). split; [|split].
  - intros p prec T E. destruct (P' p T) as [Q _]. rewrite E in Q. discriminate.
  - destruct hex; [right; intros p T E; destruct (P' p T) as [_ Q]; specialize (Q E); discriminate|].
    left. intros p alt up w T E. destruct (P' p T) as [Q _]. rewrite E in Q. discriminate.
  - intros i e L B I. apply lookup_in in L as (j & L). rewrite forallb_forall in H3. specialize (H3 _ L).
    cbn [snd] in H3. rewrite B in H3. cbn [negb orb] in H3.
    assert (Y : existsb (beq u8_str) (split_on 124 (e_string e)) = true).
    { apply existsb_exists. exists u8_str. split; auto. }
    rewrite Y in H3. discriminate.
Qed.
