(** Plain texts, adapters and concrete cases for [Prop_Text.v]. *)
From Verif Require Import Base Utf8 ParserModel ParserMore DecoderModel Numerals EncodeModel EncodeSpec EncodeTop
  DecoderExamples EncodeExamples DisplayModel DisplayProofs DisplayExamples TextSpec TextProofs TextMain LibTypesModel.

Definition plain (h : option hint) : Prop := h = None \/ h = Some HDebug.

(** Without hints, or under [:?], numbers are decimal and strings are as they are, or
    quoted. *)
Lemma leaf_plain : forall X tbl own h, plain own -> plain h ->
  (forall w x, leaf_text X tbl own h (PU w) (VNum x) = Some (dec_str x)) /\
  (forall x, leaf_text X tbl own h PUsize (VNum x) = Some (dec_str x)) /\
  (forall w x, leaf_text X tbl own h (PI w) (VNum x) = Some ((if x <? 0 then lit "-" else []) ++ dec_str (Z.abs x))) /\
  (forall x, leaf_text X tbl own h PIsize (VNum x) = Some ((if x <? 0 then lit "-" else []) ++ dec_str (Z.abs x))) /\
  leaf_text X tbl own h PBool (VNum 1) = Some (lit "true") /\
  leaf_text X tbl own h PBool (VNum 0) = Some (lit "false") /\
  (forall c, leaf_text X tbl own h PChar (VNum c) = Some (utf8_encode c)) /\
  (forall s, leaf_text X tbl None None PStr (VText s) = Some s) /\
  (forall s, leaf_text X tbl own (Some HDebug) PStr (VText s) = Some (x_debug_str X s)).
Proof.
  assert (S : forall x, show_dec x 0 = (if x <? 0 then lit "-" else []) ++ dec_str (Z.abs x)).
  { intros x. unfold show_dec, pad_integral. rewrite app_nil_r.
    replace (Z.to_nat _) with O; [reflexivity|]. destruct (x <? 0); cbn [length lit]; lia. }
  intros X tbl own h [->| ->] [->| ->]; repeat split; intros; cbn [leaf_text or_hint format_u128 format_i128]; try reflexivity;
    f_equal; apply S.
Qed.

(** Adapters: hints other than [:?] do not matter. *)
Lemma adapter_text : forall X addr tbl h s, linked addr tbl debug_tag -> linked addr tbl display_tag -> utf8_valid s = true ->
  h <> Some HDebug ->
  printable X addr tbl h RDebug (VText s) s /\ printable X addr tbl h RDisplay (VText s) s.
Proof.
  intros X addr tbl h s L1 L2 U N.
  assert (E : is_debug_hint h = false) by (destruct h as [[]|]; try reflexivity; congruence).
  split; (split; [assumption|split; [do 2 eexists; constructor; exact U|]]).
  - pose proof (T_debug X tbl h s) as T. rewrite E in T. exact T.
  - pose proof (T_display X tbl h s) as T. rewrite E in T. exact T.
Qed.

Lemma adapter_debug_text : forall X addr tbl s, linked addr tbl debug_tag -> linked addr tbl display_tag -> utf8_valid s = true ->
  printable X addr tbl (Some HDebug) RDebug (VText s) (x_debug_str X s) /\
  printable X addr tbl (Some HDebug) RDisplay (VText s) (x_debug_str X s).
Proof.
  intros X addr tbl s L1 L2 U. split; (split; [assumption|split; [do 2 eexists; constructor; exact U|]]).
  - apply (T_debug X tbl (Some HDebug)).
  - apply (T_display X tbl (Some HDebug)).
Qed.

(** [info!("{:?}", Debug2Format(&x))] where [x] has the [Debug] output [S("a")], and a
    struct with an adapter field. *)
Definition adapter_struct : rty := RStruct (lit "P") KNamed [(lit "x", Some ADebug2, ROpaque RManual)].
Definition adapter_prog : table := MkTable None
  ([(1, ent GInfo "{:?}"); (2, ent GInfo "{}")] ++
   combine [3; 4] (map (fun t => MkEntry GDerived (format_tag t) []) [RDebug; adapter_struct])) [] EncRzcobs.

Definition log_shown (X : externals) (tbl : table) (index : Z) (f : string) (args : list aval) : option text :=
  match decode tbl (encode_frame (find_addr (t_entries tbl)) index None [] (lit f) args) with
  | Ok (fr, _) => Some (display_message X tbl fr)
  | _ => None
  end.

Lemma adapter_shown : forall X,
  log_shown X adapter_prog 2 "{}" [AvFmt RDebug (VText (lit "S"))] = Some (Some (lit "S")) /\
  log_shown X adapter_prog 1 "{:?}" [AvFmt RDebug (VText (lit "S"))] = Some (Some (x_debug_str X (lit "S"))) /\
  log_shown X adapter_prog 2 "{}" [AvFmt adapter_struct (VList [VText (lit "S")])] =
    Some (Some (lit "P { x: " ++ x_debug_str X (lit "S") ++ lit " }")).
Proof.
  intros X. split; [vm_compute; reflexivity|]. 
  split; vm_compute; repeat change (fix Ffix (x x0 : list Z) {struct x} : list Z :=
    match x with [] => x0 | x1 :: x2 => x1 :: Ffix x2 x0 end) with (@app Z);
    rewrite ?app_nil_r; reflexivity.
Qed.

(** A socket address, a range of options and a panic location. *)
Definition lib_prog : table := MkTable None
  ([(1, ent GInfo "{}")] ++
   combine (map (fun k => 2 + Z.of_nat k) (seq 0 20))
     (map (fun s => MkEntry GWrite (lit s) [])
       ["{:02x}{:02x}:{:02x}{:02x}:{:02x}{:02x}:{:02x}{:02x}:{:02x}{:02x}:{:02x}{:02x}:{:02x}{:02x}:{:02x}{:02x}";
        "[{}]:{}"; "{}..={}"; "None|Some({=?})"; "{=u8}"; "{=u16}"; "{=__internal_FormatSequence}";
        "panicked at {}"; "{=str}:{=u32}:{=u32}"; "({=?}, {=?}, {=?})"; "Cell {{ value: {=?} }})"]%string)) [] EncRzcobs.

Lemma lib_shown : log_shown X0 lib_prog 1 "{}"
  [AvFmt (tuple_ty [RManual; RManual; RManual])
    (VList [socket_v6 (ipv6 [32; 1; 13; 184; 0; 0; 0; 0; 0; 0; 0; 0; 0; 0; 0; 255]) 8080;
            range_inclusive (option_ty (RPrim (PU W8))) (VVar 0 []) (VVar 1 [VNum 7]);
            panic_info (Some (location (lit "src/main.rs") 12 5))])] =
  Some (Some (lit "([2001:0db8:0000:0000:0000:0000:0000:00ff]:8080, None..=Some(7), panicked at src/main.rs:12:5)")).
Proof. vm_compute. reflexivity. Qed.

(** [Cell] is shown with an extra parenthesis. *)
Lemma cell_shown : forall X, log_shown X lib_prog 1 "{}" [AvFmt RManual (cell (RPrim (PU W8)) (VNum 5))] =
  Some (Some (lit "Cell { value: 5 })")).
Proof. intros X. vm_compute. reflexivity. Qed.

Lemma message_ex : exists frags, parse ex_format Strict = Ok frags /\
  says_line X0 ex_prog None frags ex_args (lit
  "S { a: 200, b: Some(4660), c: ""dis"", d: [C { x: true }, A, B(-7)], e: w 70000 0-3w 0 255, f: (f4611686018427387904, [A, " ++
  utf8_encode 128512 ++ lit "]) } 11 e [Err(A), Ok(9)] text dbg [0, 255, 1] S { a: 200, b: Some(4660), c: ""dis"", d: [C { x: true }, A, B(-7)], e: w 70000 0-3w 0 255, f: (f4611686018427387904, [A, " ++
  utf8_encode 128512 ++ lit "]) } hello").
Proof.
  destruct (message_text X0 ex_addr ex_prog _ _ _ _ [] ex_frame_means) as (frags & E & _ & W).
  exists frags. split; [exact E|]. apply W. vm_compute. reflexivity.
Qed.
