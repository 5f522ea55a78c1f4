(** What log statements print (C50), and the texts of library types (C51). *)
From Verif Require Import Base Utf8 ParserModel ParserProofs ParserMore FormatSpec RenderProofs DecoderModel
  DecoderProofs PrepareProofs Numerals EncodeModel EncodeSpec EncodeProofs DeriveProofs EncodeMain EncodeTop
  EncodeExamples DisplayModel DisplayProofs DisplayTotal TextSpec TextProofs LibTypesModel.

Section Prints.
  Context (X : externals) (addr : bytes -> Z) (tbl : table).

  Theorem message_text : forall index tsa args fr rest,
    frame_means addr tbl index tsa args fr ->
    let b := encode_frame addr index (option_map e_string (t_timestamp tbl)) tsa (f_format fr) args in
    exists frags, parse (f_format fr) Strict = Ok frags /\
      decode tbl (b ++ rest) = Ok (fr, length b) /\
      forall s, display_message X tbl fr = Some s <-> says_line X tbl None frags args s.
  Proof.
    intros index tsa args fr rest F b. pose proof F as (_ & _ & _ & (tys & A & M) & _). pose proof A as (frags & E & _).
    exists frags. split; [exact E|]. split; [exact (decode_frame addr tbl index tsa args fr rest F)|].
    intros s. unfold display_message, format_args, show_format. rewrite (strict_implies_fc _ _ E).
    eapply line_shown; eauto. apply (values_shown X addr tbl). exact M.
  Qed.

  Theorem timestamp_text : forall index tsa args fr e,
    frame_means addr tbl index tsa args fr -> t_timestamp tbl = Some e ->
    exists frags, parse (e_string e) Strict = Ok frags /\
      forall s, display_timestamp X tbl fr = Some (Some s) <-> says_line X tbl None frags tsa s.
  Proof.
    intros index tsa args fr e (_ & _ & _ & _ & F) T. rewrite T in F. destruct F as (Ef & tys & A & M).
    pose proof A as (frags & E & _). exists frags. split; [exact E|]. intros s.
    unfold display_timestamp. rewrite Ef. unfold format_args, show_format. rewrite (strict_implies_fc _ _ E).
    assert (Q : forall x : text, Some x = Some (Some s) <-> x = Some s) by (intros x; split; [intros H; now injection H|intros ->; reflexivity]).
    rewrite Q. eapply line_shown; eauto. apply (values_shown X addr tbl). exact M.
  Qed.

  (** [info!(f, v)] with a single parameter that has the hint [h] prints [s]. *)
  Definition prints (h : option hint) (t : rty) (v : rval) (s : bytes) : Prop :=
    forall f index level rest, parse f Strict = Ok [FParam (MkParameter 0 TFormat h)] ->
    0 <= index < 65536 -> get_with_level tbl index = Some (level, f) -> t_timestamp tbl = None ->
    exists fr n, decode tbl (encode_frame addr index None [] f [AvFmt t v] ++ rest) = Ok (fr, n) /\
      display_message X tbl fr = Some s.

  (** Values that can be logged, with their text. *)
  Definition printable (h : option hint) (t : rty) (v : rval) (s : bytes) : Prop :=
    linked addr tbl (format_tag t) /\ (exists f a, means addr tbl t v f a) /\ says X tbl h t v s.

  Theorem printable_prints : forall h t v s, printable h t v s -> prints h t v s.
  Proof.
    intros h t v s (L & (f' & a & M) & S) f index level rest E I G T.
    set (fr := MkFrame level index None [] f [AFormat f' a]).
    assert (F : frame_means addr tbl index [] [AvFmt t v] fr).
    { split; [exact I|]. split; [reflexivity|]. split; [exact G|]. rewrite T. split; [|split; reflexivity].
      exists [TFormat]. split; [|constructor; [constructor; auto|constructor]].
      eapply arg_types_check; [exact E|]. reflexivity. }
    destruct (message_text index [] [AvFmt t v] fr rest F) as (frags & E' & D & W).
    cbv zeta in D. rewrite T in D. cbn [option_map f_format fr] in D, E'. rewrite E in E'. injection E' as <-.
    exists fr, (length (encode_frame addr index None [] f [AvFmt t v])). split; [exact D|]. apply W.
    rewrite <- (app_nil_r s). eapply TL_param; [reflexivity| |constructor].
    apply TG_format; [reflexivity|]. destruct h; exact S.
  Qed.

  (** The text is determined by the value. *)
  Theorem printable_unique : forall h t v s1 s2, printable h t v s1 -> printable h t v s2 -> s1 = s2.
  Proof.
    intros h t v s1 s2 (_ & (f & a & M) & S1) (_ & _ & S2).
    apply (proj1 (values_shown X addr tbl) _ _ _ _ M) in S1, S2. congruence.
  Qed.

  Lemma says_eq : forall h t v s s', says X tbl h t v s' -> s' = s -> says X tbl h t v s.
  Proof. intros; subst; auto. Qed.

  (** ** Components *)
  Lemma printable_ref : forall h t v s, printable h t v s -> printable h (RRef t) v s.
  Proof.
    intros h t v s (L & (f & a & M) & S). split; [exact L|]. split; [|now constructor].
    exists f, a. now constructor.
  Qed.

  Lemma printable_prim : forall h p v a s, linked addr tbl (lit "{=" ++ prim_name p ++ lit "}") ->
    prim_means addr tbl p v a -> leaf_text X tbl None h p v = Some s -> printable h (RPrim p) v s.
  Proof.
    intros h p v a s L M T. split; [exact L|]. split; [|now constructor]. do 2 eexists. constructor. exact M.
  Qed.
End Prints.

(** One [write!] call: its arguments are printable one by one. *)
Ltac text_eq := rewrite ?app_nil_r, <- ?app_assoc; reflexivity.

Lemma inner_own : forall o h, h <> Some HAscii -> inner_hint (Some o) h = Some o.
Proof. intros o [[]|] H; try reflexivity. congruence. Qed.

Ltac says_tac :=
  repeat first
    [ eassumption
    | apply TL_nil
    | apply TL_literal
    | eapply TL_param; [reflexivity| |]
    | apply TG_format; [reflexivity|cbn [p_hint]; rewrite ?inner_none, ?inner_own by assumption]
    | apply TG_list; [left; reflexivity|]
    | eapply TG_prim; [reflexivity|eassumption]
    | apply T_ref
    | apply T_opaque ].

Ltac means_tac :=
  repeat first
    [ eassumption
    | apply MA_nil
    | apply MA_cons
    | eapply MG_fmt
    | eapply MG_slice
    | eapply MG_prim; [reflexivity|eassumption]
    | apply M_ref
    | apply M_opaque ].

Ltac unpack :=
  repeat match goal with
  | H : printable _ _ _ _ _ _ _ |- _ => destruct H as (? & (? & ? & ?) & ?)
  end.

Ltac lib_tac :=
  unpack; split; [assumption|]; split;
  [ do 2 eexists; apply M_manual; eapply MW_write; [eassumption|types_tac|means_tac|apply MW_nil]
  | eapply says_eq; [apply T_manual; eapply TW_write; [vm_compute; reflexivity|says_tac|apply TW_nil]|text_eq] ].

(** Two hexadecimal digits. *)
Definition hex_byte (x : Z) : bytes :=
  let digit d := nth (Z.to_nat d) (lit "0123456789abcdef") 0 in [digit (x / 16); digit (x mod 16)].

Section Library.
  Context (X : externals) (addr : bytes -> Z) (tbl : table).
  Notation lk s := (linked addr tbl (lit s)).
  Notation pr := (printable X addr tbl).

  (** The text of an unsigned number where hint [h] applies. *)
  Definition number_text (h : option hint) (p : prim) (x : Z) (s : bytes) : Prop :=
    leaf_text X tbl None h p (VNum x) = Some s.

  Lemma ranges_text : forall h t a b sa sb, linked addr tbl sequence_tag -> pr h t a sa -> pr h t b sb ->
    (lk "{}..{}" -> pr h RManual (range t a b) (sa ++ lit ".." ++ sb)) /\
    (lk "{}.." -> pr h RManual (range_from t a) (sa ++ lit "..")) /\
    (lk ".." -> pr h RManual range_full (lit "..")) /\
    (lk "{}..={}" -> pr h RManual (range_inclusive t a b) (sa ++ lit "..=" ++ sb)) /\
    (lk "..{}" -> pr h RManual (range_to t b) (lit ".." ++ sb)) /\
    (lk "..={}" -> pr h RManual (range_to_inclusive t b) (lit "..=" ++ sb)).
  Proof.
    intros h t a b sa sb L A B.
    split; [intros; lib_tac|]. split; [intros; lib_tac|]. split; [intros; lib_tac|]. split; [intros; lib_tac|].
    split; [intros; lib_tac|]. intros; lib_tac.
  Qed.

  Lemma cells_text : forall h t v s, linked addr tbl sequence_tag -> pr h t v s ->
    (lk "Cell {{ value: {=?} }})" -> pr h RManual (cell t v) (lit "Cell { value: " ++ s ++ lit " })")) /\
    (lk "RefCell {{ value: <borrowed> }}|RefCell {{ value: {=?} }}" ->
       pr h (refcell_ty t) (VVar 1 [v]) (lit "RefCell { value: " ++ s ++ lit " }") /\
       pr h (refcell_ty t) (VVar 0 []) (lit "RefCell { value: <borrowed> }")).
  Proof.
    intros h t v s L A. split; [intros; lib_tac|]. intros L'.
    assert (NB : Forall (fun st : bytes * list rty => no_bar (fst st))
      [(lit "RefCell {{ value: <borrowed> }}", []); (lit "RefCell {{ value: {=?} }}", [t])])
      by (repeat constructor; apply nobar_b_ok; vm_compute; reflexivity).
    unpack. split; (split; [exact L'|split]).
    - do 2 eexists. eapply M_libenum; [reflexivity|cbn; lia|cbn; lia|exact NB|types_tac|]. eapply MC_cons; eauto. constructor.
    - eapply says_eq; [eapply T_libenum; [reflexivity|vm_compute; reflexivity|says_tac]|text_eq].
    - do 2 eexists. eapply M_libenum; [reflexivity|cbn; lia|cbn; lia|exact NB|types_tac|constructor].
    - eapply says_eq; [eapply T_libenum; [reflexivity|vm_compute; reflexivity|says_tac]|text_eq].
  Qed.

  Lemma option_text : forall h t v s, pr h t v s -> lk "None|Some({=?})" ->
    pr h (option_ty t) (VVar 0 []) (lit "None") /\ pr h (option_ty t) (VVar 1 [v]) (lit "Some(" ++ s ++ lit ")").
  Proof.
    intros h t v s A L.
    assert (NB : Forall (fun st : bytes * list rty => no_bar (fst st)) [(lit "None", []); (lit "Some({=?})", [t])])
      by (repeat constructor; apply nobar_b_ok; vm_compute; reflexivity).
    unpack. split; (split; [exact L|split]).
    - do 2 eexists. eapply M_libenum; [reflexivity|cbn; lia|cbn; lia|exact NB|types_tac|constructor].
    - eapply says_eq; [eapply T_libenum; [reflexivity|vm_compute; reflexivity|says_tac]|text_eq].
    - do 2 eexists. eapply M_libenum; [reflexivity|cbn; lia|cbn; lia|exact NB|types_tac|]. eapply MC_cons; eauto. constructor.
    - eapply says_eq; [eapply T_libenum; [reflexivity|vm_compute; reflexivity|says_tac]|text_eq].
  Qed.

  Lemma result_text : forall h t e v s, lk "Err({=?})|Ok({=?})" ->
    (pr h e v s -> pr h (result_ty t e) (VVar 0 [v]) (lit "Err(" ++ s ++ lit ")")) /\
    (pr h t v s -> pr h (result_ty t e) (VVar 1 [v]) (lit "Ok(" ++ s ++ lit ")")).
  Proof.
    intros h t e v s L.
    assert (NB : Forall (fun st : bytes * list rty => no_bar (fst st)) [(lit "Err({=?})", [e]); (lit "Ok({=?})", [t])])
      by (repeat constructor; apply nobar_b_ok; vm_compute; reflexivity).
    split; intros A; unpack; (split; [exact L|split]).
    - do 2 eexists. eapply M_libenum; [reflexivity|cbn; lia|cbn; lia|exact NB|types_tac|]. eapply MC_cons; eauto. constructor.
    - eapply says_eq; [eapply T_libenum; [reflexivity|vm_compute; reflexivity|says_tac]|text_eq].
    - do 2 eexists. eapply M_libenum; [reflexivity|cbn; lia|cbn; lia|exact NB|types_tac|]. eapply MC_cons; eauto. constructor.
    - eapply says_eq; [eapply T_libenum; [reflexivity|vm_compute; reflexivity|says_tac]|text_eq].
  Qed.

  Lemma time_text : forall h secs nanos a b, linked addr tbl sequence_tag ->
    lk "Duration {{ secs: {=u64}, nanos: {=u32} }}" -> 0 <= secs < 2 ^ 64 -> 0 <= nanos < 10 ^ 9 ->
    number_text h (PU W64) secs a -> number_text h (PU W32) nanos b ->
    pr h RManual (duration secs nanos) (lit "Duration { secs: " ++ a ++ lit ", nanos: " ++ b ++ lit " }").
  Proof.
    intros h secs nanos a b L L' R1 R2 A B. unfold number_text in *.
    assert (P1 : prim_means addr tbl (PU W64) (VNum secs) (AUxx secs)) by (constructor; exact R1).
    assert (P2 : prim_means addr tbl (PU W32) (VNum nanos) (AUxx nanos)) by (constructor; cbn; lia).
    lib_tac.
  Qed.

  Lemma constants_text : forall h s, linked addr tbl sequence_tag -> linked addr tbl s ->
    In s [lit "Zip(..)"; lit "BorrowError"; lit "BorrowMutError"; lit "ChunksExact(..)"; lit "Windows(..)";
          lit "AddrParseError(_)"; lit "TryFromIntError(())"; lit "TryFromSliceError(())"; lit "panicked"] ->
    pr h RManual (VWrites [SWrite s []]) s.
  Proof.
    intros h s L L' I. cbn [In] in I. repeat (destruct I as [<-|I]; [lib_tac|]). contradiction.
  Qed.

  Lemma hex_byte_shown : forall x, 0 <= x < 256 -> show_radix 16 false false (lit "0x") x 2 = hex_byte x.
  Proof.
    intros x H.
    assert (C : forallb (fun b => beq (show_radix 16 false false (lit "0x") b 2) (hex_byte b)) all_bytes = true)
      by (vm_compute; reflexivity).
    rewrite forallb_forall in C. apply beq_true, C, all_bytes_in. exact H.
  Qed.

  Lemma printable_u8 : forall h x s, 0 <= x < 256 -> lk "{=u8}" -> number_text h (PU W8) x s -> pr h (RPrim (PU W8)) (VNum x) s.
  Proof. intros h x s R L T. eapply printable_prim; eauto. constructor. exact R. Qed.
  Lemma printable_u16 : forall h x s, 0 <= x < 65536 -> lk "{=u16}" -> number_text h (PU W16) x s -> pr h (RPrim (PU W16)) (VNum x) s.
  Proof. intros h x s R L T. eapply printable_prim; eauto. constructor. exact R. Qed.
  Lemma printable_usize : forall h x s, 0 <= x < 2 ^ 32 -> lk "{=usize}" -> number_text h PUsize x s -> pr h (RPrim PUsize) (VNum x) s.
  Proof. intros h x s R L T. eapply printable_prim; eauto. constructor. exact R. Qed.

  Lemma ipv4_text : forall h a b c d sa sb sc sd, linked addr tbl sequence_tag -> lk "{}.{}.{}.{}" -> lk "{=u8}" ->
    bytes_ok [a; b; c; d] ->
    number_text h (PU W8) a sa -> number_text h (PU W8) b sb -> number_text h (PU W8) c sc -> number_text h (PU W8) d sd ->
    pr h RManual (ipv4 a b c d) (sa ++ lit "." ++ sb ++ lit "." ++ sc ++ lit "." ++ sd).
  Proof.
    intros h a b c d sa sb sc sd L L' L8 B A1 A2 A3 A4.
    inversion B as [|? ? B1 B']; subst. inversion B' as [|? ? B2 B'']; subst. inversion B'' as [|? ? B3 B3']; subst.
    inversion B3' as [|? ? B4 _]; subst.
    apply printable_u8 in A1, A2, A3, A4; auto. lib_tac.
  Qed.

  (** Eight groups of four hexadecimal digits. *)
  Fixpoint groups (xs : list Z) : list bytes :=
    match xs with
    | a :: b :: r => (hex_byte a ++ hex_byte b) :: groups r
    | _ => []
    end.

  Lemma ipv6_text : forall h octets, linked addr tbl sequence_tag ->
    lk "{:02x}{:02x}:{:02x}{:02x}:{:02x}{:02x}:{:02x}{:02x}:{:02x}{:02x}:{:02x}{:02x}:{:02x}{:02x}:{:02x}{:02x}" ->
    lk "{=u8}" -> bytes_ok octets -> length octets = 16%nat -> h <> Some HAscii ->
    pr h RManual (ipv6 octets) (join_text (lit ":") (groups octets)).
  Proof.
    intros h octets L L' L8 B Len Ha.
    assert (A : forall x, In x octets -> pr (Some (HHex false false 2)) (RPrim (PU W8)) (VNum x) (hex_byte x)).
    { intros x I. unfold bytes_ok in B. rewrite Forall_forall in B. specialize (B x I).
      apply printable_u8; auto. unfold number_text. cbn [leaf_text or_hint format_u128].
      f_equal. apply hex_byte_shown. exact B. }
    clear B. do 16 (destruct octets as [|? octets]; [discriminate|]). destruct octets; [|discriminate].
    pose proof (fun i x N => A x (nth_error_In _ i N)) as A'. clear A Len.
    pose proof (A' 0%nat _ eq_refl) as A0. pose proof (A' 1%nat _ eq_refl) as A1. pose proof (A' 2%nat _ eq_refl) as A2.
    pose proof (A' 3%nat _ eq_refl) as A3. pose proof (A' 4%nat _ eq_refl) as A4. pose proof (A' 5%nat _ eq_refl) as A5.
    pose proof (A' 6%nat _ eq_refl) as A6. pose proof (A' 7%nat _ eq_refl) as A7. pose proof (A' 8%nat _ eq_refl) as A8.
    pose proof (A' 9%nat _ eq_refl) as A9. pose proof (A' 10%nat _ eq_refl) as A10. pose proof (A' 11%nat _ eq_refl) as A11.
    pose proof (A' 12%nat _ eq_refl) as A12. pose proof (A' 13%nat _ eq_refl) as A13. pose proof (A' 14%nat _ eq_refl) as A14.
    pose proof (A' 15%nat _ eq_refl) as A15. clear A'.
    unfold ipv6. cbn [map groups join_text]. generalize dependent hex_byte. intros hb. intros.
    lib_tac.
  Qed.

  Lemma socket_text : forall h ip sip port sport, linked addr tbl sequence_tag -> lk "{=u16}" ->
    pr h RManual ip sip -> 0 <= port < 65536 -> number_text h (PU W16) port sport ->
    (lk "{}:{}" -> pr h RManual (socket_v4 ip port) (sip ++ lit ":" ++ sport)) /\
    (lk "[{}]:{}" -> pr h RManual (socket_v6 ip port) (lit "[" ++ sip ++ lit "]:" ++ sport)) /\
    (lk "{}" -> pr h RManual (any_addr ip) sip).
  Proof.
    intros h ip sip port sport L L16 A R B. apply printable_u16 in B; auto.
    split; [intros; lib_tac|]. split; intros; lib_tac.
  Qed.

  Lemma nonzero_text : forall h p x a s, linked addr tbl sequence_tag -> linked addr tbl (lit "{=" ++ prim_name p ++ lit "}") ->
    prim_means addr tbl p (VNum x) a -> leaf_text X tbl None h p (VNum x) = Some s ->
    (exists w, p = PU w \/ p = PI w \/ p = PUsize \/ p = PIsize) ->
    pr h RManual (nonzero p x) s.
  Proof.
    intros h p x a s L L' M T (w & W).
    assert (E : parse (lit "{=" ++ prim_name p ++ lit "}") Strict = Ok [FParam (MkParameter 0 (ty_of_prim p) None)])
      by (destruct W as [->|[->|[->| ->]]]; try destruct w; vm_compute; reflexivity).
    split; [exact L|]. split.
    - do 2 eexists. apply M_manual. eapply MW_write; [exact L'| | |apply MW_nil].
      + rewrite <- show_prim. apply single_arg_types; [apply prim_ty_ok|apply prim_not_bitfield].
      + apply MA_cons; [|apply MA_nil]. eapply MG_prim; [apply prim_of_ty_of_prim|exact M].
    - eapply says_eq; [apply T_manual; eapply TW_write; [exact E| |apply TW_nil]|].
      + eapply TL_param; [reflexivity| |apply TL_nil]. eapply TG_prim; [apply prim_of_ty_of_prim|exact T].
      + text_eq.
  Qed.

  Lemma pointer_text : forall h x, linked addr tbl sequence_tag -> lk "0x{:x}" -> lk "{=usize}" ->
    0 <= x < 2 ^ 32 -> h <> Some HAscii ->
    pr h RManual (const_pointer x) (lit "0x" ++ num_str 16 false x) /\
    pr h RManual (mut_pointer x) (lit "0x" ++ num_str 16 false x) /\
    (lk "{}" -> pr h RManual (non_null x) (lit "0x" ++ num_str 16 false x) /\
                pr h RManual (fn_pointer x) (lit "0x" ++ num_str 16 false x)).
  Proof.
    intros h x L L' Lu R Ha.
    assert (A : pr (Some (HHex false false 0)) (RPrim PUsize) (VNum x) (num_str 16 false x)).
    { apply printable_usize; auto. unfold number_text. cbn [leaf_text or_hint format_u128]. unfold show_radix, pad_integral.
      cbn [app length]. replace (Z.to_nat _) with O by lia. reflexivity. }
    assert (C : pr h RManual (const_pointer x) (lit "0x" ++ num_str 16 false x)) by lib_tac.
    assert (M : pr h RManual (mut_pointer x) (lit "0x" ++ num_str 16 false x)).
    { destruct C as (_ & (f & a & M) & S). split; [exact L|]. split.
      - inversion M; subst. do 2 eexists. apply M_manual. eapply MW_splice; [reflexivity|eassumption|apply MW_nil].
      - eapply says_eq; [apply T_manual, TW_delegate; [apply T_ref; exact S|apply TW_nil]|text_eq]. }
    clear A. split; [exact C|]. split; [exact M|]. intros Lb. split; lib_tac.
  Qed.

  Lemma location_text : forall h file line column a b, linked addr tbl sequence_tag -> lk "{=str}:{=u32}:{=u32}" ->
    utf8_valid file = true -> Z.of_nat (length file) < 2 ^ 32 -> 0 <= line < 2 ^ 32 -> 0 <= column < 2 ^ 32 ->
    number_text h (PU W32) line a -> number_text h (PU W32) column b ->
    let s := (if is_debug_hint h then x_debug_str X file else file) ++ lit ":" ++ a ++ lit ":" ++ b in
    pr h RManual (location file line column) s /\
    (lk "panicked at {}" -> pr h RManual (panic_info (Some (location file line column))) (lit "panicked at " ++ s)).
  Proof.
    intros h file line column a b L L' U Lf R1 R2 A B s. unfold number_text in *.
    assert (P0 : prim_means addr tbl PStr (VText file) (AStr file)) by (constructor; auto).
    assert (P1 : prim_means addr tbl (PU W32) (VNum line) (AUxx line)) by (constructor; exact R1).
    assert (P2 : prim_means addr tbl (PU W32) (VNum column) (AUxx column)) by (constructor; exact R2).
    assert (T0 : leaf_text X tbl None h PStr (VText file) = Some (if is_debug_hint h then x_debug_str X file else file)) by reflexivity.
    assert (C : pr h RManual (location file line column) s) by (unfold s; lib_tac).
    split; [exact C|]. intros Lp. clear P0 P1 P2 T0 A B. clearbody s. lib_tac.
  Qed.

  Lemma layout_text : forall h size align a b, linked addr tbl sequence_tag -> lk "Layout {{ size: {}, align: {} }}" ->
    lk "{=usize}" -> 0 <= size < 2 ^ 32 -> 0 <= align < 2 ^ 32 ->
    number_text h PUsize size a -> number_text h PUsize align b ->
    pr h RManual (layout size align) (lit "Layout { size: " ++ a ++ lit ", align: " ++ b ++ lit " }").
  Proof.
    intros h size align a b L L' Lu R1 R2 A B. apply printable_usize in A, B; auto. lib_tac.
  Qed.

  (** ** Lists and tuples *)
  Inductive printable_all (h : option hint) (t : rty) : list rval -> list bytes -> Prop :=
  | PA_nil : printable_all h t [] []
  | PA_cons v vs s ss : pr h t v s -> printable_all h t vs ss -> printable_all h t (v :: vs) (s :: ss).

  Lemma printable_elements : forall h t vs ss, printable_all h t vs ss ->
    (exists es, means_elements addr tbl t vs es) /\ says_all X tbl h t vs ss.
  Proof.
    intros h t vs ss H. induction H as [|v vs s ss (L & (f & a & M) & S) _ [(es & E) I]].
    - split; [exists []; constructor|constructor].
    - split; [exists ((f, a) :: es); constructor; auto|constructor; auto].
  Qed.

  Lemma list_text : forall h t vs ss, linked addr tbl (format_tag t) -> printable_all h t vs ss ->
    h <> Some HAscii \/ ~ is_u8 t -> Z.of_nat (length vs) < 2 ^ 32 ->
    (lk "{=[?]}" -> pr h (RSlice t) (VList vs) (listing (lit "[") (lit "]") ss)) /\
    (linked addr tbl (format_tag (RArray (Z.of_nat (length vs)) t)) ->
       pr h (RArray (Z.of_nat (length vs)) t) (VList vs) (listing (lit "[") (lit "]") ss)) /\
    (linked addr tbl sequence_tag -> lk "Iter {{ slice: {=[?]}, position: ? }}" ->
       pr h RManual (slice_iter t vs) (lit "Iter { slice: " ++ listing (lit "[") (lit "]") ss ++ lit ", position: ? }")).
  Proof.
    intros h t vs ss L A G Len. destruct (printable_elements _ _ _ _ A) as ((es & E) & S).
    assert (Sl : says X tbl h (RSlice t) (VList vs) (listing (lit "[") (lit "]") ss))
      by (eapply T_list; eauto; left; reflexivity).
    split; [|split].
    - intros L'. split; [exact L'|]. split; [|exact Sl]. do 2 eexists. eapply M_slice; eauto.
    - intros L'. split; [exact L'|]. split; [|eapply T_list; eauto; right; eauto]. do 2 eexists. eapply M_array; eauto.
    - intros Ls Li. set (str := listing _ _ _) in *. clearbody str. lib_tac.
  Qed.

  Inductive printable_each (h : option hint) : list rty -> list rval -> list bytes -> Prop :=
  | PE_nil : printable_each h [] [] []
  | PE_cons t ts v vs s ss : pr h t v s -> printable_each h ts vs ss -> printable_each h (t :: ts) (v :: vs) (s :: ss).

  Lemma printable_components : forall h ts vs ss, printable_each h ts vs ss ->
    exists args, means_components addr tbl ts vs args.
  Proof.
    intros h ts vs ss H. induction H as [|t ts v vs s ss (L & (f & a & M) & S) _ (args & E)]; eexists; econstructor; eauto.
  Qed.

  Lemma tuple_text : forall h ts vs ss, printable_each h ts vs ss -> (length ts <= 12)%nat ->
    linked addr tbl (format_tag (tuple_ty ts)) -> pr h (tuple_ty ts) (VList vs) (listing (lit "(") (lit ")") ss).
  Proof.
    intros h ts vs ss H Len L. split; [exact L|].
    destruct (printable_components _ _ _ _ H) as (args & M).
    assert (Ty : arg_types (lit "(" ++ tuple_body (length ts) ++ lit ")") ForwardsCompatible (repeat TFormat (length ts)) /\
      no_bar (lit "(" ++ tuple_body (length ts) ++ lit ")")).
    { clear - Len. generalize dependent (length ts). intros n Hn.
      do 13 (destruct n as [|n]; [split; [types_tac|apply nobar_b_ok; vm_compute; reflexivity]|]). lia. }
    split; [do 2 eexists; eapply M_comp; [apply Ty|apply Ty|exact M]|]. clear L M Ty args.
    do 13 (destruct H as [|? ? ? ? ? ? (_ & _ & ?) H];
      [eapply says_eq; [eapply T_comp; [vm_compute; reflexivity|cbn [map2]; says_tac]|unfold listing; cbn [join_text]; text_eq]|]).
    cbn [length] in Len. lia.
  Qed.

  Lemma phantom_text : forall h, lk "PhantomData" -> pr h phantom_ty (VList []) (lit "PhantomData").
  Proof.
    intros h L. split; [exact L|]. split.
    - do 2 eexists. eapply M_comp; [types_tac|apply nobar_b_ok; vm_compute; reflexivity|constructor].
    - eapply says_eq; [eapply T_comp; [vm_compute; reflexivity|says_tac]|text_eq].
  Qed.
End Library.
