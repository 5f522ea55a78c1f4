(** Frames, and the statements of C13-C17, C40, C42, C44. *)
From Verif Require Import Base Utf8 RzcobsModel ParserModel ParserProofs ParserMore FormatSpec RenderProofs
  DecoderModel DecoderProofs DecoderPanic StreamModel StreamProofs PrepareProofs Numerals
  EncodeModel EncodeSpec EncodeProofs DeriveProofs EncodeMain.

Lemma reads_macro : forall addr tbl s tys avs args, arg_types s Strict tys -> means_args addr tbl tys avs args ->
  DF tbl s (macro_args addr s avs) args.
Proof.
  intros addr tbl s tys avs args T M. pose proof T as (frags & P & _). unfold macro_args. rewrite P.
  rewrite (encode_args_wire addr s Strict tys avs frags) by eauto using means_args_length.
  apply (DF_intro addr) with (tys := tys) (m := Strict); auto.
  apply round_trip. exact M.
Qed.

Lemma decode_frame : forall addr tbl index tsa args fr rest, frame_means addr tbl index tsa args fr ->
  let b := encode_frame addr index (option_map e_string (t_timestamp tbl)) tsa (f_format fr) args in
  decode tbl (b ++ rest) = Ok (fr, length b).
Proof.
  intros addr tbl index tsa args fr rest (HI & FI & HL & (tys & T & M) & HT) b.
  assert (R : reads (fun n => decode_fuel tbl n) b fr).
  { unfold decode_fuel, b, encode_frame.
    eapply (reads_bind _ _ (fun _ => read_u 2)); [apply reads_u_exact; cbn; lia|].
    eapply (reads_bind _ _ (fun n => match t_timestamp tbl with Some e => _ | None => _ end)).
    - instantiate (1 := (f_timestamp_format fr, f_timestamp_args fr)).
      destruct (t_timestamp tbl) as [e|]; cbn [option_map].
      + destruct HT as (F & tys' & T' & M').
        rewrite F. apply (reads_bind_ret _ _ (fun n => decode_format tbl n (e_string e)) (fun a => (Some (e_string e), a))).
        eapply reads_macro; eauto.
      + destruct HT as [-> ->]. apply reads_ret.
    - rewrite HL. cbn [lift_option].
      assert (X : reads (fun n => rbind (decode_format tbl n (f_format fr)) (fun args0 =>
                  ret (MkFrame (f_level fr) index (f_timestamp_format fr) (f_timestamp_args fr) (f_format fr) args0)))
                  (macro_args addr (f_format fr) args) fr).
      { destruct fr as [lv ix tf ta ff fa]. cbn in *. subst ix.
        apply (reads_bind_ret _ _ (fun n => decode_format tbl n ff) (MkFrame lv index tf ta ff)).
        eapply reads_macro; eauto. }
      destruct X as [k K]. exists k. intros fuel L r. rewrite rbind_ret_l. apply K; auto. }
  destruct R as [k K]. unfold decode.
  rewrite (decode_fuel_enough tbl (S (length (b ++ rest))) (Nat.max k (S (length (b ++ rest))))) by lia.
  rewrite K by lia. rewrite app_length. do 2 f_equal. lia.
Qed.

(** C14. *)
Lemma value_round_trip : forall addr tbl t v f a, linked addr tbl (format_tag t) -> means addr tbl t v f a ->
  exists k, forall fuel, (k <= fuel)%nat -> forall rest,
    decode_ty tbl (decode_format tbl fuel) (S fuel) TFormat
      (put_istr addr (format_tag t) ++ format_data addr t v ++ rest) = Ok (AFormat f a, rest).
Proof.
  intros addr tbl t v f a L M.
  destruct (DT_format addr tbl _ _ _ _ L (proj1 (round_trip addr tbl) _ _ _ _ M)) as [k K].
  exists k. intros fuel H rest. rewrite app_assoc. apply K; auto.
Qed.

(** Distinct meanings have distinct encodings. *)
Lemma encoding_injective : forall addr tbl t v1 v2 f1 f2 a1 a2 r1 r2,
  means addr tbl t v1 f1 a1 -> means addr tbl t v2 f2 a2 ->
  format_data addr t v1 ++ r1 = format_data addr t v2 ++ r2 -> f1 = f2 /\ a1 = a2 /\ r1 = r2.
Proof.
  intros addr tbl t v1 v2 f1 f2 a1 a2 r1 r2 M1 M2 E.
  destruct (proj1 (round_trip addr tbl) _ _ _ _ M1) as [k1 K1].
  destruct (proj1 (round_trip addr tbl) _ _ _ _ M2) as [k2 K2].
  specialize (K1 (Nat.max k1 k2) ltac:(lia) r1). specialize (K2 (Nat.max k1 k2) ltac:(lia) r2).
  rewrite E in K1. rewrite K2 in K1. injection K1 as -> -> ->. auto.
Qed.

(** C15. *)
Lemma widths_agree_iff : forall n, 2 <= n < 2 ^ 64 ->
  (discriminant_width (n - 1) = Some (discriminant_bytes n) <-> n <> 256 /\ n <> 65536 /\ n <> 2 ^ 32).
Proof.
  intros n H. split.
  - intros E. repeat split; intros ->; vm_compute in E; discriminate.
  - intros (A & B & C). apply widths_agree; [lia|]. repeat split; auto. lia.
Qed.

(** C16. *)
Lemma truncated_size_covers : forall lo hi, 0 <= lo -> lo < hi -> hi <= 128 ->
  hi <= lo / 8 * 8 + 8 * Z.of_nat (truncated_size lo hi).
Proof.
  intros lo hi H1 H2 H3. unfold truncated_size. cbv zeta.
  assert (A : hi - 1 < 8 * ((hi - 1) / 8) + 8).
  { pose proof (Z.mod_pos_bound (hi - 1) 8 ltac:(lia)). pose proof (Z.div_mod (hi - 1) 8 ltac:(lia)). lia. }
  assert (B : 0 <= lo / 8) by (apply Z.div_pos; lia).
  assert (C : (hi - 1) / 8 <= 15).
  { apply Z.lt_succ_r, Z.div_lt_upper_bound; lia. }
  set (q := (hi - 1) / 8) in *. set (l := lo / 8) in *.
  destruct (Z.eqb_spec (q - l + 1) 1); [lia|]. destruct (Z.eqb_spec (q - l + 1) 2); [lia|].
  destruct ((3 <=? q - l + 1) && (q - l + 1 <=? 4)) eqn:E1; [lia|].
  destruct ((5 <=? q - l + 1) && (q - l + 1 <=? 8)) eqn:E2; lia.
Qed.

Lemma window_bits : forall lo hi x j, 0 <= lo -> lo < hi -> hi <= 128 -> lo <= j < hi ->
  Z.testbit (byte_window lo hi x) j = Z.testbit x j.
Proof.
  intros lo hi x j H1 H2 H3 Hj. unfold byte_window. cbv zeta.
  pose proof (truncated_size_covers lo hi H1 H2 H3) as C.
  assert (B : 0 <= lo / 8) by (apply Z.div_pos; lia).
  assert (D : lo / 8 * 8 <= lo) by (pose proof (Z.mul_div_le lo 8 ltac:(lia)); lia).
  rewrite <- Z.shiftl_mul_pow2, Z.shiftl_spec by lia.
  rewrite Z.mod_pow2_bits_low by lia.
  rewrite <- Z.shiftr_div_pow2, Z.shiftr_spec by lia. f_equal. lia.
Qed.

(** The value of the bits [a..b] of [x]. *)
Definition bit_slice (a b x : Z) : Z := (x / 2 ^ a) mod 2 ^ (b - a).

Lemma window_slice : forall lo hi a b x, 0 <= lo -> lo < hi -> hi <= 128 -> lo <= a -> a <= b -> b <= hi ->
  bit_slice a b (byte_window lo hi x) = bit_slice a b x.
Proof.
  intros lo hi a b x H1 H2 H3 Ha Hab Hb. unfold bit_slice. apply Z.bits_inj'. intros n Hn.
  destruct (Z.ltb_spec n (b - a)).
  - rewrite !Z.mod_pow2_bits_low by lia.
    rewrite <- !Z.shiftr_div_pow2, !Z.shiftr_spec by lia. apply window_bits; lia.
  - rewrite !Z.mod_pow2_bits_high by lia. reflexivity.
Qed.

(** C17. *)
Lemma nth_error_map_inv : forall A B (f : A -> B) l i y, nth_error (map f l) i = Some y ->
  exists x, nth_error l i = Some x /\ f x = y.
Proof.
  induction l as [|a l IH]; intros [|i] y H; cbn in H; try discriminate.
  - injection H as <-. exists a. auto.
  - apply IH in H. exact H.
Qed.

Lemma arg_types_exist : forall s m frags, parse s m = Ok frags ->
  arg_types s m (map p_ty (prepare_params (params_of frags))).
Proof.
  intros s m frags H. destruct (parse_parsed_ok _ _ _ H) as [n P].
  destruct (prepare_spec _ _ P) as [I F]. rewrite params_of_frag.
  exists frags. rewrite frag_parameters_frag.
  assert (L : length (prepare_params (frag_params frags)) = Z.to_nat n).
  { rewrite <- (map_length p_index), I, map_length, seq_length. reflexivity. }
  pose proof (po_nonneg _ _ P).
  split; [auto|]. split.
  - intros p Hp. apply (po_range _ _ P) in Hp. rewrite map_length, L. lia.
  - intros i t N. apply nth_error_map_inv in N as (p & N & <-).
    rewrite Forall_forall in F. pose proof (F p (nth_error_In _ _ N)) as W.
    assert (J : p_index p = Z.of_nat i).
    { pose proof (map_nth_error p_index _ _ N) as J. rewrite I in J.
      apply nth_error_map_inv in J as (k & J & <-). f_equal.
      assert (K : (i < length (seq 0 (Z.to_nat n)))%nat) by (apply nth_error_Some; congruence).
      pose proof (nth_error_nth _ _ O J) as E. rewrite seq_length in K. rewrite seq_nth in E by auto. lia. }
    now rewrite <- J.
Qed.

Lemma arg_types_unique : forall s m tys1 tys2, arg_types s m tys1 -> arg_types s m tys2 -> tys1 = tys2.
Proof.
  intros s m tys1 tys2 H1 H2.
  destruct (arg_types_prepare (fun _ => 0) _ _ _ H1) as (f1 & P1 & _ & E1).
  destruct (arg_types_prepare (fun _ => 0) _ _ _ H2) as (f2 & P2 & _ & E2).
  congruence.
Qed.

Lemma sent_once : forall addr s1 s2 tys avs,
  arg_types s1 Strict tys -> arg_types s2 Strict tys -> length avs = length tys ->
  macro_args addr s1 avs = macro_args addr s2 avs.
Proof.
  intros addr s1 s2 tys avs H1 H2 L. pose proof H1 as (f1 & P1 & _). pose proof H2 as (f2 & P2 & _).
  unfold macro_args. rewrite P1, P2.
  rewrite (encode_args_wire addr s1 Strict tys avs f1), (encode_args_wire addr s2 Strict tys avs f2); auto.
Qed.

(** C44. *)
Lemma usize_sent : forall addr tbl x rec sf rest, 0 <= x < 2 ^ 64 ->
  decode_ty tbl rec sf TUsize (put_prim addr PUsize (VNum x) ++ rest) = Ok (AUxx (x mod 2 ^ 32), rest).
Proof.
  intros addr tbl x rec sf rest H. cbn [decode_ty put_prim].
  destruct (reads_bind_ret _ _ (fun _ => read_u 4) AUxx _ _ (reads_u 4 x)) as [k K]. apply (K k); auto.
Qed.

Lemma usize_exact_iff : forall addr tbl x rec sf rest, 0 <= x < 2 ^ 64 ->
  (decode_ty tbl rec sf TUsize (put_prim addr PUsize (VNum x) ++ rest) = Ok (AUxx x, rest) <-> x < 2 ^ 32).
Proof.
  intros addr tbl x rec sf rest H. rewrite usize_sent by auto.
  pose proof (Z.mod_pos_bound x (2 ^ 32) ltac:(lia)). split.
  - intros E. injection E as E. lia.
  - intros L. rewrite Z.mod_small by lia. reflexivity.
Qed.

Lemma isize_exact_iff : forall addr tbl x rec sf rest, - 2 ^ 63 <= x < 2 ^ 63 ->
  (decode_ty tbl rec sf TIsize (put_prim addr PIsize (VNum x) ++ rest) = Ok (AIxx x, rest) <->
   - 2 ^ 31 <= x < 2 ^ 31).
Proof.
  intros addr tbl x rec sf rest H. cbn [decode_ty put_prim].
  assert (R : reads (fun _ => rbind (read_i 4) (fun v => ret (AIxx v))) (le_bytes 4 x)
                (AIxx (to_signed 4 (x mod 256 ^ Z.of_nat 4)))).
  { apply (reads_bind_ret _ _ (fun _ => read_i 4) AIxx).
    apply (reads_bind_ret _ _ (fun _ => read_u 4) (to_signed 4)). apply reads_u. }
  destruct R as [k K]. rewrite (K k (le_n _)).
  change (256 ^ Z.of_nat 4) with (2 ^ 32). pose proof (Z.mod_pos_bound x (2 ^ 32) ltac:(lia)) as B. split.
  - intros E. injection E as E. unfold to_signed in E. change (2 ^ (8 * Z.of_nat 4 - 1)) with (2 ^ 31) in E.
    change (2 ^ (8 * Z.of_nat 4)) with (2 ^ 32) in E. change (Z.pow_pos 2 32) with (2 ^ 32) in E.
    destruct (Z.ltb_spec (x mod 2 ^ 32) (2 ^ 31)); lia.
  - intros L. change (2 ^ 32) with (256 ^ Z.of_nat 4). rewrite (to_signed_spec 4 x); [reflexivity|lia|exact L].
Qed.

Lemma read_bytes_inv : forall n b s r, 0 <= n -> read_bytes n b = Ok (s, r) -> b = s ++ r /\ Z.of_nat (length s) = n.
Proof.
  intros n b s r Hn H. unfold read_bytes in H. destruct (Z.leb_spec n (Z.of_nat (length b))); [|discriminate].
  injection H as <- <-. rewrite firstn_skipn. split; auto. rewrite firstn_length. lia.
Qed.

Lemma str_exact_iff : forall addr tbl s rec sf rest,
  (decode_ty tbl rec sf TStr (put_prim addr PStr (VText s) ++ rest) = Ok (AStr s, rest) <->
   utf8_valid s = true /\ Z.of_nat (length s) < 2 ^ 32).
Proof.
  intros addr tbl s rec sf rest. split.
  - intros E. cbn [decode_ty put_prim] in E. rewrite <- app_assoc in E.
    unfold rbind at 1 in E.
    destruct (reads_u 4 (Z.of_nat (length s))) as [k K]. rewrite (K k (le_n _)) in E. cbn [bind fst snd] in E.
    apply rbind_ok in E as (s' & r & E1 & E2).
    change (256 ^ Z.of_nat 4) with (2 ^ 32) in E1.
    pose proof (Z.mod_pos_bound (Z.of_nat (length s)) (2 ^ 32) ltac:(lia)).
    apply read_bytes_inv in E1 as [_ L]; [|lia].
    destruct (utf8_valid s') eqn:V; [|discriminate]. injection E2 as -> _. split; auto. lia.
  - intros [V L]. pose proof (DT_prim addr tbl TStr PStr (VText s) (AStr s) eq_refl) as D.
    cbn [decode_ty put_prim]. rewrite <- app_assoc. unfold rbind at 1.
    destruct (reads_u_exact 4 (Z.of_nat (length s))) as [k K]; [change (256 ^ Z.of_nat 4) with (2 ^ 32); lia|].
    rewrite (K k (le_n _)). cbn [bind fst snd]. unfold rbind.
    destruct (reads_bytes s (Z.of_nat (length s)) eq_refl) as [k' K']. rewrite (K' k' (le_n _)). cbn [bind fst snd].
    rewrite V. reflexivity.
Qed.

(** C40. *)
Lemma text_terminator : forall s, utf8_valid s = true -> ~ In 255 s /\
  forall tbl rec sf rest x, x = TDebug \/ x = TDisplay ->
    decode_ty tbl rec sf x (s ++ 255 :: rest) = Ok (APreformatted s, rest).
Proof.
  intros s H. split.
  - intro I. apply utf8_valid_bound in H. rewrite Forall_forall in H. apply H in I. lia.
  - intros tbl rec sf rest x Hx. destruct (DT_text (fun _ => 0) tbl x s Hx H) as [k K].
    specialize (K k (le_n _) rest). rewrite <- app_assoc in K. cbn [app] in K.
    destruct Hx as [-> | ->]; exact K.
Qed.

(** C46: from log statements to what the host shows. *)
Lemma end_to_end : forall addr tbl stmts frs writes chunks, table_safe tbl ->
  Forall2 (fun s fr => let '(index, tsa, args) := s in frame_means addr tbl index tsa args fr) stmts frs ->
  Forall2 (fun sf w => let '((index, tsa, args), fr) := sf in
     concat w = encode_frame addr index (option_map e_string (t_timestamp tbl)) tsa (f_format fr) args)
    (combine stmts frs) writes ->
  concat chunks = snd (frames_chunks enc_new writes) ->
  host_run EncRzcobs tbl [] chunks = (map EvFrame frs, Waiting []).
Proof.
  intros addr tbl stmts frs writes chunks S M W C.
  apply (C05_lemma tbl writes); auto.
  clear C chunks. revert writes W. induction M as [|[[i tsa] args] fr stmts frs H M IH]; intros writes W.
  - inversion W; constructor.
  - cbn [combine] in W. inversion W as [|? w ? ws H1 H2]; subst. constructor; [|apply IH; auto].
    exists (length (concat w)). rewrite H1. rewrite <- (app_nil_r (encode_frame _ _ _ _ _ _)) at 1.
    apply decode_frame. exact H.
Qed.

Lemma prepared_indices : forall s m tys, arg_types s m tys -> exists frags, parse s m = Ok frags /\
  map p_index (prepare_params (params_of frags)) = map Z.of_nat (seq 0 (length tys)) /\
  map p_ty (prepare_params (params_of frags)) = tys.
Proof.
  intros s m tys H.
  destruct (arg_types_prepare (fun _ => 0) _ _ _ H) as (frags & P & _ & E).
  exists frags. split; [auto|]. split; auto.
  destruct (parse_parsed_ok _ _ _ P) as [n Pk]. destruct (prepare_spec _ _ Pk) as [I _].
  rewrite <- params_of_frag in I. rewrite I. do 2 f_equal. subst tys. rewrite map_length.
  rewrite <- (map_length p_index), I, map_length, seq_length. reflexivity.
Qed.

Lemma sent_in_order : forall addr s tys avs, arg_types s Strict tys -> length avs = length tys ->
  macro_args addr s avs = concat (map2 (fun x av => encode_arg addr [MkParameter 0 x None] 0 av) tys avs).
Proof.
  intros addr s tys avs H L. pose proof H as (f & P & _). unfold macro_args. rewrite P.
  now rewrite (encode_args_wire addr s Strict tys avs f).
Qed.
