(** The host decodes what the device encodes (C13-C17). *)
From Verif Require Import Base Utf8 ParserModel ParserProofs ParserMore FormatSpec RenderProofs
  DecoderModel DecoderProofs PrepareProofs Numerals EncodeModel EncodeSpec.

Lemma frag_parameters_eq : forall fs, frag_parameters fs = params_of fs.
Proof. unfold frag_parameters. induction fs as [|[s|p] fs IH]; cbn [flat_map params_of app]; congruence. Qed.

(* ------------------------------------------------------------------ *)
(** * Readers that consume exactly given bytes *)

Definition reads {A} (m : nat -> reader A) (b : bytes) (a : A) : Prop :=
  exists k, forall fuel, (k <= fuel)%nat -> forall rest, m fuel (b ++ rest) = Ok (a, rest).

Lemma reads_ret : forall A (a : A), reads (fun _ => ret a) [] a.
Proof. intros. exists O. reflexivity. Qed.

Lemma reads_nil : forall A (m : nat -> reader A) b a, reads m (b ++ []) a -> reads m b a.
Proof. intros A m b a H. now rewrite app_nil_r in H. Qed.

Lemma reads_bind : forall A B (m : nat -> reader A) (f : nat -> A -> reader B) b1 b2 a c,
  reads m b1 a -> reads (fun n => f n a) b2 c -> reads (fun n => rbind (m n) (f n)) (b1 ++ b2) c.
Proof.
  intros A B m f b1 b2 a c [k1 H1] [k2 H2]. exists (Nat.max k1 k2). intros fuel L rest.
  unfold rbind. rewrite <- app_assoc, H1 by lia. cbn [bind fst snd]. apply H2. lia.
Qed.

Lemma reads_bind_ret : forall A B (m : nat -> reader A) (f : A -> B) b a,
  reads m b a -> reads (fun n => rbind (m n) (fun x => ret (f x))) b (f a).
Proof.
  intros. rewrite <- (app_nil_r b).
  apply (reads_bind _ _ m (fun _ x => ret (f x))) with (a := a); auto. apply reads_ret.
Qed.

Lemma reads_bytes : forall s n, n = Z.of_nat (length s) -> reads (fun _ => read_bytes n) s s.
Proof.
  intros s n ->. exists O. intros fuel _ rest. unfold read_bytes.
  rewrite app_length, Nat2Z.inj_add. destruct (Z.leb_spec (Z.of_nat (length s)) (Z.of_nat (length s) + Z.of_nat (length rest))); [|lia].
  rewrite Nat2Z.id, firstn_app_exact, skipn_app_exact. reflexivity.
Qed.

Lemma reads_u : forall n x, reads (fun _ => read_u n) (le_bytes n x) (x mod 256 ^ Z.of_nat n).
Proof.
  intros. unfold read_u. rewrite <- le_value_mod.
  apply (reads_bind_ret _ _ (fun _ => read_bytes (Z.of_nat n)) le_value).
  apply reads_bytes. now rewrite le_bytes_length.
Qed.

Lemma reads_u_exact : forall n x, 0 <= x < 256 ^ Z.of_nat n -> reads (fun _ => read_u n) (le_bytes n x) x.
Proof. intros n x H. pose proof (reads_u n x) as R. rewrite Z.mod_small in R by auto. exact R. Qed.

Lemma reads_i : forall n x, (0 < n)%nat ->
  - 2 ^ (8 * Z.of_nat n - 1) <= x < 2 ^ (8 * Z.of_nat n - 1) ->
  reads (fun _ => read_i n) (le_bytes n x) x.
Proof.
  intros n x Hn H. unfold read_i.
  rewrite <- (to_signed_spec n x Hn H) at 2. apply (reads_bind_ret _ _ (fun _ => read_u n) (to_signed n)). apply reads_u.
Qed.

Section Proofs.
  Context (addr : bytes -> Z) (tbl : table).
  Notation linked := (linked addr tbl).
  Notation means := (means addr tbl).

  Lemma reads_get_format : forall s, linked s -> reads (fun _ => get_format tbl) (put_istr addr s) s.
  Proof.
    intros s [H1 H2]. unfold get_format, put_istr. rewrite <- (app_nil_r (le_bytes 2 (addr s))).
    apply (reads_bind _ _ (fun _ => read_u 2) (fun _ i => lift_option (get_without_level tbl i))) with (a := addr s).
    - apply reads_u_exact. cbn; lia.
    - rewrite H2. apply reads_ret.
  Qed.

  Definition DT (x : ty) : bytes -> arg -> Prop :=
    reads (fun n => decode_ty tbl (decode_format tbl n) (S n) x).
  Definition DF (f : bytes) : bytes -> list arg -> Prop :=
    reads (fun n => decode_format tbl n f).
  Definition DTs (xs : list ty) : bytes -> list arg -> Prop :=
    reads (fun n => decode_params tbl (decode_format tbl n) (S n) (map (fun x => MkParameter 0 x None) xs)).

  Lemma decode_params_types : forall rec sf ps qs, map p_ty ps = map p_ty qs ->
    decode_params tbl rec sf ps = decode_params tbl rec sf qs.
  Proof.
    induction ps as [|p ps IH]; destruct qs as [|q qs]; cbn [map decode_params]; intros H; try discriminate; auto.
    injection H as H1 H2. now rewrite H1, (IH _ H2).
  Qed.

  Lemma DTs_nil : DTs [] [] [].
  Proof. unfold DTs. apply reads_ret. Qed.
  Lemma DTs_cons : forall x xs b1 b2 a args, DT x b1 a -> DTs xs b2 args -> DTs (x :: xs) (b1 ++ b2) (a :: args).
  Proof.
    intros x xs b1 b2 a args H1 H2. unfold DTs. cbn [map decode_params p_ty].
    eapply (reads_bind _ _ _ (fun n a => rbind _ (fun rest => ret (a :: rest)))); [exact H1|].
    apply (reads_bind_ret _ _ _ (fun r => a :: r)). exact H2.
  Qed.

  Lemma arg_types_prepare : forall s tys m, arg_types s m tys ->
    exists frags, parse s m = Ok frags /\ parse s ForwardsCompatible = Ok frags /\
      map p_ty (prepare_params (params_of frags)) = tys.
  Proof.
    intros s tys m (frags & H1 & H2 & H3). exists frags. split; [auto|].
    split. { destruct m; auto. apply strict_implies_fc; auto. }
    destruct (parse_parsed_ok _ _ _ H1) as [n P].
    rewrite frag_parameters_eq in *. rewrite params_of_frag in *.
    destruct (prepare_spec _ _ P) as [I F].
    assert (L : n = Z.of_nat (length tys)).
    { destruct (Z.lt_trichotomy n (Z.of_nat (length tys))) as [L|[L|L]]; auto; exfalso.
      - destruct (nth_error tys (Z.to_nat n)) as [t|] eqn:E.
        + pose proof (H3 _ _ E) as W. pose proof (po_nonneg _ _ P). rewrite Z2Nat.id in W by auto.
          assert (Q : exists p, In p (frag_params frags) /\ p_index p = n).
          { destruct W as [[_ (p & ? & ? & ?)]|(lo & hi & _ & [(p & hi' & ? & ? & ?) _])]; eauto. }
          destruct Q as (p & Q1 & Q2). apply (po_range _ _ P) in Q1. lia.
        + apply nth_error_None in E. pose proof (po_nonneg _ _ P). lia.
      - destruct (po_dense _ _ P (Z.of_nat (length tys))) as (p & Q1 & Q2); [lia|].
        apply H2 in Q1. lia. }
    assert (LP : length (prepare_params (frag_params frags)) = length tys).
    { rewrite <- (map_length p_index), I, map_length, seq_length. lia. }
    apply nth_ext with (d := TBool) (d' := TBool); [now rewrite map_length|].
    intros k Hk. rewrite map_length in Hk.
    destruct (nth_error (prepare_params (frag_params frags)) k) as [p|] eqn:E.
    2:{ apply nth_error_None in E. lia. }
    destruct (nth_error tys k) as [t|] eqn:E2.
    2:{ apply nth_error_None in E2. lia. }
    rewrite (nth_error_nth (map p_ty _) k TBool (x := p_ty p)) by now apply map_nth_error.
    rewrite (nth_error_nth tys k TBool E2).
    rewrite Forall_forall in F. pose proof (F p (nth_error_In _ _ E)) as W.
    assert (J : p_index p = Z.of_nat k).
    { assert (J : nth_error (map p_index (prepare_params (frag_params frags))) k = Some (p_index p)) by now apply map_nth_error.
      rewrite I in J. rewrite (map_nth_error Z.of_nat k (seq 0 (Z.to_nat n)) (d := k)) in J; [congruence|].
      rewrite (nth_error_nth' _ O) by (rewrite seq_length; lia). rewrite seq_nth; [reflexivity|lia]. }
    rewrite J in W. eapply wire_ty_unique; eauto.
  Qed.

  Lemma DF_intro : forall s tys m b args, arg_types s m tys -> DTs tys b args -> DF s b args.
  Proof.
    intros s tys m b args H [k K]. destruct (arg_types_prepare _ _ _ H) as (frags & _ & E1 & E2).
    exists (S k). intros [|fuel] L rest; [lia|]. cbn [decode_format]. rewrite E1.
    rewrite <- (K fuel) by lia.
    erewrite decode_params_types; [reflexivity|]. rewrite E2, map_map. cbn [p_ty]. now rewrite map_id.
  Qed.

  (** ** Single arguments *)
  Lemma DT_prim : forall x p v a, prim_of_ty x = Some p -> prim_means addr tbl p v a -> DT x (put_prim addr p v) a.
  Proof.
    intros x p v a E H. unfold DT.
    assert (PW : forall w, 256 ^ Z.of_nat (width_bytes w) = 2 ^ (8 * Z.of_nat (width_bytes w))).
    { intros. apply pow256. lia. }
    destruct H; destruct x; try discriminate E; try (injection E as <-); cbn [decode_ty put_prim].
    - apply (reads_bind_ret _ _ (fun _ => read_i (width_bytes w0)) AIxx). apply reads_i; [destruct w0; cbn; lia|auto].
    - apply (reads_bind_ret _ _ (fun _ => read_i 4) AIxx). apply reads_i; [lia|auto].
    - apply (reads_bind_ret _ _ (fun _ => read_u (width_bytes w0)) AUxx). apply reads_u_exact. now rewrite PW.
    - apply (reads_bind_ret _ _ (fun _ => read_u 4) AUxx). apply reads_u_exact. auto.
    - apply (reads_bind_ret _ _ (fun _ => read_u 4) AF32). apply reads_u_exact. auto.
    - apply (reads_bind_ret _ _ (fun _ => read_u 8) AF64). apply reads_u_exact. auto.
    - apply reads_nil.
      eapply (reads_bind _ _ (fun _ => read_u 1) (fun _ v => if v =? 0 then ret (ABool false) else _)).
      + apply reads_u_exact. destruct b; cbn; lia.
      + destruct b; apply reads_ret.
    - eapply (reads_bind _ _ (fun _ => read_u 4) (fun _ n => rbind (read_bytes n) _)).
      + apply reads_u_exact. change (256 ^ Z.of_nat 4) with (2 ^ 32). lia.
      + apply reads_nil.
        eapply (reads_bind _ _ (fun _ => read_bytes _) (fun _ s => if utf8_valid s then _ else _)).
        * apply reads_bytes. reflexivity.
        * rewrite H. apply reads_ret.
    - destruct H as [H1 H2]. unfold put_istr. apply reads_nil.
      eapply (reads_bind _ _ (fun _ => read_u 2) (fun _ i => rbind (lift_option (get_without_level tbl i)) _)).
      + apply reads_u_exact. cbn; lia.
      + rewrite H2. exists O. reflexivity.
    - apply reads_nil.
      eapply (reads_bind _ _ (fun _ => read_u 4) (fun _ c => if is_scalar c then _ else _)).
      + apply reads_u_exact. change (256 ^ Z.of_nat 4) with (2 ^ 32). unfold is_scalar, in_range in H.
        apply orb_true_iff in H as [H|H]; apply andb_true_iff in H as [A B]; lia.
      + rewrite H. apply reads_ret.
  Qed.

  Lemma DT_text : forall x s, x = TDebug \/ x = TDisplay -> utf8_valid s = true -> DT x (s ++ [255]) (APreformatted s).
  Proof.
    intros x s Hx H. exists O. intros fuel _ rest.
    assert (P : position (fun x => x =? 255) ((s ++ [255]) ++ rest) = Some (length s)).
    { rewrite <- app_assoc. apply position_app; [|reflexivity].
      apply utf8_valid_bound in H. eapply Forall_impl; [|exact H]. cbn. intros a Ha.
      destruct (Z.eqb_spec a 255); auto. lia. }
    assert (E : (let data := firstn (length s) ((s ++ [255]) ++ rest) in
                 if utf8_valid data then Ok (APreformatted data, skipn (S (length s)) ((s ++ [255]) ++ rest))
                 else Err RzcobsModel.Malformed) = Ok (APreformatted s, rest)).
    { cbv zeta. rewrite <- app_assoc, firstn_app_exact, H.
      replace (S (length s)) with (length (s ++ [255])) by (rewrite app_length; cbn; lia).
      rewrite app_assoc, skipn_app_exact. reflexivity. }
    destruct Hx as [-> | ->]; cbn [decode_ty]; rewrite P; exact E.
  Qed.

  Lemma DT_bytes : forall s, Z.of_nat (length s) < 2 ^ 32 ->
    DT TU8Slice (le_bytes 4 (Z.of_nat (length s)) ++ s) (ASlice s).
  Proof.
    intros s H. unfold DT. cbn [decode_ty].
    eapply (reads_bind _ _ (fun _ => read_u 4) (fun _ n => rbind (read_bytes n) _)).
    - apply reads_u_exact. change (256 ^ Z.of_nat 4) with (2 ^ 32). lia.
    - apply (reads_bind_ret _ _ (fun _ => read_bytes _) ASlice). apply reads_bytes. reflexivity.
  Qed.

  Lemma DT_byte_array : forall s n, n = Z.of_nat (length s) -> DT (TU8Array n) s (ASlice s).
  Proof.
    intros s n ->. unfold DT. cbn [decode_ty].
    apply (reads_bind_ret _ _ (fun _ => read_bytes _) ASlice). apply reads_bytes. reflexivity.
  Qed.

  Lemma size_eq : forall lo hi, 0 <= lo -> lo < hi -> hi <= 128 ->
    bitfield_size lo hi = Some (truncated_size lo hi).
  Proof.
    intros lo hi H1 H2 H3. destruct (bitfield_size_some lo hi H1 H2 H3) as [n E]. rewrite E. f_equal.
    unfold bitfield_size, truncated_size in *. cbv zeta in *.
    set (sz := (hi - 1) / 8 - lo / 8 + 1) in *.
    destruct (sz =? 1); [congruence|]. destruct (sz =? 2); [congruence|].
    destruct ((3 <=? sz) && (sz <=? 4)); [congruence|]. destruct ((5 <=? sz) && (sz <=? 8)); [congruence|].
    destruct ((9 <=? sz) && (sz <=? 16)); congruence.
  Qed.

  Lemma byte_window_le : forall lo hi x, 0 <= lo -> 0 <= x -> 0 <= byte_window lo hi x <= x.
  Proof.
    intros lo hi x H1 H2. unfold byte_window. cbv zeta.
    assert (0 <= lo / 8) by (apply Z.div_pos; lia).
    assert (P : 0 < 2 ^ (lo / 8 * 8)) by (apply Z.pow_pos_nonneg; lia).
    assert (Q : 0 < 2 ^ (8 * Z.of_nat (truncated_size lo hi))) by (apply Z.pow_pos_nonneg; lia).
    pose proof (Z.mod_pos_bound (x / 2 ^ (lo / 8 * 8)) _ Q).
    assert (R : 0 <= x / 2 ^ (lo / 8 * 8)) by (apply Z.div_pos; lia).
    pose proof (Z.mod_le (x / 2 ^ (lo / 8 * 8)) _ R Q).
    pose proof (Z.mul_div_le x _ P). nia.
  Qed.

  Lemma DT_bits : forall lo hi w x, 0 <= lo -> lo < hi -> hi <= 128 ->
    0 <= x < 2 ^ (8 * Z.of_nat (width_bytes w)) ->
    DT (TBitField lo hi) (put_bits lo hi x) (AUxx (byte_window lo hi x)).
  Proof.
    intros lo hi w x H1 H2 H3 Hx. unfold DT. cbn [decode_ty]. rewrite size_eq by auto.
    assert (0 <= lo / 8) by (apply Z.div_pos; lia).
    replace (AUxx (byte_window lo hi x)) with
      (AUxx (Z.shiftl ((Z.shiftr x (lo / 8 * 8)) mod 256 ^ Z.of_nat (truncated_size lo hi)) (lo / 8 * 8) mod u128_mod)).
    - apply (reads_bind_ret _ _ (fun _ => read_u _) (fun v => AUxx (Z.shiftl v (lo / 8 * 8) mod u128_mod))).
      apply reads_u.
    - f_equal. rewrite Z.shiftl_mul_pow2, Z.shiftr_div_pow2, pow256 by lia.
      fold (byte_window lo hi x). apply Z.mod_small.
      pose proof (byte_window_le lo hi x H1 (proj1 Hx)).
      assert (2 ^ (8 * Z.of_nat (width_bytes w)) <= u128_mod).
      { unfold u128_mod. apply Z.pow_le_mono_r; [lia|]. destruct w; cbn; lia. }
      lia.
  Qed.

  (** ** Tagged values *)
  Definition DV (s : bytes) (b : bytes) (f : bytes) (args : list arg) : Prop :=
    reads (fun n => rbind (if has_bar s then get_variant s else ret s) (fun v =>
                    rbind (decode_format tbl n v) (fun a => ret (v, a)))) b (f, args).

  Lemma rbind_ret_l : forall A B (a : A) (f : A -> reader B) b, rbind (ret a) f b = f a b.
  Proof. reflexivity. Qed.

  Lemma DV_plain : forall s b args, has_bar s = false -> DF s b args -> DV s b s args.
  Proof.
    intros s b args Hs H. unfold DV. rewrite Hs.
    apply (reads_bind_ret _ _ (fun n => decode_format tbl n s) (fun a => (s, a))) in H.
    destruct H as [k K]. exists k. intros fuel L rest. rewrite rbind_ret_l. apply K; auto.
  Qed.

  Lemma DV_plain_inv : forall s b f args, has_bar s = false -> DV s b f args -> f = s /\ DF s b args.
  Proof.
    intros s b f args Hs [k K]. rewrite Hs in K.
    assert (f = s).
    { specialize (K k (le_n _) []). rewrite rbind_ret_l in K. apply rbind_ok in K as (a & r1 & K1 & K2).
      cbv in K2. congruence. }
    subst. split; auto. exists k. intros fuel L rest. specialize (K fuel L rest). rewrite rbind_ret_l in K.
    apply rbind_ok in K as (a & r1 & K1 & K2). injection K2 as <- <-. exact K1.
  Qed.

  Lemma DT_format : forall s b f args, linked s -> DV s b f args ->
    DT TFormat (put_istr addr s ++ b) (AFormat f args).
  Proof.
    intros s b f args Hs H. unfold DT. cbn [decode_ty].
    eapply (reads_bind _ _ (fun _ => get_format tbl) (fun n f => rbind (if has_bar f then get_variant f else ret f) _));
      [apply reads_get_format; auto|].
    apply (reads_bind_ret _ _ _ (fun va => AFormat (fst va) (snd va))) in H.
    destruct H as [k K]. exists k. intros fuel L rest. specialize (K fuel L rest).
    cbn [fst snd] in K. rewrite <- K. rewrite rbind_assoc.
    unfold rbind at 1 3. destruct ((if has_bar s then get_variant s else ret s) (b ++ rest)) as [[v r]| | |]; cbn [bind fst snd]; auto.
    rewrite rbind_assoc. reflexivity.
  Qed.
End Proofs.
