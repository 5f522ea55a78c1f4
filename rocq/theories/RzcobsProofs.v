From Verif Require Import Base RzcobsModel.

(* ------------------------------------------------------------------ *)
(** * Splitting of writes *)

Lemma write_app : forall a b e,
  write e (a ++ b) =
  let '(e1, o1) := write e a in
  let '(e2, o2) := write e1 b in (e2, o1 ++ o2).
Proof.
  induction a as [|x a IH]; intros b e; cbn [write app].
  - destruct (write e b). reflexivity.
  - destruct (write_byte e x) as [e1 o1]. rewrite IH.
    destruct (write e1 a) as [e2 o2]. destruct (write e2 b) as [e3 o3].
    rewrite app_assoc. reflexivity.
Qed.

Lemma writes_concat : forall cs e, writes e cs = write e (concat cs).
Proof.
  induction cs as [|c cs IH]; intro e; cbn [writes List.concat]; auto.
  rewrite write_app. destruct (write e c) as [e1 o1]. rewrite IH. reflexivity.
Qed.

Lemma frame_chunks_concat : forall e cs,
  frame_chunks e cs = frame_chunks e [concat cs].
Proof.
  intros e cs. unfold frame_chunks. destruct (start_frame e) as [e0 o0].
  rewrite !writes_concat. cbn [List.concat]. rewrite app_nil_r. reflexivity.
Qed.

(* ------------------------------------------------------------------ *)
(** * Decoder facts *)

Lemma dec_bits_length : forall is x d p r,
  dec_bits is x d = Some (p, r) -> (length r <= length d)%nat.
Proof.
  induction is as [|i is IH]; intros x d p r H; cbn [dec_bits] in H.
  - inversion H; subst. lia.
  - destruct (Z.land x (Z.shiftl 1 (6 - i)) =? 0).
    + destruct d as [|y d]; try discriminate.
      destruct (dec_bits is x d) as [[p' r']|] eqn:E; try discriminate.
      inversion H; subst. apply IH in E. cbn [length]. lia.
    + destruct (dec_bits is x d) as [[p' r']|] eqn:E; try discriminate.
      inversion H; subst. apply IH in E. lia.
Qed.

Lemma dec_run_length : forall n d p r,
  dec_run n d = Some (p, r) -> (length r <= length d)%nat.
Proof.
  induction n as [|n IH]; intros d p r H; cbn [dec_run] in H.
  - inversion H; subst. lia.
  - destruct d as [|y d]; try discriminate.
    destruct (dec_run n d) as [[p' r']|] eqn:E; try discriminate.
    inversion H; subst. apply IH in E. cbn [length]. lia.
Qed.

Lemma dec_symbol_length : forall x d p r,
  dec_symbol x d = Some (p, r) -> (length r <= length d)%nat.
Proof.
  intros x d p r H. unfold dec_symbol in H.
  destruct (x =? 0); try discriminate.
  destruct (x <=? 127).
  - eapply dec_bits_length; eauto.
  - destruct (x <=? 254).
    + destruct (dec_run _ d) as [[p' r']|] eqn:E; try discriminate.
      inversion H; subst. eapply dec_run_length; eauto.
    + eapply dec_run_length; eauto.
Qed.

Lemma rz_loop_total : forall fuel d, (length d <= fuel)%nat ->
  (exists m, rz_loop fuel d = Ok m) \/ rz_loop fuel d = Err Malformed.
Proof.
  induction fuel as [|f IH]; intros d H; destruct d as [|x d]; cbn [length] in H; try lia;
    cbn [rz_loop]; eauto.
  destruct (dec_symbol x d) as [[p r]|] eqn:E; auto.
  apply dec_symbol_length in E.
  destruct (IH r) as [[m Hm]|Hm]; try lia; rewrite Hm; cbn [bind]; eauto.
Qed.

Lemma rz_loop_fuel : forall f1 f2 d, (length d <= f1)%nat -> (length d <= f2)%nat ->
  rz_loop f1 d = rz_loop f2 d.
Proof.
  induction f1 as [|f1 IH]; intros f2 d H1 H2; destruct d as [|x d]; cbn [length] in *; try lia.
  - destruct f2; reflexivity.
  - destruct f2; reflexivity.
  - destruct f2 as [|f2]; try lia. cbn [rz_loop].
    destruct (dec_symbol x d) as [[p r]|] eqn:E; auto.
    apply dec_symbol_length in E. rewrite (IH f2) by lia. reflexivity.
Qed.

Lemma rzcobs_decode_total : forall d,
  (exists m, rzcobs_decode d = Ok m) \/ rzcobs_decode d = Err Malformed.
Proof.
  intro d. unfold rzcobs_decode.
  destruct (rz_loop_total (length d) (rev d)) as [[m H]|H].
  - rewrite rev_length. lia.
  - rewrite H. cbn [bind]. eauto.
  - rewrite H. cbn [bind]. eauto.
Qed.

(* ------------------------------------------------------------------ *)
(** * Round trip *)

(** Non-zero bytes of a group: what the encoder emits before the symbol. *)
Definition nz (l : bytes) : bytes := filter (fun b => negb (b =? 0)) l.

Fixpoint mask (i : Z) (l : bytes) : Z :=
  match l with
  | [] => 0
  | b :: l' => Z.lor (if b =? 0 then Z.shiftl 1 i else 0) (mask (i + 1) l')
  end.

Definition D (out m : bytes) : Prop :=
  forall fuel, (length out <= fuel)%nat -> rz_loop fuel (rev out) = Ok (rev m).

Lemma D_nil : D [] [].
Proof. intros fuel _. destruct fuel; reflexivity. Qed.

Lemma D_step : forall out m g o x,
  D out m ->
  dec_symbol x (rev o ++ rev out) = Some (rev g, rev out) ->
  D (out ++ o ++ [x]) (m ++ g).
Proof.
  intros out m g o x HD HS fuel Hf.
  rewrite !app_length in Hf. cbn [length] in Hf.
  rewrite !rev_app_distr. cbn [rev app].
  destruct fuel as [|f]; try lia. cbn [rz_loop].
  rewrite HS. rewrite HD by lia. cbn [bind]. reflexivity.
Qed.

Lemma D_decode : forall out m, D out m -> rzcobs_decode out = Ok m.
Proof.
  intros out m H. unfold rzcobs_decode. rewrite H by lia. cbn [bind].
  rewrite rev_involutive. reflexivity.
Qed.

Lemma dec_run_exact : forall l r, dec_run (length l) (l ++ r) = Some (l, r).
Proof.
  induction l as [|x l IH]; intro r; cbn [dec_run length app]; auto.
  rewrite IH. reflexivity.
Qed.

Lemma nz_id : forall l, Forall (fun b => b <> 0) l -> nz l = l.
Proof.
  induction l as [|x l IH]; intro H; cbn [nz filter]; auto.
  inversion H; subst. destruct (Z.eqb_spec x 0); try contradiction.
  cbn [negb]. f_equal. apply IH; auto.
Qed.

Lemma nz_app : forall a b, nz (a ++ b) = nz a ++ nz b.
Proof. intros. apply filter_app. Qed.

Lemma nz_nonzero : forall l, Forall (fun b => b <> 0) (nz l).
Proof.
  induction l as [|x l IH]; cbn [nz filter]; auto.
  destruct (Z.eqb_spec x 0); cbn [negb]; auto.
Qed.

Lemma mask_app : forall a i b, mask i (a ++ b) = Z.lor (mask i a) (mask (i + Z.of_nat (length a)) b).
Proof.
  induction a as [|x a IH]; intros i b; cbn [mask app length].
  - rewrite Z.add_0_r. reflexivity.
  - rewrite IH, Z.lor_assoc. do 2 f_equal. lia.
Qed.

Ltac split_zero g :=
  destruct (Z.eqb_spec g 0) as [?|?];
  [ subst g | let H := fresh "E" in assert (H : (g =? 0) = false) by (apply Z.eqb_neq; assumption) ].

(** A full group of seven bytes that contains a zero. *)
Lemma dec_symbol_group : forall g r, length g = 7%nat -> mask 0 g <> 0 ->
  dec_symbol (mask 0 g) (rev (nz g) ++ r) = Some (rev g, r).
Proof.
  intros g r Hl Hm.
  destruct g as [|a [|b [|c [|d [|e [|f [|h [|? ?]]]]]]]]; cbn [length] in Hl; try lia.
  clear Hl. unfold nz. cbn [mask filter] in *.
  destruct (Z.eqb_spec a 0), (Z.eqb_spec b 0), (Z.eqb_spec c 0), (Z.eqb_spec d 0),
    (Z.eqb_spec e 0), (Z.eqb_spec f 0), (Z.eqb_spec h 0); subst;
    try (exfalso; apply Hm; reflexivity); reflexivity.
Qed.

(** A final, incomplete group: the missing bytes decode as zeros. *)
Lemma dec_symbol_partial : forall g r, (0 < length g < 7)%nat ->
  let x := Z.land (Z.lor (mask 0 g) (Z.shiftl 255 (Z.of_nat (length g)))) 127 in
  dec_symbol x (rev (nz g) ++ r) = Some (rev (g ++ repeat 0 (7 - length g)), r) /\ x <> 0 /\ byte_ok x.
Proof.
  intros g r Hl.
  destruct g as [|a [|b [|c [|d [|e [|f [|? ?]]]]]]]; cbn [length] in Hl; try lia;
    clear Hl; unfold nz, byte_ok; cbn [mask filter length] in *;
    repeat match goal with
      | |- context [?v =? 0] => is_var v; destruct (Z.eqb_spec v 0)
      end; subst; repeat split; solve [reflexivity | discriminate].
Qed.

Lemma mask_bound7 : forall g, length g = 7%nat -> 0 <= mask 0 g < 128.
Proof.
  intros g Hl.
  destruct g as [|a [|b [|c [|d [|e [|f [|h [|? ?]]]]]]]]; cbn [length] in Hl; try lia.
  clear Hl. cbn [mask].
  destruct (a =? 0), (b =? 0), (c =? 0), (d =? 0), (e =? 0), (f =? 0), (h =? 0);
    split; try reflexivity; discriminate.
Qed.

Lemma mask_nonzero : forall g i, Forall (fun b => b <> 0) g -> mask i g = 0.
Proof.
  induction g as [|x g IH]; intros i H; cbn [mask]; auto.
  inversion H; subst. destruct (Z.eqb_spec x 0); try contradiction.
  rewrite IH; auto.
Qed.

Lemma mask_zero_nonzero : forall g i, 0 <= i -> mask i g = 0 -> Forall (fun b => b <> 0) g.
Proof.
  induction g as [|x g IH]; intros i Hi H; constructor; cbn [mask] in H;
    apply Z.lor_eq_0_iff in H as [H1 H2].
  - intro E. subst. cbn in H1. rewrite Z.shiftl_1_l in H1.
    pose proof (Z.pow_pos_nonneg 2 i). lia.
  - apply IH with (i := i + 1); auto. lia.
Qed.

(** Symbol for a run of [7 <= n < 134] non-zero bytes followed by a zero. *)
Lemma run_symbol : forall n, 7 <= n < 134 ->
  Z.lor (n - 7) 128 = n - 7 + 128.
Proof.
  intros n H.
  assert (A : forall k, (k < 127)%nat -> Z.lor (Z.of_nat k) 128 = Z.of_nat k + 128).
  { intros k Hk. do 127 (destruct k as [|k]; [reflexivity|]). lia. }
  specialize (A (Z.to_nat (n - 7))). rewrite Z2Nat.id in A by lia. apply A. lia.
Qed.

Lemma run_symbol_land : forall n, 7 <= n < 134 ->
  Z.land (n - 7 + 128) 127 = n - 7.
Proof.
  intros n H.
  assert (A : forall k, (k < 127)%nat -> Z.land (Z.of_nat k + 128) 127 = Z.of_nat k).
  { intros k Hk. do 127 (destruct k as [|k]; [reflexivity|]). lia. }
  specialize (A (Z.to_nat (n - 7))). rewrite Z2Nat.id in A by lia. apply A. lia.
Qed.

Lemma dec_symbol_run : forall g r, 7 <= Z.of_nat (length g) < 134 ->
  dec_symbol (Z.lor (Z.of_nat (length g) - 7) 128) (rev g ++ r) = Some (rev (g ++ [0]), r).
Proof.
  intros g r H. rewrite run_symbol by lia. unfold dec_symbol.
  destruct (Z.eqb_spec (Z.of_nat (length g) - 7 + 128) 0); try lia.
  destruct (Z.leb_spec (Z.of_nat (length g) - 7 + 128) 127); try lia.
  destruct (Z.leb_spec (Z.of_nat (length g) - 7 + 128) 254); try lia.
  rewrite run_symbol_land by lia.
  replace (Z.to_nat (Z.of_nat (length g) - 7 + 7)) with (length (rev g)) by (rewrite rev_length; lia).
  rewrite dec_run_exact. rewrite rev_app_distr. reflexivity.
Qed.

Lemma dec_symbol_full : forall g r, length g = 134%nat ->
  dec_symbol 255 (rev g ++ r) = Some (rev g, r).
Proof.
  intros g r H. unfold dec_symbol. cbn [Z.eqb Z.leb Z.compare Pos.compare Pos.compare_cont].
  rewrite <- (rev_length g) in H. rewrite <- H. apply dec_run_exact.
Qed.

(** Invariant of a frame in progress: [m] written, [out] emitted. *)
Record inv (e : encoder) (m out : bytes) : Prop := Inv {
  inv_split : exists m1 cur out1,
    m = m1 ++ cur /\ out = out1 ++ nz cur /\ D out1 m1 /\
    Forall (fun b => b <> 0) out1 /\
    run e = Z.of_nat (length cur) /\
    (134 * Z.of_nat (length out1) <= 135 * Z.of_nat (length m1)) /\
    zeros e = mask 0 cur /\
    (run e < 7 \/ (7 <= run e < 134 /\ Forall (fun b => b <> 0) cur))
}.

Lemma inv_init : forall e, run e = 0 -> zeros e = 0 -> inv e [] [].
Proof.
  intros e Hr Hz. constructor. exists [], [], []. rewrite Hr, Hz.
  repeat split; auto using D_nil; cbn; lia.
Qed.

Lemma nz_length : forall l, (length (nz l) <= length l)%nat.
Proof.
  induction l as [|x l IH]; cbn [nz filter length]; auto.
  destruct (negb (x =? 0)); cbn [length]; fold (nz l); lia.
Qed.

Lemma nz_length_mask : forall l i, 0 <= i -> mask i l <> 0 -> (length (nz l) < length l)%nat.
Proof.
  induction l as [|x l IH]; intros i Hi Hm.
  - cbn [mask] in Hm. congruence.
  - cbn [nz filter length mask] in *. fold (nz l) in *. destruct (Z.eqb_spec x 0); cbn [negb].
    + pose proof (nz_length l). lia.
    + cbn [length]. rewrite Z.lor_0_l in Hm. specialize (IH (i + 1)). lia.
Qed.

Lemma inv_step : forall e m out b, inv e m out ->
  let '(e', o) := write_byte e b in inv e' (m ++ [b]) (out ++ o) /\ started e' = started e.
Proof.
  intros e m out b [(m1 & cur & out1 & Hm & Ho & HD & Hnz & Hr & Hlen & Hz & Hc)].
  unfold write_byte.
  destruct (Z.ltb_spec (run e) 7) as [Hr7|Hr7].
  - (* run < 7 *)
    set (z := if b =? 0 then Z.lor (zeros e) (Z.shiftl 1 (run e)) else zeros e).
    assert (Ez : z = mask 0 (cur ++ [b])).
    { rewrite mask_app. cbn [mask]. rewrite Z.lor_0_r, <- Hz, Z.add_0_l, <- Hr. subst z.
      destruct (b =? 0); auto. rewrite Z.lor_0_r. reflexivity. }
    assert (Eo : nz (cur ++ [b]) = nz cur ++ (if b =? 0 then [] else [b])).
    { rewrite nz_app. f_equal. unfold nz. cbn [filter]. destruct (b =? 0); reflexivity. }
    assert (El : length (cur ++ [b]) = S (length cur)) by (rewrite app_length; cbn; lia).
    cbv zeta.
    destruct ((run e + 1 =? 7) && negb (z =? 0)) eqn:Ec.
    + apply andb_prop in Ec as [E1 E2]. apply Z.eqb_eq in E1.
      apply negb_true_iff, Z.eqb_neq in E2.
      assert (L7 : length (cur ++ [b]) = 7%nat) by lia.
      split; [|reflexivity]. constructor.
      exists (m1 ++ cur ++ [b]), [], (out1 ++ nz (cur ++ [b]) ++ [z]).
      cbn [nz filter run zeros length mask].
      repeat split; auto; try lia.
      * subst m. rewrite app_nil_r, <- app_assoc. reflexivity.
      * subst out. rewrite Eo, app_nil_r, <- !app_assoc. reflexivity.
      * apply D_step; auto. rewrite Ez. apply dec_symbol_group; auto. congruence.
      * apply Forall_app; split; auto. apply Forall_app; split; auto using nz_nonzero.
      * rewrite !app_length. cbn [length].
        assert (length (nz (cur ++ [b])) < length (cur ++ [b]))%nat.
        { apply nz_length_mask with (i := 0); [lia|congruence]. }
        rewrite app_length in L7. cbn [length] in L7. rewrite app_length in H. cbn [length] in H. lia.
    + split; [|reflexivity]. constructor.
      exists m1, (cur ++ [b]), out1. cbn [run zeros].
      repeat split; auto; try lia.
      * subst m. rewrite <- app_assoc. reflexivity.
      * subst out. rewrite Eo, <- !app_assoc. reflexivity.
      * destruct (Z.ltb_spec (run e + 1) 7); [left; lia|right].
        split; try lia. destruct (Z.eqb_spec (run e + 1) 7); try lia.
        cbn [andb] in Ec. apply negb_false_iff, Z.eqb_eq in Ec.
        apply mask_zero_nonzero with (i := 0); [lia|congruence].
  - destruct Hc as [Hc|[Hr2 Hcn]]; try lia.
    destruct (Z.eqb_spec b 0) as [Eb|Eb].
    + subst b. split; [|reflexivity]. constructor.
      exists (m1 ++ cur ++ [0]), [], (out1 ++ cur ++ [Z.lor (run e - 7) 128]).
      cbn [nz filter run zeros length mask].
      repeat split; auto; try lia.
      * subst m. rewrite app_nil_r, <- app_assoc. reflexivity.
      * subst out. rewrite (nz_id cur), app_nil_r, <- app_assoc by auto. reflexivity.
      * apply D_step; auto. rewrite Hr. apply dec_symbol_run. lia.
      * apply Forall_app; split; auto. apply Forall_app; split; auto.
        constructor; [rewrite run_symbol by lia; lia|auto].
      * rewrite !app_length. cbn [length]. lia.
    + cbv zeta. destruct (Z.eqb_spec (run e + 1) 134) as [E|E].
      * split; [|reflexivity]. constructor.
        exists (m1 ++ cur ++ [b]), [], (out1 ++ (cur ++ [b]) ++ [255]).
        assert (L : length (cur ++ [b]) = 134%nat) by (rewrite app_length; cbn [length]; lia).
        cbn [nz filter run zeros length mask].
        repeat split; auto; try lia.
        -- subst m. rewrite app_nil_r, <- app_assoc. reflexivity.
        -- subst out. rewrite (nz_id cur), app_nil_r, <- !app_assoc by auto. reflexivity.
        -- apply D_step; auto. apply dec_symbol_full; auto.
        -- apply Forall_app; split; auto. apply Forall_app; split; auto.
           ++ apply Forall_app; split; auto.
           ++ constructor; auto; lia.
        -- rewrite app_length in L. rewrite !app_length. cbn [length] in *. lia.
      * split; [|reflexivity]. constructor.
        exists m1, (cur ++ [b]), out1. cbn [run zeros].
        assert (Hcn' : Forall (fun b => b <> 0) (cur ++ [b])) by (apply Forall_app; auto).
        repeat split; auto.
        -- subst m. rewrite <- app_assoc. reflexivity.
        -- subst out. rewrite (nz_id (cur ++ [b])), (nz_id cur), <- app_assoc by auto. reflexivity.
        -- rewrite app_length. cbn [length]. lia.
        -- rewrite Hz, !mask_nonzero by auto. reflexivity.
        -- right. split; auto. lia.
Qed.

Lemma inv_write : forall d e m out, inv e m out ->
  let '(e', o) := write e d in inv e' (m ++ d) (out ++ o) /\ started e' = started e.
Proof.
  induction d as [|b d IH]; intros e m out H; cbn [write].
  - rewrite !app_nil_r. auto.
  - pose proof (inv_step e m out b H) as H1.
    destruct (write_byte e b) as [e1 o1]. destruct H1 as [H1 S1].
    specialize (IH _ _ _ H1). destruct (write e1 d) as [e2 o2]. destruct IH as [IH S2].
    rewrite <- !app_assoc in IH. split; [exact IH|congruence].
Qed.

(** End of frame: body decodes to the data plus at most six zeros. *)
Lemma inv_end : forall e m out, inv e m out ->
  exists body k, out ++ snd (end_frame e) = body ++ [0] /\
    D body (m ++ repeat 0 k) /\ (k <= 6)%nat /\
    Forall (fun b => b <> 0) body /\
    (m <> [] -> body <> []) /\
    134 * Z.of_nat (length body) <= 135 * Z.of_nat (length m) + 134.
Proof.
  intros e m out [(m1 & cur & out1 & Hm & Ho & HD & Hnz & Hr & Hlen & Hz & Hc)].
  unfold end_frame. cbn [snd].
  destruct (Z.eqb_spec (run e) 0) as [E0|E0].
  - assert (cur = []) by (destruct cur; auto; cbn [length] in Hr; lia). subst cur.
    exists out1, O. cbn [nz filter repeat] in *. rewrite !app_nil_r in *. subst m out.
    repeat split; auto; try lia.
    intros Hne He. subst out1. apply D_decode in HD. cbn in HD. congruence.
  - destruct (Z.leb_spec (run e) 6).
    + assert (Hg : (0 < length cur < 7)%nat) by lia.
      destruct (dec_symbol_partial cur (rev out1) Hg) as (A & B & C).
      rewrite Hz, Hr. set (x := Z.land _ 127) in *.
      exists (out1 ++ nz cur ++ [x]), (7 - length cur)%nat.
      repeat split; try lia.
      * subst out. rewrite <- !app_assoc. reflexivity.
      * subst m. rewrite <- app_assoc. apply D_step; auto.
      * apply Forall_app; split; auto. apply Forall_app; split; auto using nz_nonzero.
      * intros _ He. apply app_eq_nil in He as [_ He]. apply app_eq_nil in He as [_ He]. discriminate.
      * subst m. rewrite !app_length. cbn [length]. pose proof (nz_length cur). lia.
    + destruct Hc as [Hc|[Hr2 Hcn]]; try lia.
      exists (out1 ++ cur ++ [Z.lor (run e - 7) 128]), 1%nat.
      repeat split; try lia.
      * subst out. rewrite (nz_id cur), <- !app_assoc by auto. reflexivity.
      * subst m. rewrite <- app_assoc. apply D_step; auto. rewrite Hr.
        change (repeat 0 1) with [0]. apply dec_symbol_run. lia.
      * apply Forall_app; split; auto. apply Forall_app; split; auto.
        constructor; [rewrite run_symbol by lia; lia|auto].
      * intros _ He. apply app_eq_nil in He as [_ He]. apply app_eq_nil in He as [_ He]. discriminate.
      * subst m. rewrite !app_length. cbn [length]. lia.
Qed.

(** Encoder state between frames. *)
Definition idle (e : encoder) : Prop := run e = 0 /\ zeros e = 0.

Lemma idle_new : idle enc_new.
Proof. split; reflexivity. Qed.

(** What one frame puts on the wire. *)
Lemma frame_spec : forall e chunks, idle e ->
  exists body k,
    snd (frame_chunks e chunks) = (if started e then [] else [0]) ++ body ++ [0] /\
    rzcobs_decode body = Ok (concat chunks ++ repeat 0 k) /\ (k <= 6)%nat /\
    Forall (fun b => b <> 0) body /\
    (concat chunks <> [] -> body <> []) /\
    134 * Z.of_nat (length body) <= 135 * Z.of_nat (length (concat chunks)) + 134 /\
    idle (fst (frame_chunks e chunks)) /\ started (fst (frame_chunks e chunks)) = true.
Proof.
  intros e chunks [Hr Hz]. unfold frame_chunks.
  destruct (start_frame e) as [e0 o0] eqn:Es.
  assert (H0 : run e0 = 0 /\ zeros e0 = 0 /\ started e0 = true /\ o0 = if started e then [] else [0]).
  { unfold start_frame in Es. destruct (started e) eqn:S; inversion Es; subst; cbn; auto. }
  destruct H0 as (Hr0 & Hz0 & Hs0 & Ho0).
  rewrite writes_concat.
  pose proof (inv_write (concat chunks) e0 [] [] (inv_init e0 Hr0 Hz0)) as HI.
  destruct (write e0 (concat chunks)) as [e1 o1]. destruct HI as [HI HS]. cbn [app] in HI.
  destruct (inv_end _ _ _ HI) as (body & k & A & B & C & E & F & G).
  destruct (end_frame e1) as [e2 o2] eqn:Ee. cbn [snd fst] in *.
  exists body, k. repeat split; auto.
  - rewrite Ho0, A. reflexivity.
  - apply D_decode; auto.
  - unfold end_frame in Ee. inversion Ee; subst. reflexivity.
  - unfold end_frame in Ee. inversion Ee; subst. reflexivity.
  - unfold end_frame in Ee. inversion Ee; subst. cbn [started]. congruence.
Qed.

(* ------------------------------------------------------------------ *)
(** * The output consists of bytes *)

Definition enc_ok (e : encoder) : Prop := 0 <= run e < 134 /\ 0 <= zeros e < 128.

Lemma shift1_bound : forall r, 0 <= r < 7 -> 0 <= Z.shiftl 1 r < 2 ^ 7.
Proof.
  intros r H. rewrite Z.shiftl_1_l. split; [apply Z.pow_nonneg; lia|].
  apply Z.pow_lt_mono_r; lia.
Qed.

Lemma write_byte_ok : forall e b, enc_ok e -> byte_ok b ->
  enc_ok (fst (write_byte e b)) /\ bytes_ok (snd (write_byte e b)).
Proof.
  intros e b [Hr Hz] Hb. unfold write_byte.
  assert (Z0 : 0 <= (if b =? 0 then Z.lor (zeros e) (Z.shiftl 1 (run e)) else zeros e) < 128 \/ 7 <= run e).
  { destruct (Z.ltb_spec (run e) 7); [left|right; lia]. destruct (b =? 0); auto.
    change 128 with (2 ^ 7). apply lor_bound; [lia|change (2 ^ 7) with 128; lia|]. apply shift1_bound; lia. }
  assert (R : 7 <= run e -> 0 <= Z.lor (run e - 7) 128 < 256).
  { intro. change 256 with (2 ^ 8). apply lor_bound; change (2 ^ 8) with 256; lia. }
  cbv zeta. set (z := if b =? 0 then Z.lor (zeros e) (Z.shiftl 1 (run e)) else zeros e) in *.
  assert (O1 : bytes_ok (if b =? 0 then [] else [b])).
  { destruct (b =? 0); [constructor|]. repeat constructor; apply Hb. }
  unfold enc_ok, bytes_ok in *.
  destruct (Z.ltb_spec (run e) 7).
  - destruct ((run e + 1 =? 7) && negb (z =? 0)) eqn:E; cbn [fst snd run zeros]; split; try lia; auto.
    apply Forall_app; split; auto. constructor; [|constructor]. unfold byte_ok. lia.
  - destruct (b =? 0); cbn [fst snd run zeros].
    + split; [lia|]. constructor; [|constructor]. apply R; lia.
    + destruct (Z.eqb_spec (run e + 1) 134); cbn [fst snd run zeros]; split; try lia;
        repeat constructor; try apply Hb; lia.
Qed.

Lemma write_ok : forall d e, enc_ok e -> bytes_ok d ->
  enc_ok (fst (write e d)) /\ bytes_ok (snd (write e d)).
Proof.
  induction d as [|b d IH]; intros e He Hd; cbn [write].
  - split; [auto|constructor].
  - inversion Hd; subst. destruct (write_byte_ok e b He H1) as [A B].
    destruct (write_byte e b) as [e1 o1]. destruct (IH e1 A H2) as [C E].
    destruct (write e1 d) as [e2 o2]. cbn [fst snd] in *. split; auto. apply Forall_app; auto.
Qed.

Lemma frame_bytes_ok : forall e chunks, idle e -> Forall bytes_ok chunks ->
  bytes_ok (snd (frame_chunks e chunks)).
Proof.
  intros e chunks [Hr Hz] Hc. rewrite frame_chunks_concat.
  assert (Hd : bytes_ok (concat chunks)).
  { induction Hc; cbn [List.concat]; [constructor|]. apply Forall_app; auto. }
  unfold frame_chunks. cbn [writes].
  assert (W : enc_ok (fst (start_frame e)) /\ bytes_ok (snd (start_frame e))).
  { unfold start_frame, enc_ok. destruct (started e); cbn [fst snd run zeros]; rewrite ?Hr, ?Hz;
      split; try lia; repeat constructor; unfold byte_ok; lia. }
  destruct (start_frame e) as [e0 o0]. destruct W as [W1 W2]. cbn [fst snd] in *.
  destruct (write_ok (concat chunks) e0 W1 Hd) as [A B].
  destruct (write e0 (concat chunks)) as [e1 o1]. cbn [fst snd] in *.
  unfold end_frame. cbn [snd]. apply Forall_app; split; auto. rewrite app_nil_r.
  apply Forall_app; split; auto. apply Forall_app; split; [|repeat constructor; lia].
  destruct A as [A1 A2]. destruct (Z.eqb_spec (run e1) 0); [constructor|].
  destruct (Z.leb_spec (run e1) 6); (constructor; [|constructor]); unfold byte_ok.
  - change 127 with (Z.ones 7). rewrite Z.land_ones by lia. change (2 ^ 7) with 128.
    pose proof (Z.mod_pos_bound (Z.lor (zeros e1) (Z.shiftl 255 (run e1))) 128). lia.
  - change 256 with (2 ^ 8). apply lor_bound; change (2 ^ 8) with 256; lia.
Qed.

Lemma frames_idle : forall fs e, idle e -> idle (fst (frames_chunks e fs)).
Proof.
  induction fs as [|f fs IH]; intros e He; cbn [frames_chunks]; auto.
  destruct (frame_spec e f He) as (_ & _ & _ & _ & _ & _ & _ & _ & I & _).
  destruct (frame_chunks e f) as [e1 o1]. specialize (IH e1 I).
  destruct (frames_chunks e1 fs) as [e2 o2]. auto.
Qed.

Lemma frame_spec_reach : forall history chunks,
  exists sep body k,
    snd (frame_chunks (fst (frames_chunks enc_new history)) chunks) = sep ++ body ++ [0] /\
    sep = (match history with [] => [0] | _ => [] end) /\
    rzcobs_decode body = Ok (concat chunks ++ repeat 0 k) /\ (k <= 6)%nat /\
    ~ In 0 body /\
    (concat chunks <> [] -> body <> []) /\
    134 * Z.of_nat (length body) <= 135 * Z.of_nat (length (concat chunks)) + 134 /\
    (Forall bytes_ok chunks -> bytes_ok body).
Proof.
  intros history chunks. set (e := fst (frames_chunks enc_new history)).
  assert (I : idle e) by (apply frames_idle, idle_new).
  destruct (frame_spec e chunks I) as (body & k & A & B & C & E & F & G & _).
  exists (if started e then [] else [0]), body, k. repeat split; auto.
  - assert (S : started e = match history with [] => false | _ => true end).
    { subst e. destruct history as [|f fs]; [reflexivity|]. cbn [frames_chunks].
      destruct (frame_spec enc_new f idle_new) as (_ & _ & _ & _ & _ & _ & _ & _ & I1 & S1).
      destruct (frame_chunks enc_new f) as [e1 o1]. cbn [fst] in *. revert e1 I1 S1.
      clear. induction fs as [|g fs IH]; intros e1 I1 S1; cbn [frames_chunks]; auto.
      destruct (frame_spec e1 g I1) as (_ & _ & _ & _ & _ & _ & _ & _ & I2 & S2).
      destruct (frame_chunks e1 g) as [e2 o2]. cbn [fst] in *. specialize (IH e2 I2 S2).
      destruct (frames_chunks e2 fs) as [e3 o3]. cbn [fst] in *.
      destruct (frames_chunks e2 fs). auto. }
    rewrite S. destruct history; reflexivity.
  - intro H. rewrite Forall_forall in E. apply (E 0 H). reflexivity.
  - intro Hc. pose proof (frame_bytes_ok e chunks I Hc) as Hb. rewrite A in Hb.
    unfold bytes_ok in *. apply Forall_app in Hb as [_ Hb]. apply Forall_app in Hb as [Hb _]. auto.
Qed.

(* ------------------------------------------------------------------ *)
(** * The properties in the form they are stated *)

Lemma C01_lemma : forall (history : list (list bytes)) (chunks : list bytes),
  exists sep body k,
    snd (frame_chunks (fst (frames_chunks enc_new history)) chunks) = sep ++ body ++ [0] /\
    (sep = [] \/ sep = [0]) /\
    ~ In 0 body /\
    rzcobs_decode body = Ok (concat chunks ++ repeat 0 k) /\
    (k <= 6)%nat.
Proof.
  intros h c. destruct (frame_spec_reach h c) as (sep & body & k & A & B & C & D & E & _).
  exists sep, body, k. repeat split; auto. subst sep. destruct h; auto.
Qed.

Lemma C02_lemma : forall (history : list (list bytes)) (chunks : list bytes),
  exists body,
    snd (frame_chunks (fst (frames_chunks enc_new history)) chunks) =
      (match history with [] => [0] | _ :: _ => [] end) ++ body ++ [0] /\
    ~ In 0 body /\
    (concat chunks <> [] -> body <> []) /\
    (Forall bytes_ok chunks -> bytes_ok body).
Proof.
  intros h c. destruct (frame_spec_reach h c) as (sep & body & k & A & B & C & D & E & F & G & H).
  exists body. subst sep. repeat split; auto.
Qed.

Lemma C03_lemma : forall (e : encoder) (chunks1 chunks2 : list bytes),
  concat chunks1 = concat chunks2 -> frame_chunks e chunks1 = frame_chunks e chunks2.
Proof. intros e c1 c2 H. rewrite frame_chunks_concat, H, <- frame_chunks_concat. reflexivity. Qed.

Lemma C03_raw_lemma : forall chunks1 chunks2 : list bytes,
  concat chunks1 = concat chunks2 -> raw_frame_chunks chunks1 = raw_frame_chunks chunks2.
Proof.
  intros c1 c2 H. unfold raw_frame_chunks.
  assert (E : forall c, concat (map raw_write c) = concat c).
  { induction c as [|x c IH]; cbn [map List.concat]; [reflexivity|]. rewrite IH. reflexivity. }
  rewrite !E, H. reflexivity.
Qed.

Lemma C04_lemma : forall (history : list (list bytes)) (chunks : list bytes),
  let n := Z.of_nat (length (concat chunks)) in
  let separators := match history with [] => 2 | _ :: _ => 1 end in
  Z.of_nat (length (snd (frame_chunks (fst (frames_chunks enc_new history)) chunks)))
    <= n + n / 134 + 1 + separators.
Proof.
  intros h c. cbv zeta. destruct (frame_spec_reach h c) as (sep & body & k & A & B & _ & _ & _ & _ & G & _).
  rewrite A, !app_length. cbn [length].
  set (n := Z.of_nat (length (concat c))) in *.
  assert (Z.of_nat (length body) <= n + n / 134 + 1).
  { pose proof (Z.div_mod n 134 ltac:(lia)). pose proof (Z.mod_pos_bound n 134 ltac:(lia)). lia. }
  subst sep. destruct h; cbn [length]; lia.
Qed.
