From Verif Require Import Base ParserModel ParserProofs Numerals FormatSpec RenderProofs ParserMore.

Lemma C18_lemma : forall s m fs, parse s m = Ok fs ->
  well_typed (frag_params fs) /\
  (forall p lo hi, In p (frag_params fs) -> p_ty p = TBitField lo hi -> 0 <= lo /\ lo < hi /\ hi <= 128).
Proof.
  intros s m fs H. apply parse_parsed_ok in H as (n & [H1 H2 H3 H4 H5]). split.
  - exists n. repeat split; auto; apply H2; auto.
  - intros p lo hi Hp E. specialize (H5 p Hp). rewrite E in H5. exact H5.
Qed.

Definition ex_items : list item :=
  [ILit (lit "x={ "); IParam (Some 1) (Some (TBitField 0 8)) (Some (HHex true false 4)); ILit (lit " ");
   IParam None (Some (TU8Array 4)) (Some HAscii); IParam (Some 2) None None].

(** Decision procedures for the two conditions of C22. *)
Definition after_num (key : Z) (check : bytes -> bytes -> bool) : bytes -> bool :=
  fix go (s : bytes) :=
    match s with
    | [] => true
    | c :: s' =>
        (if c =? key then
           let d := digits s' in
           if (d =? 0)%nat then true else check (firstn d s') (skipn d s')
         else true) && go s'
    end.

Lemma after_num_ok : forall key check s, after_num key check s = true ->
  forall a ds r, s = a ++ key :: ds ++ r -> all_digits ds -> ds <> [] -> no_digit_first r -> check ds r = true.
Proof.
  intros key check. induction s as [|c s IH]; intros H a ds r E A NE ND.
  - destruct a; discriminate.
  - cbn [after_num] in H. apply andb_true_iff in H as [H1 H2]. destruct a as [|x a]; cbn [app] in E; inversion E.
    + subst. rewrite Z.eqb_refl in H1. cbv zeta in H1. rewrite digits_exact, firstn_app_exact, skipn_app_exact in H1 by auto.
      destruct ds; [congruence|]. cbn [length Nat.eqb] in H1. exact H1.
    + subst. eapply IH; eauto.
Qed.

Definition dots (r : bytes) : bool :=
  match r with
  | a :: b :: r' => (a =? 46) && (b =? 46) && match r' with c :: _ => negb ((128 <=? c) && (c <? 192)) | [] => true end
  | _ => false
  end.

Lemma dots_ok : forall r, dots r = true ->
  exists r', r = lit ".." ++ r' /\ match r' with c :: _ => ~ (128 <= c < 192) | [] => True end.
Proof.
  intros [|a [|b r']]; cbn [dots]; try discriminate. intro H. apply andb_true_iff in H as [H H3].
  exists r'. split.
  - change (lit "..") with [46; 46]. cbn [app]. repeat f_equal; lia.
  - destruct r'; auto. apply negb_true_iff, andb_false_iff in H3. lia.
Qed.

Definition ranges_complete_b (s : bytes) : bool := after_num 61 (fun _ r => dots r) s.
Definition indices_small_b (s : bytes) : bool := after_num 123 (fun ds _ => negb (dec_value 0 ds =? usize_max)) s.

Lemma ranges_complete_b_ok : forall s, ranges_complete_b s = true -> ranges_complete s.
Proof. intros s H a ds r E A NE ND. apply dots_ok. exact (after_num_ok _ _ _ H a ds r E A NE ND). Qed.

Lemma indices_small_b_ok : forall s, indices_small_b s = true -> indices_small s.
Proof.
  intros s H a ds r E A NE ND. pose proof (after_num_ok _ _ _ H a ds r E A NE ND) as X. cbn in X.
  apply negb_true_iff, Z.eqb_neq in X. exact X.
Qed.

Lemma C22_ex_lemma : ranges_complete (lit "{=0..4} {=u8:x} }") /\ indices_small (lit "{=0..4} {=u8:x} }").
Proof. split; [apply ranges_complete_b_ok|apply indices_small_b_ok]; vm_compute; reflexivity. Qed.

Lemma C45_ex_lemma : items_ok Strict ex_items /\ well_typed (frag_params (meaning 0 ex_items)) /\
  show_items ex_items = lit "x={{ {1=0..8:#04x} {=[u8;4]:a}{2}".
Proof.
  split; [|split].
  - unfold ex_items. cbn [items_ok item_ok show_ty_ok show_hint_ok]. unfold usize_max. repeat split; try lia; discriminate.
  - eapply C18_lemma with (s := show_items ex_items) (m := Strict). vm_compute. reflexivity.
  - vm_compute. reflexivity.
Qed.
