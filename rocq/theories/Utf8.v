(** UTF-8: well-formedness as checked by [core::str::from_utf8] /
    [String::from_utf8] (Unicode standard, table 3-7), scalar values, and the
    encoding of scalars ([char::encode_utf8]). *)
From Verif Require Import Base.

Definition in_range (lo hi b : Z) : bool := (lo <=? b) && (b <=? hi).

(** [core::str::from_utf8]: transcription of table 3-7. *)
Fixpoint utf8_valid (s : bytes) : bool :=
  match s with
  | [] => true
  | a :: s1 =>
      if in_range 0 127 a then utf8_valid s1
      else match s1 with
      | [] => false
      | b :: s2 =>
          if in_range 194 223 a then in_range 128 191 b && utf8_valid s2
          else match s2 with
          | [] => false
          | c :: s3 =>
              if (a =? 224) && in_range 160 191 b
                 || in_range 225 236 a && in_range 128 191 b
                 || (a =? 237) && in_range 128 159 b
                 || in_range 238 239 a && in_range 128 191 b
              then in_range 128 191 c && utf8_valid s3
              else match s3 with
              | [] => false
              | d :: s4 =>
                  if (a =? 240) && in_range 144 191 b
                     || in_range 241 243 a && in_range 128 191 b
                     || (a =? 244) && in_range 128 143 b
                  then in_range 128 191 c && in_range 128 191 d && utf8_valid s4
                  else false
              end
          end
      end
  end.

(** [char::from_u32]: Unicode scalar values. *)
Definition is_scalar (c : Z) : bool :=
  in_range 0 55295 c || in_range 57344 1114111 c.

(** [char::encode_utf8]. *)
Definition utf8_encode (c : Z) : bytes :=
  if c <? 128 then [c]
  else if c <? 2048 then [192 + c / 64; 128 + c mod 64]
  else if c <? 65536 then [224 + c / 4096; 128 + (c / 64) mod 64; 128 + c mod 64]
  else [240 + c / 262144; 128 + (c / 4096) mod 64; 128 + (c / 64) mod 64; 128 + c mod 64].

(** Text as a sequence of chars. *)
Definition utf8_text (cs : list Z) : bytes := concat (map utf8_encode cs).

(** Decoding into scalars, for display purposes: [None] if not well-formed. *)
Fixpoint utf8_decode (s : bytes) : option (list Z) :=
  match s with
  | [] => Some []
  | a :: s1 =>
      if in_range 0 127 a then option_map (cons a) (utf8_decode s1)
      else match s1 with
      | [] => None
      | b :: s2 =>
          if in_range 194 223 a then
            if in_range 128 191 b
            then option_map (cons ((a - 192) * 64 + (b - 128))) (utf8_decode s2)
            else None
          else match s2 with
          | [] => None
          | c :: s3 =>
              if (a =? 224) && in_range 160 191 b
                 || in_range 225 236 a && in_range 128 191 b
                 || (a =? 237) && in_range 128 159 b
                 || in_range 238 239 a && in_range 128 191 b
              then
                if in_range 128 191 c
                then option_map (cons ((a - 224) * 4096 + (b - 128) * 64 + (c - 128))) (utf8_decode s3)
                else None
              else match s3 with
              | [] => None
              | d :: s4 =>
                  if ((a =? 240) && in_range 144 191 b
                     || in_range 241 243 a && in_range 128 191 b
                     || (a =? 244) && in_range 128 143 b)
                     && in_range 128 191 c && in_range 128 191 d
                  then option_map
                         (cons ((a - 240) * 262144 + (b - 128) * 4096 + (c - 128) * 64 + (d - 128)))
                         (utf8_decode s4)
                  else None
              end
          end
      end
  end.

Ltac Zify.zify_post_hook ::= Z.div_mod_to_equations.

Lemma in_range_iff : forall lo hi b, in_range lo hi b = true <-> lo <= b <= hi.
Proof. intros. unfold in_range. lia. Qed.

Lemma in_range_false : forall lo hi b, in_range lo hi b = false <-> b < lo \/ hi < b.
Proof. intros. unfold in_range. lia. Qed.

(** Strong induction on byte strings by length. *)
Lemma bytes_length_ind : forall (P : bytes -> Prop),
  (forall s, (forall t, (length t < length s)%nat -> P t) -> P s) -> forall s, P s.
Proof.
  intros P H s. remember (length s) as n eqn:En.
  revert s En. induction n as [n IH] using lt_wf_ind. intros s En. apply H.
  intros t Ht. eapply IH; [|reflexivity]. lia.
Qed.

Lemma utf8_decode_valid : forall s, utf8_valid s = true <-> exists cs, utf8_decode s = Some cs.
Proof.
  induction s as [s IH] using bytes_length_ind.
  destruct s as [|a s1]; cbn [utf8_valid utf8_decode].
  { split; eauto. }
  assert (M : forall x t, (length t < length (a :: s1))%nat ->
     (utf8_valid t = true <-> exists cs, option_map (cons x) (utf8_decode t) = Some cs)).
  { intros x t Ht. rewrite (IH t Ht). destruct (utf8_decode t); cbn; split; intros [cs E]; eauto; discriminate. }
  cbn [length] in M.
  destruct (in_range 0 127 a). { apply M. lia. }
  destruct s1 as [|b s2]. { split; [discriminate|intros [? ?]; discriminate]. }
  cbn [length] in M.
  destruct (in_range 194 223 a).
  { destruct (in_range 128 191 b); cbn [andb]; [apply M; lia|split; [discriminate|intros [? ?]; discriminate]]. }
  destruct s2 as [|c s3]. { split; [discriminate|intros [? ?]; discriminate]. }
  cbn [length] in M.
  destruct ((a =? 224) && in_range 160 191 b || in_range 225 236 a && in_range 128 191 b
            || (a =? 237) && in_range 128 159 b || in_range 238 239 a && in_range 128 191 b).
  { destruct (in_range 128 191 c); cbn [andb]; [apply M; lia|split; [discriminate|intros [? ?]; discriminate]]. }
  destruct s3 as [|d s4]. { split; [discriminate|intros [? ?]; discriminate]. }
  cbn [length] in M.
  destruct ((a =? 240) && in_range 144 191 b || in_range 241 243 a && in_range 128 191 b
            || (a =? 244) && in_range 128 143 b); cbn [andb].
  2: { split; [discriminate|intros [? ?]; discriminate]. }
  destruct (in_range 128 191 c); cbn [andb]. 2: { split; [discriminate|intros [? ?]; discriminate]. }
  destruct (in_range 128 191 d); cbn [andb]. 2: { split; [discriminate|intros [? ?]; discriminate]. }
  apply M. lia.
Qed.

(** The bytes 0xC0, 0xC1 and 0xF5..0xFF never occur in UTF-8. *)
Lemma utf8_valid_bound : forall s, utf8_valid s = true -> Forall (fun b => 0 <= b <= 244) s.
Proof.
  induction s as [s IH] using bytes_length_ind. intro H.
  destruct s as [|a s1]; [constructor|]. cbn [utf8_valid] in H. cbn [length] in IH.
  destruct (in_range 0 127 a) eqn:E1.
  { apply in_range_iff in E1. constructor; [lia|apply IH; auto]. }
  destruct s1 as [|b s2]; [discriminate|]. cbn [length] in IH.
  destruct (in_range 194 223 a) eqn:E2.
  { apply andb_prop in H as [Hb H]. apply in_range_iff in E2, Hb.
    constructor; [lia|]. constructor; [lia|]. apply IH; auto; lia. }
  destruct s2 as [|c s3]; [discriminate|]. cbn [length] in IH.
  destruct ((a =? 224) && in_range 160 191 b || in_range 225 236 a && in_range 128 191 b
            || (a =? 237) && in_range 128 159 b || in_range 238 239 a && in_range 128 191 b) eqn:E3.
  { apply andb_prop in H as [Hc H]. unfold in_range in *.
    constructor; [lia|]. constructor; [lia|]. constructor; [lia|]. apply IH; auto; lia. }
  destruct s3 as [|d s4]; [discriminate|]. cbn [length] in IH.
  destruct ((a =? 240) && in_range 144 191 b || in_range 241 243 a && in_range 128 191 b
            || (a =? 244) && in_range 128 143 b) eqn:E4; [|discriminate].
  apply andb_prop in H as [H Hv]. unfold in_range in *.
  constructor; [lia|]. constructor; [lia|]. constructor; [lia|]. constructor; [lia|].
  apply IH; auto; lia.
Qed.

Lemma utf8_decode_encode : forall c r, is_scalar c = true ->
  utf8_decode (utf8_encode c ++ r) = option_map (cons c) (utf8_decode r).
Proof.
  intros c r H. unfold is_scalar, in_range in H. unfold utf8_encode.
  destruct (Z.ltb_spec c 128).
  { cbn [app utf8_decode]. unfold in_range.
    replace ((0 <=? c) && (c <=? 127)) with true by lia. reflexivity. }
  destruct (Z.ltb_spec c 2048).
  { cbn [app utf8_decode]. unfold in_range.
    replace ((0 <=? 192 + c / 64) && (192 + c / 64 <=? 127)) with false by lia.
    replace ((194 <=? 192 + c / 64) && (192 + c / 64 <=? 223)) with true by lia.
    replace ((128 <=? 128 + c mod 64) && (128 + c mod 64 <=? 191)) with true by lia.
    do 2 f_equal. lia. }
  destruct (Z.ltb_spec c 65536).
  { cbn [app utf8_decode]. unfold in_range.
    replace ((0 <=? 224 + c / 4096) && (224 + c / 4096 <=? 127)) with false by lia.
    replace ((194 <=? 224 + c / 4096) && (224 + c / 4096 <=? 223)) with false by lia.
    match goal with |- context [if ?b then _ else _] => replace b with true end.
    2: { symmetry. set (h := 224 + c / 4096). set (m := 128 + (c / 64) mod 64).
         assert (224 <= h <= 239) by lia. assert (128 <= m <= 191) by lia.
         assert (h = 224 -> 160 <= m) by lia. assert (h = 237 -> m <= 159) by lia.
         clearbody h m. lia. }
    replace ((128 <=? 128 + c mod 64) && (128 + c mod 64 <=? 191)) with true by lia.
    do 2 f_equal. lia. }
  cbn [app utf8_decode]. unfold in_range.
  replace ((0 <=? 240 + c / 262144) && (240 + c / 262144 <=? 127)) with false by lia.
  replace ((194 <=? 240 + c / 262144) && (240 + c / 262144 <=? 223)) with false by lia.
  set (h := 240 + c / 262144). set (m := 128 + (c / 4096) mod 64).
  assert (240 <= h <= 244) by lia. assert (128 <= m <= 191) by lia.
  assert (h = 240 -> 144 <= m) by lia. assert (h = 244 -> m <= 143) by lia.
  match goal with |- context [if ?b then _ else _] => replace b with false by (clearbody h m; lia) end.
  match goal with |- context [if ?b then _ else _] => replace b with true end.
  2: { symmetry. set (x := 128 + (c / 64) mod 64). set (y := 128 + c mod 64).
       assert (128 <= x <= 191) by lia. assert (128 <= y <= 191) by lia.
       clearbody h m x y. lia. }
  do 2 f_equal. subst h m. lia.
Qed.

Lemma utf8_decode_text : forall cs, Forall (fun c => is_scalar c = true) cs ->
  utf8_decode (utf8_text cs) = Some cs.
Proof.
  induction cs as [|c cs IH]; intro H; unfold utf8_text; cbn [map List.concat]; auto.
  inversion H; subst. rewrite utf8_decode_encode by auto. fold (utf8_text cs).
  rewrite IH by auto. reflexivity.
Qed.

Lemma utf8_text_valid : forall cs, Forall (fun c => is_scalar c = true) cs ->
  utf8_valid (utf8_text cs) = true.
Proof.
  intros cs H. apply utf8_decode_valid. exists cs. apply utf8_decode_text. auto.
Qed.
