(** Which signed integers cannot be shown (C23). *)
From Verif Require Import Base ParserModel DecoderModel DisplayModel.

Lemma signed_panics : forall x t h, format_i128 x t h = None <->
  (forall n, t <> TI n) /\ exists alt up w, h = Some (HHex alt up w).
Proof.
  intros x t h. split.
  - destruct h as [[]|]; cbn [format_i128]; try discriminate. destruct t; try discriminate; intros _; split; try discriminate; eauto.
  - intros [N (alt & up & w & ->)]. unfold format_i128. destruct t; try reflexivity. exfalso. eapply N. reflexivity.
Qed.
