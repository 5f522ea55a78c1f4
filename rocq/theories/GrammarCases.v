(** Consequences of the grammar, and strings beyond the documentation. *)
From Verif Require Import Base ParserModel ParserProofs FormatSpec GrammarSpec Numerals ParserMore RenderProofs
  GrammarProofs GrammarMain GrammarPanic ParserExamples.

Lemma format_nil_iff : forall m next s, format m next s [] <-> s = [].
Proof.
  intros m next s. split; [|intros ->; constructor]. intro H. remember (@nil fragment) as w eqn:W.
  destruct H; auto; discriminate.
Qed.

Lemma well_typed_nil : well_typed [].
Proof. exists 0. repeat split; try lia; intros; contradiction. Qed.

(** Texts without parameters. *)
Lemma parse_text_iff : forall s m v, Z.of_nat (length s) <= usize_max ->
  (parse s m = Ok [FLit v] <-> s <> [] /\ literal false s v).
Proof.
  intros s m v U. rewrite parse_iff by auto. split.
  - intros (F & _). remember [FLit v] as w eqn:W.
    destruct F as [|next text v' s1 fs1 NE Li B F|]; try discriminate.
    inversion W; subst. apply format_nil_iff in F. subst s1. rewrite app_nil_r. auto.
  - intros (NE & Li). split; [|split].
    + rewrite <- (app_nil_r s). constructor; auto. constructor.
    + apply well_typed_nil.
    + intros p [].
Qed.

(** Parameters without an opening brace inside contribute one parameter. *)
Lemma nested_plain : forall m next s ps next', ~ In 123 s -> nested m next s ps next' -> ps = [] /\ next' = next.
Proof.
  intros m next s ps next' N H. induction H as [next|next c s ps next' Nc H IH|next s ps next' H IH|next s p ps next' Ns PT1 H IH]; auto.
  - apply IH. intro X. apply N. right. exact X.
  - exfalso. apply N. left. reflexivity.
  - exfalso. apply N. left. reflexivity.
Qed.

Lemma type_text_no_open : forall s t, type_text s t -> ~ In 123 s.
Proof.
  assert (C : forall s, forallb (fun c => negb (c =? 123)) s = true -> ~ In 123 s).
  { intros s H X. rewrite forallb_forall in H. apply H in X. discriminate. }
  assert (D : forall s n, number s n -> ~ In 123 s).
  { intros s n H X. apply number_digits in H. unfold all_digits in H. rewrite Forall_forall in H. apply H in X. discriminate. }
  intros s t H. destruct H as [w|w| | | | | | | | | | | | | | |sp ds n F N L|sp ds n F N L|a b lo hi Na Nb L M];
    try (destruct w); try (apply C; reflexivity); rewrite !in_app_iff.
  - intros [X|[X|[X|X]]].
    + revert X. apply C. reflexivity.
    + rewrite Forall_forall in F. apply F in X. discriminate.
    + revert X. eapply D; eauto.
    + revert X. apply C. reflexivity.
  - intros [X|[X|[X|X]]].
    + revert X. apply C. reflexivity.
    + rewrite Forall_forall in F. apply F in X. discriminate.
    + revert X. eapply D; eauto.
    + revert X. apply C. reflexivity.
  - intros [X|[X|X]].
    + revert X. eapply D; eauto.
    + revert X. apply C. reflexivity.
    + revert X. eapply D; eauto.
Qed.

(** In strict mode only the text of an internal bitflags hint can contain an opening brace. *)
Lemma strict_open : forall s p, param_text Strict s p -> In 123 s ->
  exists a b, s = a ++ lit "__internal_bitflags_" ++ b /\ In 123 b /\ ~ In 123 a.
Proof.
  assert (C : forall s, forallb (fun c => negb (c =? 123)) s = true -> ~ In 123 s).
  { intros s H X. rewrite forallb_forall in H. apply H in X. discriminate. }
  assert (D : forall s n, number s n -> ~ In 123 s).
  { intros s n H X. apply number_digits in H. unfold all_digits in H. rewrite Forall_forall in H. apply H in X. discriminate. }
  intros s p [a b c i t h HI HTy HH] X.
  assert (Na : ~ In 123 a) by (destruct HI; [intros []|eapply D; eauto]).
  assert (Nb : ~ In 123 b).
  { destruct HTy as [|x t T]; [intros []|]. intros [Y|Y]; [discriminate|]. revert Y. eapply type_text_no_open; eauto. }
  apply in_app_iff in X as [X|X]; [contradiction|]. apply in_app_iff in X as [X|X]; [contradiction|].
  destruct HH as [|x h NE HT1|x M]; [contradiction| |discriminate].
  destruct X as [X|X]; [discriminate|].
  destruct HT1 as [alt cs z name h CT HN].
  assert (Nc : ~ In 123 ((if alt then lit "#" else []) ++ cs)).
  { rewrite in_app_iff. intros [Y|Y].
    - destruct alt; [revert Y; apply C; reflexivity|contradiction].
    - destruct CT as [|ds n N L]; [contradiction|]. destruct Y as [Y|Y]; [discriminate|]. revert Y. eapply D; eauto. }
  rewrite app_assoc in X. apply in_app_iff in X as [X|X]; [contradiction|].
  assert (B : exists y, name = lit "__internal_bitflags_" ++ y).
  { destruct HN; try (eexists; reflexivity); exfalso; revert X; apply C; reflexivity. }
  destruct B as (y & ->).
  exists (a ++ b ++ 58 :: (if alt then lit "#" else []) ++ cs), y. repeat split.
  - rewrite <- !app_assoc. cbn [app]. rewrite <- !app_assoc. reflexivity.
  - apply in_app_iff in X as [X|X]; auto. exfalso. revert X. apply C. reflexivity.
  - rewrite !in_app_iff. intros [Y|[Y|Y]]; auto. destruct Y as [Y|Y]; [discriminate|]. auto.
Qed.


Lemma odd_string_parses : exists fs, parse (lit "}}{01=003..08:#010X}}{{}b{=[u8;  04]:#00us}") Strict = Ok fs /\
  fs = [FLit (lit "}"); FParam (MkParameter 1 (TBitField 3 8) (Some (HHex true true 10)));
        FLit (lit "}{}b"); FParam (MkParameter 0 (TU8Array 4) (Some (HSeconds Micros)))].
Proof. eexists. split; vm_compute; reflexivity. Qed.
