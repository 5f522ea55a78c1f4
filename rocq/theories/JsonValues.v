From Verif Require Import Base Utf8 ParserModel DecoderModel Numerals DisplayModel SymbolModel SymbolProofs JsonSpec JsonScalars.

(** [ignore_value] skips exactly the values of the grammar. *)

Lemma closing_iff : forall o c, brackets o c <-> (o = 91 \/ o = 123) /\ c = closing o.
Proof.
  intros o c. split.
  - intros []; split; auto.
  - intros [[-> | ->] ->]; constructor.
Qed.

Lemma closing_head : forall o, o = 91 \/ o = 123 -> is_ws (closing o) = false /\ closing o <> 44 /\ In (closing o) [93; 125].
Proof. intros o [-> | ->]; (split; [reflexivity|]; split; [discriminate|cbn; auto]). Qed.

Lemma key_frame : forall o k, key_text o k -> o = 91 \/ o = 123.
Proof. intros o k []; auto. Qed.

(* ------------------------------------------------------------------ *)
(** * Without the fuel *)

Definition passes (stack : list Z) (s r : bytes) : Prop := exists n, ignore_value n stack s = Ok r.

Definition goes (n : closed) (r : bytes) : Prop :=
  match n with CDone t => t = r | CNext f st t => exists u, ignore_key f t = Ok u /\ passes (f :: st) u r end.

Definition close_all (stack : list Z) (t : bytes) : outcome unit closed :=
  match stack with [] => Ok (CDone t) | f :: st => close_brackets true f st t end.

(** The rest [t] behind a value with open brackets [stack] is read up to [r]. *)
Definition resumes (stack : list Z) (t r : bytes) : Prop := exists n, close_all stack t = Ok n /\ goes n r.

Lemma ignore_value_mono : forall n m stack s x, ignore_value n stack s = x -> x <> NoFuel -> (n <= m)%nat -> ignore_value m stack s = x.
Proof.
  induction n as [|n IH]; intros m stack s x H X L; [cbn in H; congruence|]. destruct m as [|m]; [lia|]. cbn [ignore_value] in H |- *.
  destruct (skip_ws s) as [|c r]; [exact H|].
  match type of H with bind ?a _ = _ => destruct a as [[t|f st t]| | |]; cbn [bind] in H |- *; auto end.
  destruct (ignore_key f t) as [u| | |]; cbn [bind] in H |- *; auto. apply IH; [exact H|exact X|lia].
Qed.

Lemma passes_fuel : forall stack s r n, passes stack s r -> (length s < n)%nat -> ignore_value n stack s = Ok r.
Proof.
  intros stack s r n (m & M) L. pose proof (ignore_value_fits n stack s (length s) L (Nat.le_refl _)) as T.
  destruct (Nat.le_ge_cases m n) as [D|D]; [apply (ignore_value_mono m); [exact M|discriminate|exact D]|].
  assert (X : ignore_value n stack s <> NoFuel) by (intros E; rewrite E in T; exact T).
  pose proof (ignore_value_mono n m stack s _ eq_refl X D) as Y. now rewrite <- Y.
Qed.

Lemma goes_passes : forall stack s n r c t, skip_ws s = c :: t ->
  (if (c =? 91) || (c =? 123) then close_brackets false c stack t else u <- ignore_scalar (c :: t) ;; close_all stack u) = Ok n ->
  goes n r -> passes stack s r.
Proof.
  intros stack s n r c t E H G. assert (K : forall k, ignore_value (S k) stack s =
    match n with CDone t => Ok t | CNext f st t => u <- ignore_key f t ;; ignore_value k (f :: st) u end).
  { intros k. cbn [ignore_value]. rewrite E. match goal with |- bind ?a _ = _ => replace a with (@Ok unit closed n) by (symmetry; exact H) end. reflexivity. }
  destruct n as [u|f st u]; cbn [goes] in G.
  - subst u. exists 1%nat. apply K.
  - destruct G as (v & V & k & G). exists (S k). rewrite K, V. exact G.
Qed.

(* ------------------------------------------------------------------ *)
(** * Every value is skipped *)

Lemma value_head : forall v, value v -> exists c r, v = c :: r /\ is_ws c = false /\ c <> 93.
Proof.
  intros v [s S|o c w B W|o w k w' u t W K W' V M].
  - destruct (scalar_head s S) as (c & r & -> & H). exists c, r. split; [reflexivity|]. unfold is_ws. cbn [In] in H. unfold decimal in H. lia.
  - exists o, (w ++ [c]). split; [reflexivity|]. destruct B; split; (reflexivity || discriminate).
  - exists o, (w ++ k ++ w' ++ u ++ t). split; [reflexivity|]. destruct (key_frame o k K) as [-> | ->]; split; (reflexivity || discriminate).
Qed.

Lemma blank_stop : forall w r, blank w -> stop r -> stop (w ++ r).
Proof. intros [|c w] r B S; [exact S|]. inversion B as [|? ? C]. subst. cbn [app stop]. cbn [In] in *. tauto. Qed.

Lemma more_stop : forall o t r, more o t -> stop (t ++ r).
Proof.
  intros o t r [o' c w B W|o' w w1 k w2 v t' W]; rewrite <- app_assoc; apply blank_stop; auto; cbn [app stop].
  - destruct B; cbn; tauto.
  - cbn. tauto.
Qed.

Lemma close_blank : forall w comma f st r, blank w -> close_brackets comma f st (w ++ r) = close_brackets comma f st r.
Proof. intros w comma f st r B. induction B as [|c w C B IH]; [reflexivity|]. cbn [app close_brackets]. apply ws_iff in C. now rewrite C. Qed.

Lemma close_here : forall comma f st r, f = 91 \/ f = 123 -> close_brackets comma f st (closing f :: r) = close_all st r.
Proof.
  intros comma f st r F. destruct (closing_head f F) as (W & N & _). cbn [close_brackets]. rewrite W, Z.eqb_refl.
  replace (closing f =? 44) with false by lia. reflexivity.
Qed.

Lemma close_first : forall f st c r, is_ws c = false -> c <> closing f -> close_brackets false f st (c :: r) = Ok (CNext f st (c :: r)).
Proof. intros f st c r W N. cbn [close_brackets]. rewrite W, andb_false_r. now replace (c =? closing f) with false by lia. Qed.

Lemma key_read : forall o k w r, key_text o k -> blank w -> exists w', blank w' /\ ignore_key o (w ++ k ++ r) = Ok (w' ++ r).
Proof.
  intros o k w r [|s u S U] B.
  - exists w. split; [exact B|reflexivity].
  - exists []. split; [constructor|]. unfold ignore_key. change (123 =? 123) with true. cbn iota. rewrite skip_blank by exact B.
    cbn [app]. rewrite skip_head by reflexivity. change (expect [34] (34 :: ?x)) with (@Ok unit bytes x). cbn [bind].
    rewrite <- app_assoc. cbn [app]. rewrite ignored_read by exact S. cbn [bind]. unfold expect_colon. rewrite <- app_assoc, skip_blank by exact U. reflexivity.
Qed.

Lemma values_pass :
  (forall v, value v -> forall stack w rest r, blank w -> stop rest -> resumes stack rest r -> passes stack (w ++ v ++ rest) r) /\
  (forall o t, more o t -> forall stack rest r, resumes stack rest r -> resumes (o :: stack) (t ++ rest) r).
Proof.
  assert (H : forall v, value v -> forall stack w rest r, blank w -> stop rest -> resumes stack rest r -> passes stack (w ++ v ++ rest) r).
  { apply (value_mut
      (fun v => forall stack w rest r, blank w -> stop rest -> resumes stack rest r -> passes stack (w ++ v ++ rest) r)
      (fun o t => forall stack rest r, resumes stack rest r -> resumes (o :: stack) (t ++ rest) r)).
    - intros s S stack w rest r W T (n & N & G). destruct (scalar_head s S) as (c & u & E & H).
      assert (D : is_ws c = false /\ (c =? 91) || (c =? 123) = false) by (unfold is_ws; cbn [In] in H; unfold decimal in H; lia).
      apply (goes_passes stack _ n r c (u ++ rest)); [|rewrite (proj2 D)|exact G].
      + rewrite skip_blank by exact W. rewrite E. cbn [app]. apply skip_head, D.
      + change (c :: u ++ rest) with ((c :: u) ++ rest). rewrite <- E, scalar_read by auto. exact N.
    - intros o c w' B W' stack w rest r W T (n & N & G). apply closing_iff in B as [O ->].
      apply (goes_passes stack _ n r o (w' ++ closing o :: rest)); [| |exact G].
      + rewrite skip_blank by exact W. cbn [app]. rewrite <- app_assoc. apply skip_head. destruct O as [-> | ->]; reflexivity.
      + replace ((o =? 91) || (o =? 123)) with true by lia. rewrite close_blank, close_here by auto. exact N.
    - intros o w0 k w' v t W0 K W' V IHv M IHt stack w rest r W T R.
      pose proof (key_frame o k K) as O. destruct (value_head v V) as (c & u & E & C & C').
      assert (N : exists n, close_brackets false o stack (w0 ++ k ++ w' ++ v ++ t ++ rest) = Ok n /\ goes n r).
      { inversion K as [E1 E2|s b S B E1 E2]; subst o k.
        - cbn [app]. rewrite app_assoc, close_blank by now apply blank_app. rewrite E. cbn [app]. rewrite close_first by auto.
          eexists. split; [reflexivity|]. cbn [goes]. eexists. split; [reflexivity|].
          change (c :: u ++ t ++ rest) with ([] ++ (c :: u) ++ t ++ rest). rewrite <- E.
          apply IHv; [constructor|now apply (more_stop 91)|now apply IHt].
        - rewrite close_blank by exact W0. cbn [app]. rewrite close_first by (reflexivity || discriminate).
          eexists. split; [reflexivity|]. cbn [goes].
          destruct (key_read 123 _ [] (w' ++ v ++ t ++ rest) K ltac:(constructor)) as (w2 & B2 & R2). cbn [app] in R2. rewrite <- app_assoc in R2. cbn [app] in R2.
          eexists. split; [rewrite <- !app_assoc; cbn [app]; rewrite <- !app_assoc; cbn [app]; rewrite <- !app_assoc in R2; exact R2|].
          rewrite app_assoc. apply IHv; [now apply blank_app|now apply (more_stop 123)|now apply IHt]. }
      destruct N as (n & N & G). apply (goes_passes stack _ n r o (w0 ++ k ++ w' ++ v ++ t ++ rest)); [| |exact G].
      + rewrite skip_blank by exact W. cbn [app]. rewrite <- !app_assoc. apply skip_head. destruct O as [-> | ->]; reflexivity.
      + replace ((o =? 91) || (o =? 123)) with true by lia. exact N.
    - intros o c w B W stack rest r (n & N & G). apply closing_iff in B as [O ->]. exists n. split; [|exact G]. cbn [close_all].
      rewrite <- app_assoc, close_blank by exact W. cbn [app]. now rewrite close_here.
    - intros o w w1 k w2 v t W W1 K W2 V IHv M IHt stack rest r R. rewrite <- app_assoc. cbn [app]. rewrite <- !app_assoc.
      exists (CNext o stack (w1 ++ k ++ w2 ++ v ++ t ++ rest)). split.
      + cbn [close_all]. rewrite close_blank by exact W. reflexivity.
      + cbn [goes]. destruct (key_read o k w1 (w2 ++ v ++ t ++ rest) K W1) as (w' & B & E). eexists. split; [exact E|].
        rewrite app_assoc. apply IHv; [now apply blank_app|now apply (more_stop o)|now apply IHt]. }
  split; [exact H|].
  intros o t M. induction M as [o c w B W|o w w1 k w2 v t W W1 K W2 V M IH]; intros stack rest r R.
  - destruct R as (n & N & G). apply closing_iff in B as [O ->]. exists n. split; [|exact G]. cbn [close_all].
    rewrite <- app_assoc, close_blank by exact W. cbn [app]. now rewrite close_here.
  - rewrite <- app_assoc. cbn [app]. rewrite <- !app_assoc.
    exists (CNext o stack (w1 ++ k ++ w2 ++ v ++ t ++ rest)). split.
    + cbn [close_all]. rewrite close_blank by exact W. reflexivity.
    + cbn [goes]. destruct (key_read o k w1 (w2 ++ v ++ t ++ rest) K W1) as (w' & B & E). eexists. split; [exact E|].
      rewrite app_assoc. apply H; [exact V|now apply blank_app|now apply (more_stop o)|now apply IH].
Qed.

Lemma value_skipped : forall v w rest n, value v -> blank w -> stop rest -> (length (w ++ v ++ rest) < n)%nat ->
  ignore_value n [] (w ++ v ++ rest) = Ok rest.
Proof.
  intros v w rest n V W T L. apply passes_fuel; [|exact L]. apply values_pass; auto. exists (CDone rest). split; reflexivity.
Qed.

(* ------------------------------------------------------------------ *)
(** * Only values are skipped *)

Inductive finishes : list Z -> bytes -> Prop :=
| F_nil : finishes [] []
| F_cons f st t c : more f t -> finishes st c -> finishes (f :: st) (t ++ c).

Definition opening (f : Z) : Prop := f = 91 \/ f = 123.

Lemma more_blank : forall o t c, In c [32; 10; 9; 13] -> more o t -> more o (c :: t).
Proof.
  intros o t c C [o' d w B W|o' w w1 k w2 v t' W W1 K W2 V M].
  - apply (M_close o' d (c :: w)); [exact B|now constructor].
  - apply (M_next o' (c :: w)); auto. now constructor.
Qed.

Lemma more_closing : forall o, opening o -> more o [closing o].
Proof. intros o O. apply (M_close o (closing o) []); [now apply closing_iff|constructor]. Qed.

(** What [close_brackets] has read when it stops. *)
Definition reached (stack : list Z) (t : bytes) (n : closed) : Prop :=
  match n with
  | CDone r => exists c, t = c ++ r /\ finishes stack c
  | CNext f st u => exists c, t = c ++ u /\ opening f /\ Forall opening st /\
      forall d e, more f (44 :: d) -> finishes st e -> finishes stack (c ++ d ++ e)
  end.

Lemma reached_blank : forall f st c t n, In c [32; 10; 9; 13] -> reached (f :: st) t n -> reached (f :: st) (c :: t) n.
Proof.
  intros f st c t n C. assert (K : forall x, finishes (f :: st) x -> finishes (f :: st) (c :: x)).
  { intros x F. inversion F as [|? ? a b M F']. subst. apply (F_cons f st (c :: a)); [now apply more_blank|exact F']. }
  destruct n as [r|g sg u]; cbn [reached].
  - intros (x & -> & F). exists (c :: x). split; [reflexivity|now apply K].
  - intros (x & -> & O & A & F). exists (c :: x). split; [reflexivity|]. split; [exact O|]. split; [exact A|]. intros d e M E. cbn [app]. now apply K, F.
Qed.

Lemma closes_only : forall t f st n, opening f -> Forall opening st -> close_brackets true f st t = Ok n -> reached (f :: st) t n.
Proof.
  induction t as [|c t IH]; intros f st n O A H; [discriminate|]. cbn [close_brackets] in H.
  destruct (is_ws c) eqn:W; [apply reached_blank; [now apply ws_iff|now apply IH]|]. rewrite andb_true_r in H.
  destruct (Z.eqb_spec c 44) as [->|N].
  { injection H as <-. cbn [reached]. exists [44]. split; [reflexivity|]. split; [exact O|]. split; [exact A|]. intros d e M E.
    apply (F_cons f st (44 :: d)); auto. }
  destruct (Z.eqb_spec c (closing f)) as [->|]; [|discriminate]. destruct st as [|g st].
  - injection H as <-. cbn [reached]. exists [closing f]. split; [reflexivity|]. apply (F_cons f [] [closing f] []); [now apply more_closing|constructor].
  - inversion A as [|? ? G A']. subst. specialize (IH g st n G A' H). destruct n as [r|g' sg u]; cbn [reached] in IH |- *.
    + destruct IH as (x & -> & F). exists (closing f :: x). split; [reflexivity|]. apply (F_cons f _ [closing f]); [now apply more_closing|exact F].
    + destruct IH as (x & -> & O' & A2 & F). exists (closing f :: x). split; [reflexivity|]. split; [exact O'|]. split; [exact A2|]. intros d e M E.
      apply (F_cons f _ [closing f]); [now apply more_closing|]. now apply F.
Qed.

Lemma close_all_only : forall stack t n, Forall opening stack -> close_all stack t = Ok n -> reached stack t n.
Proof.
  intros [|f st] t n A H; cbn [close_all] in H.
  - injection H as <-. exists []. split; [reflexivity|constructor].
  - inversion A. now apply closes_only.
Qed.

Lemma opens_only : forall s o st n, close_brackets false o st s = Ok n -> exists w u, blank w /\ s = w ++ u /\
  ((exists x, u = closing o :: x /\ close_all st x = Ok n) \/ n = CNext o st u).
Proof.
  induction s as [|c s IH]; intros o st n H; [discriminate|]. cbn [close_brackets] in H. rewrite andb_false_r in H.
  destruct (is_ws c) eqn:W.
  { destruct (IH o st n H) as (w & u & B & -> & D). exists (c :: w), u. split; [constructor; [now apply ws_iff|exact B]|]. split; [reflexivity|exact D]. }
  exists [], (c :: s). split; [constructor|]. split; [reflexivity|]. destruct (Z.eqb_spec c (closing o)) as [->|].
  - left. exists s. split; [reflexivity|exact H].
  - right. now injection H as <-.
Qed.

Lemma key_only : forall f t u, opening f -> ignore_key f t = Ok u -> exists w k, t = w ++ k ++ u /\ blank w /\ key_text f k.
Proof.
  intros f t u O H. unfold ignore_key in H. destruct O as [-> | ->].
  - change (91 =? 123) with false in H. injection H as <-. exists [], []. split; [reflexivity|]. split; constructor.
  - change (123 =? 123) with true in H. cbn iota in H. destruct (expect [34] (skip_ws t)) as [a| | |] eqn:A; try discriminate. cbn [bind] in H.
    destruct (ignore_str a) as [b| | |] eqn:B; try discriminate. cbn [bind] in H. apply expect_ok in A. apply ignored_only in B as (x & -> & X).
    unfold expect_colon in H. apply expect_ok in H. destruct (skip_split t) as (w & W & E). destruct (skip_split b) as (w' & W' & E').
    rewrite A in E. rewrite H in E'. exists w, (34 :: x ++ 34 :: w' ++ [58]). split; [|split; [exact W|now constructor]].
    rewrite E, E'. cbn [app]. rewrite <- !app_assoc. cbn [app]. rewrite <- !app_assoc. reflexivity.
Qed.

Lemma passes_only : forall n stack s r, Forall opening stack -> ignore_value n stack s = Ok r ->
  exists w v c, s = w ++ v ++ c ++ r /\ blank w /\ value v /\ finishes stack c.
Proof.
  induction n as [|n IH]; intros stack s r A H; [discriminate|]. cbn [ignore_value] in H. destruct (skip_split s) as (w & W & E).
  destruct (skip_ws s) as [|c t] eqn:S; [discriminate|].
  destruct (if (c =? 91) || (c =? 123) then close_brackets false c stack t else u <- ignore_scalar (c :: t) ;; close_all stack u) as [m| | |] eqn:M;
    (match type of H with bind ?a _ = _ => replace a with (if (c =? 91) || (c =? 123) then close_brackets false c stack t else u <- ignore_scalar (c :: t) ;; close_all stack u) in H by reflexivity end);
    rewrite M in H; cbn [bind] in H; try discriminate.
  (* the rest, once the value at the head has been read *)
  assert (K : forall x st, Forall opening st -> reached st x m -> exists c', x = c' ++ r /\ finishes st c').
  { intros x st A' R. destruct m as [y|g sg y]; cbn [reached] in R.
    - injection H as ->. exact R.
    - destruct R as (c' & -> & O & A2 & F). destruct (ignore_key g y) as [z| | |] eqn:Z; try discriminate. cbn [bind] in H.
      apply key_only in Z as (w1 & k & -> & W1 & Kt); [|exact O].
      destruct (IH (g :: sg) z r ltac:(now constructor) H) as (w2 & v & d & -> & W2 & V & Fd).
      inversion Fd as [|? ? a b Ma Fb]. subst. exists (c' ++ (w1 ++ k ++ w2 ++ v ++ a) ++ b).
      split; [rewrite <- !app_assoc; reflexivity|]. apply F; [|exact Fb]. apply (M_next g [] w1 k w2 v a); auto. constructor. }
  destruct ((c =? 91) || (c =? 123)) eqn:B.
  - assert (O : opening c) by (unfold opening; lia). apply opens_only in M as (w1 & u & W1 & -> & [(x & -> & M)| ->]).
    + apply close_all_only in M; [|exact A]. destruct (K x stack A M) as (d & -> & F).
      exists w, (c :: w1 ++ [closing c]), d. split; [rewrite E; cbn [app]; rewrite <- !app_assoc; reflexivity|]. split; [exact W|]. split; [|exact F].
      apply V_empty; [now apply closing_iff|exact W1].
    + destruct (ignore_key c u) as [z| | |] eqn:Z; try discriminate. cbn [bind] in H. apply key_only in Z as (w2 & k & -> & W2 & Kt); [|exact O].
      destruct (IH (c :: stack) z r ltac:(now constructor) H) as (w3 & v & d & -> & W3 & V & Fd).
      inversion Fd as [|? ? a b Ma Fb]. subst. exists w, (c :: (w1 ++ w2) ++ k ++ w3 ++ v ++ a), b.
      split; [cbn [app]; rewrite <- !app_assoc; reflexivity|]. split; [exact W|]. split; [|exact Fb]. apply V_full; auto. now apply blank_app.
  - destruct (ignore_scalar (c :: t)) as [u| | |] eqn:Sc; try discriminate. cbn [bind] in M. apply scalar_only in Sc as (v & Ev & Sv).
    apply close_all_only in M; [|exact A]. destruct (K u stack A M) as (d & -> & F). exists w, v, d. rewrite E, Ev.
    split; [reflexivity|]. split; [exact W|]. split; [now apply V_scalar|exact F].
Qed.

Lemma value_only : forall n s r, ignore_value n [] s = Ok r -> exists w v, s = w ++ v ++ r /\ blank w /\ value v.
Proof.
  intros n s r H. destruct (passes_only n [] s r ltac:(constructor) H) as (w & v & c & -> & W & V & F). inversion F. subst. eauto.
Qed.
