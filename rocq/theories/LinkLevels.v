(** Indices, levels and definitions of a linked program (C61, C62). *)
From Verif Require Import Base Utf8 ParserModel DecoderModel EncodeModel EncodeSpec Numerals DisplayModel EnvFilterModel EnvFilterSpec
  SymbolModel SymbolProofs TableModel TableSpec TableProofs TableMain LevelProofs FlagsModel FlagsSpec FlagsProofs LinkModel LinkSpec LinkProofs LinkMain LinkTable.
From Coq Require Import Permutation Sorting.Sorted.

Lemma nodup_same : forall {A B} (g : A -> B) l x y, NoDup (map g l) -> In x l -> In y l -> g x = g y -> x = y.
Proof.
  intros A B g l x y. induction l as [|z l IH]; cbn [map]; intros N Ix Iy E; [destruct Ix|]. inversion N as [|? ? J N']; subst.
  destruct Ix as [->|Ix], Iy as [->|Iy]; auto; exfalso; apply J; [rewrite E|rewrite <- E]; now apply in_map.
Qed.

Lemma nodup_positions : forall {A B} (g : A -> list B) l i j x y n, NoDup (flat_map g l) -> nth_error l i = Some x -> nth_error l j = Some y ->
  In n (g x) -> In n (g y) -> i = j.
Proof.
  intros A B g l. induction l as [|z l IH]; intros i j x y n N Ni Nj Ix Iy; [destruct i; discriminate|].
  cbn [flat_map] in N. apply nodup_app in N as (_ & N & D).
  destruct i as [|i], j as [|j]; cbn [nth_error] in *.
  - reflexivity.
  - injection Ni as ->. exfalso. apply (D n Ix). apply in_flat_map. exists y. split; [eapply nth_error_In; eauto|exact Iy].
  - injection Nj as ->. exfalso. apply (D n Iy). apply in_flat_map. exists x. split; [eapply nth_error_In; eauto|exact Ix].
  - f_equal. eapply IH; eauto.
Qed.

Lemma nodup_count : forall {A} (g : A -> list bytes) l n, NoDup (flat_map g l) -> (length (filter (fun x => existsb (beq n) (g x)) l) <= 1)%nat.
Proof.
  intros A g l n. induction l as [|x l IH]; cbn [flat_map filter length]; intros N; [lia|]. apply nodup_app in N as (_ & N & D).
  specialize (IH N). destruct (existsb (beq n) (g x)) eqn:E; [|exact IH]. cbn [length].
  apply existsb_exists in E as (m & I & E). apply beq_true in E. subst m.
  assert (filter (fun y => existsb (beq n) (g y)) l = []) as ->; [|cbn; lia].
  clear IH N. induction l as [|y l IH]; cbn [filter]; [reflexivity|]. destruct (existsb (beq n) (g y)) eqn:E.
  - apply existsb_exists in E as (m & J & E). apply beq_true in E. subst m. exfalso. apply (D n I). cbn [flat_map]. apply in_app_iff. now left.
  - apply IH. intros m Im J. apply (D m Im). cbn [flat_map]. apply in_app_iff. now right.
Qed.

Section Levels.
  Context (p : program) (k : image) (OK : program_ok p) (L : link p = Ok k).

  Lemma address_static : forall u kind g prefix s a, In u (p_uses p) -> interns u kind g s -> string_of u = Some (kind, prefix, s) ->
    at_address k (mangled (u_at u) kind s) a -> In (static_variable (u_at u) kind prefix s (u_live u), a) (im_placed k).
  Proof using OK L.
    intros u kind g prefix s a Iu G E (st & I & Nm).
    replace (static_variable (u_at u) kind prefix s (u_live u)) with st; [exact I|].
    apply (nodup_same st_name (statics p)); [exact (names_nodup p k OK L)| | |exact Nm].
    - apply (proj1 (placed_iff p k OK L st)). eauto.
    - apply statics_origin. now apply (OString p u kind g prefix s).
  Qed.

  Lemma same_address : forall n a b, at_address k n a -> at_address k n b -> a = b.
  Proof using OK L. intros n a b (st & I & N) (st' & I' & N'). pose proof (placed_named p k OK L st st' a b I I'). rewrite N, N' in H. specialize (H eq_refl). congruence. Qed.

  (** Strings of different invocations have different indices. *)
  Theorem indices_differ : forall i j u v kind g s kind' g' s' x y, nth_error (p_uses p) i = Some u -> nth_error (p_uses p) j = Some v -> i <> j ->
    interns u kind g s -> interns v kind' g' s' -> index_of k u kind s x -> index_of k v kind' s' y -> x <> y.
  Proof using OK L.
    intros i j u v kind g s kind' g' s' x y Ni Nj D G G' (a & A & ->) (b & B & ->) E.
    destruct A as (st & I & Nm). destruct B as (st' & I' & Nm').
    pose proof (placed_range p k OK L st a I) as R. pose proof (placed_range p k OK L st' b I') as R'.
    rewrite !Z.mod_small in E by lia. subst b. pose proof (placed_unique p k OK L st st' a I I'). subst st'.
    apply D. pose proof (names_nodup p k OK L) as N. unfold statics in N. rewrite map_app in N. apply nodup_app in N as (N & _).
    replace (map st_name (flat_map (statics_of (p_align p)) (p_uses p))) with (flat_map (fun w => map st_name (statics_of (p_align p) w)) (p_uses p)) in N.
    2: { clear. induction (p_uses p) as [|w l IH]; cbn [flat_map map]; [reflexivity|]. now rewrite map_app, IH. }
    assert (X : forall w kd g0 t, interns w kd g0 t -> In (mangled (u_at w) kd t) (map st_name (statics_of (p_align p) w))).
    { intros w kd g0 t H. destruct (proj1 (interns_string w kd t)) as (prefix & Q); [eauto|]. unfold statics_of. rewrite Q. now left. }
    apply (nodup_positions _ _ i j u v (st_name st) N Ni Nj); [rewrite Nm; eapply X; eauto|rewrite Nm'; eapply X; eauto].
  Qed.

  Lemma marker_start : forall l, exists i, level_rank l = Z.of_nat (S i) /\ (i < 5)%nat /\
    marker (level_start l) (im_markers k) = stop_of (used p) i /\ marker (level_end l) (im_markers k) = stop_of (used p) (S i).
  Proof using OK L.
    intros l. destruct (p_facts p k OK L) as (_ & _ & _ & _ & _ & -> & _).
    destruct l; [exists 0%nat|exists 1%nat|exists 2%nat|exists 3%nat|exists 4%nat]; (split; [reflexivity|split; [lia|split; reflexivity]]).
  Qed.

  (** The indices between the markers of a level are those of its log statements. *)
  Theorem levels : forall l u kind g s a, In u (p_uses p) -> interns u kind g s -> at_address k (mangled (u_at u) kind s) a ->
    (marker (level_start l) (im_markers k) <= a < marker (level_end l) (im_markers k) <-> u_macro u = ULog l s).
  Proof using OK L.
    intros l u kind g s a Iu G A. destruct (proj1 (interns_string u kind s)) as (prefix & E); [eauto|].
    pose proof (address_static u kind g prefix s a Iu G E A) as I.
    pose proof (used_ok p (proj1 OK)) as UO. destruct (p_facts p k OK L) as (_ & _ & _ & _ & Pl & _). rewrite Pl in I.
    destruct (layout_part (used p) UO _ a I) as (i & Hi & R & S1 & S2).
    assert (Sz : size (static_variable (u_at u) kind prefix s (u_live u)) = 1) by reflexivity. rewrite Sz in S2.
    destruct (marker_start l) as (j & Rl & Hj & -> & ->).
    assert (Q : (stop_of (used p) j <= a < stop_of (used p) (S j)) <-> i = S j).
    { split.
      - intros [H1 H2]. destruct (Nat.lt_trichotomy i (S j)) as [H|[H|H]]; [|exact H|]; exfalso.
        + pose proof (stop_le (used p) UO j i ltac:(lia)). lia.
        + destruct i as [|i]; [lia|]. cbn [start_of] in S1. pose proof (stop_le (used p) UO i (S j) ltac:(lia)). lia.
      - intros ->. cbn [start_of] in S1. lia. }
    rewrite Q. clear Q. unfold string_of in E. split.
    - intros ->. destruct (u_macro u) as [l' t|t|t|t|t|t|ident w fls|t| |] eqn:M; inversion E; subst;
        rewrite ?variable_rank, ?log_rank, ?prim_rank in R; try lia.
      rewrite <- Rl in R. f_equal. destruct l, l'; try reflexivity; discriminate.
    - intros M. rewrite M in E. inversion E; subst. rewrite log_rank in R. lia.
  Qed.

  (** The ranges are in order. *)
  Theorem levels_ordered : exists a b c d e f, im_markers k =
    [(level_start LTrace, a); (level_end LTrace, b); (level_start LDebug, b); (level_end LDebug, c); (level_start LInfo, c); (level_end LInfo, d);
     (level_start LWarn, d); (level_end LWarn, e); (level_start LError, e); (level_end LError, f); (end_marker, marker end_marker (im_markers k))] /\
    1 <= a /\ a <= b /\ b <= c /\ c <= d /\ d <= e /\ e <= f /\ f <= marker end_marker (im_markers k) < 65534.
  Proof using OK L.
    pose proof (used_ok p (proj1 OK)) as UO. destruct (p_facts p k OK L) as (_ & _ & _ & En & _ & -> & _).
    exists (stop_of (used p) 0), (stop_of (used p) 1), (stop_of (used p) 2), (stop_of (used p) 3), (stop_of (used p) 4), (stop_of (used p) 5).
    split; [reflexivity|]. change (marker end_marker (the_markers (used p))) with (stop_of (used p) 6).
    pose proof (stop_mono (used p) UO 0). pose proof (stop_mono (used p) UO 1). pose proof (stop_mono (used p) UO 2). pose proof (stop_mono (used p) UO 3).
    pose proof (stop_mono (used p) UO 4). pose proof (stop_mono (used p) UO 5).
    pose proof (spaced_le _ _ _ (proj1 (part_spaced (used p) UO 0))) as Hz. cbn [start_of] in Hz. lia.
  Qed.

  (** * Definitions *)

  Definition hooks : list bytes := logger_functions ++ [lit "_defmt_timestamp"; lit "_defmt_panic"].

  Lemma makes_functions : forall n u, makes n u = existsb (beq n) (functions_of u).
  Proof using.
    intros n u. unfold makes, functions_of, logger_functions. destruct (u_macro u); cbn [existsb]; rewrite ?orb_false_r, ?orb_assoc; reflexivity.
  Qed.

  Lemma definitions_functions : forall n, definitions p n = length (filter (fun u => existsb (beq n) (functions_of u)) (p_uses p)).
  Proof using. intros n. unfold definitions. f_equal. apply filter_ext. intros u. apply makes_functions. Qed.

  Theorem at_most_one : forall n, (definitions p n <= 1)%nat.
  Proof using OK L. intros n. rewrite definitions_functions. apply nodup_count. exact (functions_nodup p k OK L). Qed.

  Lemma resolve_all_in : forall ns cs, resolve_all p ns = Some cs -> forall n, In n ns -> exists d, In (n, d) cs /\ resolve p n = Some d.
  Proof.
    induction ns as [|m ns IH]; intros cs E n I; [destruct I|]. cbn [resolve_all] in E.
    destruct (resolve p m) as [d|] eqn:R; [|discriminate]. destruct (resolve_all p ns) as [r|]; [|discriminate]. injection E as <-.
    destruct I as [->|I]; [exists d; split; [now left|exact R]|]. destruct (IH r eq_refl n I) as (d' & J & R'). exists d'. split; [now right|exact R'].
  Qed.

  Lemma hook_defined : forall n, In n hooks -> ~ In n (p_exports p) -> (In n (defined p) <-> (definitions p n > 0)%nat).
  Proof using OK.
    intros n Hn NE. rewrite definitions_functions. transitivity (In n (flat_map functions_of (p_uses p))).
    - unfold defined. rewrite !in_app_iff. split; [|tauto]. intros [H|[H|[H|H]]]; [exact H| | |contradiction]; exfalso.
      + revert H. cbn in Hn. unfold defmt_functions. intros [<-|[<-|[]]]; repeat (destruct Hn as [Hn|Hn]; [discriminate|]); exact Hn.
      + unfold statics in H. rewrite map_app, in_app_iff in H. destruct H as [H|H].
        * apply in_map_iff in H as (st & <- & I). apply macro_names in I.
          destruct I as [(r & I)|I]; rewrite I in Hn; cbn in Hn; repeat (destruct Hn as [Hn|Hn]; [discriminate|]); exact Hn.
        * cbn [defmt_statics map st_name In] in H. destruct (feat_raw (p_features p)); destruct H as [<-|[<-|[]]]; cbn in Hn; repeat (destruct Hn as [Hn|Hn]; [discriminate|]); exact Hn.
    - rewrite in_flat_map. split.
      + intros (u & Iu & I). assert (J : In u (filter (fun u => existsb (beq n) (functions_of u)) (p_uses p))).
        { apply filter_In. split; [exact Iu|]. apply existsb_exists. exists n. split; [exact I|apply beq_refl]. }
        destruct (filter _ (p_uses p)); [destruct J|cbn; lia].
      + intros H. destruct (filter (fun u => existsb (beq n) (functions_of u)) (p_uses p)) as [|u r] eqn:E; [cbn in H; lia|].
        assert (J : In u (u :: r)) by now left. rewrite <- E in J. apply filter_In in J as [Iu J]. apply existsb_exists in J as (m & J & Q).
        apply beq_true in Q. subst m. exists u. auto.
  Qed.

  (** A called hook is the one definition of the program, or else the default. *)
  Theorem called : forall n, In n hooks -> In n (p_calls p) -> ~ In n (p_exports p) ->
    (definitions p n = 1%nat /\ In (n, n) (im_calls k)) \/
    (definitions p n = 0%nat /\ exists d, provided (p_features p) n = Some d /\ In (n, d) (im_calls k)).
  Proof using OK L.
    intros n Hn Ic NE. destruct (p_facts p k OK L) as (_ & _ & Rs & _). destruct (resolve_all_in _ _ Rs n Ic) as (d & I & R).
    pose proof (hook_defined n Hn NE) as HD. pose proof (at_most_one n) as One. unfold resolve in R.
    destruct (existsb (beq n) (defined p)) eqn:E.
    - injection R as <-. left. split; [|exact I]. apply existsb_exists in E as (m & J & Q). apply beq_true in Q. subst m. apply HD in J. lia.
    - right. split; [|exists d; auto]. destruct (definitions p n) as [|c]; [reflexivity|]. exfalso.
      assert (J : In n (defined p)) by (apply HD; lia). assert (existsb (beq n) (defined p) = true); [|congruence].
      apply existsb_exists. exists n. split; [exact J|apply beq_refl].
  Qed.

  (** The defaults, by name. *)
  Theorem called_what : forall n, In n hooks -> In n (p_calls p) -> ~ In n (p_exports p) ->
    (definitions p n = 1%nat /\ In (n, n) (im_calls k)) \/
    (definitions p n = 0%nat /\ n = lit "_defmt_timestamp" /\ In (n, lit "__defmt_default_timestamp") (im_calls k)) \/
    (definitions p n = 0%nat /\ n = lit "_defmt_panic" /\ feat_avoid_default_panic (p_features p) = false /\
     In (n, lit "__defmt_default_panic") (im_calls k)).
  Proof using OK L.
    intros n Hn Ic NE. destruct (called n Hn Ic NE) as [H|(D & d & R & I)]; [left; exact H|right]. unfold provided in R.
    destruct (beq n (lit "_defmt_timestamp")) eqn:E.
    - apply beq_true in E. injection R as <-. left. auto.
    - destruct (beq n (lit "_defmt_panic") && negb (feat_avoid_default_panic (p_features p))) eqn:F; [|discriminate].
      apply andb_prop in F as [F G]. apply beq_true in F. apply negb_true_iff in G. injection R as <-. right. auto.
  Qed.
End Levels.
