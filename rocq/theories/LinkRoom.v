(** Programs with flags and a timestamp that are small enough to be linked (C62). *)
From Verif Require Import Base Utf8 ParserModel DecoderModel EncodeModel EncodeSpec Numerals DisplayModel EnvFilterModel EnvFilterSpec
  SymbolModel SymbolProofs TableModel TableSpec TableProofs TableMain LevelProofs FlagsModel FlagsSpec FlagsProofs LinkModel LinkSpec LinkProofs LinkMain LinkTable
  LinkSize.
From Coq Require Import Permutation.

(** A static takes at most its size and the padding before it. *)
Definition most (st : static) : Z := size st + st_align st - 1.
Fixpoint most_total (l : list static) : Z := match l with [] => 0 | st :: l' => most st + most_total l' end.

Lemma most_app : forall l m, most_total (l ++ m) = most_total l + most_total m.
Proof. induction l as [|st l IH]; intros m; cbn [most_total app] in *; [lia|]. rewrite IH. lia. Qed.

Lemma most_perm : forall l m, Permutation l m -> most_total l = most_total m.
Proof. induction 1 as [|st l m _ IH|x y l|l m n _ IH1 _ IH2]; cbn [most_total]; lia. Qed.

Lemma align_most : forall a h, 0 < a -> align_up a h <= h + a - 1.
Proof. intros a h A. unfold align_up. pose proof (Z.mod_pos_bound (- h) a A). lia. Qed.

Lemma lay_most : forall l here, Forall (fun st => 0 < st_align st) l -> snd (lay here l) <= here + most_total l.
Proof.
  induction l as [|st l IH]; intros here F; cbn [lay most_total]; [cbn; lia|]. inversion F as [|? ? A F']; subst.
  pose proof (align_most _ here A). specialize (IH (align_up (st_align st) here + Z.of_nat (length (st_data st))) F').
  destruct (lay _ l) as [pl e]. cbn [snd] in *. unfold most, size. lia.
Qed.

Section Enough.
  Context (p : program) (A : 0 < p_align p).

  Lemma stop_most : stop_of (used p) 6 <= 1 + most_total (used p).
  Proof using A.
    assert (G : forall i, Forall (fun st => 0 < st_align st) (group (used p) i)).
    { intros i. apply Forall_forall. intros st I. apply filter_In in I as [I _]. pose proof (used_ok p A) as F. rewrite Forall_forall in F. apply (F st I). }
    assert (E : forall i, stop_of (used p) i <= start_of (used p) i + most_total (group (used p) (Z.of_nat i))).
    { intros i. pose proof (lay_most _ (start_of (used p) i) (G (Z.of_nat i))) as H. rewrite (part_lay (used p) i) in H. exact H. }
    pose proof (groups_perm [0; 1; 2; 3; 4; 5; 6] (used p)) as P. cbn [flat_map] in P.
    rewrite <- (most_perm _ _ (P ltac:(repeat constructor; cbn; intuition lia)
      ltac:(eapply Forall_impl; [|exact (used_ok p A)]; intros st (_ & _ & R); cbn [In]; lia))).
    rewrite !most_app. pose proof (E 6%nat). pose proof (E 5%nat). pose proof (E 4%nat). pose proof (E 3%nat). pose proof (E 2%nat). pose proof (E 1%nat).
    pose proof (E 0%nat). cbn [start_of] in *. change (Z.of_nat 0) with 0 in *. change (Z.of_nat 1) with 1 in *. change (Z.of_nat 2) with 2 in *.
    change (Z.of_nat 3) with 3 in *. change (Z.of_nat 4) with 4 in *. change (Z.of_nat 5) with 5 in *. change (Z.of_nat 6) with 6 in *.
    change (most_total []) with 0. lia.
  Qed.

  Definition stamps (us : list use) : Z := Z.of_nat (length (filter (fun u => match u_macro u with UTimestamp _ => true | _ => false end) us)).

  Lemma use_most : forall u, most_total (filter kept (statics_of (p_align p) u)) =
    (if u_live u && makes_string u then 1 else 0) + (15 + p_align p) * flags_of_use u + match u_macro u with UTimestamp _ => 8 | _ => 0 end.
  Proof using.
    intros u. unfold statics_of. rewrite filter_app, most_app.
    assert (S : most_total (filter kept match string_of u with Some (kind, prefix, s) => [static_variable (u_at u) kind prefix s (u_live u)] | None => [] end) =
      if u_live u && makes_string u then 1 else 0).
    { destruct (string_of u) as [[[kind prefix] s]|] eqn:E.
      - cbn [filter]. rewrite (variable_kept u) by exact E. replace (makes_string u) with true by (unfold makes_string, string_of in *; destruct (u_macro u); auto; discriminate).
        destruct (u_live u); reflexivity.
      - replace (makes_string u) with false by (unfold makes_string, string_of in *; destruct (u_macro u); auto; discriminate). now rewrite andb_false_r. }
    rewrite S. unfold flags_of_use. destruct (u_macro u) as [l t|t|t|t|t|t|ident w fls|t| |] eqn:M; try (cbn; lia).
    rewrite (filter_all kept).
    2: { apply Forall_forall. intros st I. apply in_map_iff in I as (x & <- & _). reflexivity. }
    unfold enabled. rewrite map_length. pose proof (flag_statics_length fls (flags_at (u_at u) ident w fls) 0) as Q.
    change (concat _) with (flag_statics (flags_at (u_at u) ident w fls)) in Q. cbn [bf_flags flags_at]. rewrite <- Q. clear Q.
    assert (Len : forall x, In x (flag_statics (flags_at (u_at u) ident w fls)) -> length (snd x) = 16%nat).
    { intros x I. apply statics_in in I as (n & fl & _ & _ & ->). cbn [snd]. apply le_bytes_length. }
    revert Len. generalize (flag_statics (flags_at (u_at u) ident w fls)). induction l as [|x l IH]; intros Len; cbn [map most_total length]; [lia|].
    specialize (IH ltac:(intros y I; apply Len; now right)). specialize (Len x ltac:(now left)). unfold most, size. cbn [st_data st_align]. rewrite Len. lia.
  Qed.

  Lemma used_most : most_total (used p) = strings p + (15 + p_align p) * flag_count p + 8 * stamps (p_uses p) + 2.
  Proof using.
    unfold used, statics. rewrite filter_app, most_app.
    replace (most_total (filter kept (defmt_statics (p_features p)))) with 2
      by (destruct (feat_raw (p_features p)) eqn:E; unfold defmt_statics; rewrite E; reflexivity).
    f_equal. unfold strings, flag_count, stamps. induction (p_uses p) as [|u us IH]; [cbn; lia|]. cbn [flat_map filter fold_right].
    rewrite filter_app, most_app, IH, use_most. destruct (u_live u && makes_string u); destruct (u_macro u); cbn [length]; lia.
  Qed.
End Enough.

Lemma nodup_left : forall {A} (l m : list A), NoDup (l ++ m) -> NoDup l.
Proof.
  induction l as [|x l IH]; intros m N; [constructor|]. cbn [app] in N. inversion N as [|? ? I N']; subst. constructor; [|eapply IH; exact N'].
  intros J. apply I. apply in_app_iff. now left.
Qed.

(** The function of a timestamp is defined once. *)
Lemma one_stamp : forall p, NoDup (defined p) -> stamps (p_uses p) <= 1.
Proof.
  intros p N. unfold defined in N. apply nodup_left in N. unfold stamps.
  assert (H : forall us, NoDup (flat_map functions_of us) -> (exists u s, In u us /\ u_macro u = UTimestamp s) -> In (lit "_defmt_timestamp") (flat_map functions_of us)).
  { intros us _ (u & s & I & M). apply in_flat_map. exists u. split; [exact I|]. unfold functions_of. rewrite M. now left. }
  revert N. induction (p_uses p) as [|u us IH]; intros N; cbn [filter]; [cbn; lia|]. cbn [flat_map] in N.
  assert (N' : NoDup (flat_map functions_of us)).
  { clear -N. induction (functions_of u) as [|x l IHl]; [exact N|]. apply IHl. now inversion N. }
  destruct (u_macro u) as [l t|t|t|t|t|t|ident w fls|t| |] eqn:M; try exact (IH N').
  destruct (filter _ us) as [|v vs] eqn:F; [cbn; lia|]. exfalso.
  assert (Iv : In v (v :: vs)) by now left. rewrite <- F in Iv. apply filter_In in Iv as [Iv Mv].
  destruct (u_macro v) eqn:M'; try discriminate.
  unfold functions_of in N. rewrite M in N. cbn [app] in N. inversion N as [|? ? NI _]; subst. apply NI. apply H; eauto.
Qed.

(** Every string one index, every flag its sixteen bytes and the padding before them, and room for a timestamp. *)
Theorem enough : forall p, program_ok p -> chosen_encoding (p_features p) <> None -> NoDup (defined p) -> resolvable p ->
  strings p + (15 + p_align p) * flag_count p + 8 * stamps (p_uses p) <= 65530 -> exists k, link p = Ok k.
Proof.
  intros p [A O] C N R S. unfold resolvable in R. apply resolve_all_iff in R as (cs & R).
  pose proof (stop_most p A) as E. rewrite used_most in E.
  exists (MkImage (laid_out (used p)) (the_markers (used p)) (contents 0 (laid_out (used p))) cs). apply link_iff; [exact A|].
  cbn [im_calls im_placed im_markers im_data]. repeat split; auto. lia.
Qed.

Theorem enough_room : forall p, program_ok p -> chosen_encoding (p_features p) <> None -> NoDup (defined p) -> resolvable p ->
  strings p + (15 + p_align p) * flag_count p <= 65522 -> exists k, link p = Ok k.
Proof. intros p OK C N R S. apply enough; auto. pose proof (one_stamp p N). lia. Qed.
