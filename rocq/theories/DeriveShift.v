(** Enums with 256, 65536 or 2^32 variants: what the host makes of their discriminants (C15). *)
From Verif Require Import Base Utf8 ParserModel RzcobsModel DecoderModel DecoderProofs EncodeModel EncodeSpec DeriveProofs DecoderUnsafe.

Lemma le_bytes_small : forall w k x, 0 <= x < 256 ^ Z.of_nat w -> le_bytes (w + k) x = le_bytes w x ++ repeat 0 k.
Proof.
  induction w as [|w IH]; intros k x H.
  - cbn [Z.of_nat] in H. rewrite Z.pow_0_r in H. replace x with 0 by lia. clear. cbn [Nat.add le_bytes app].
    induction k as [|k IH]; [reflexivity|]. cbn [le_bytes repeat]. rewrite Z.mod_0_l, Z.div_0_l by lia. f_equal. exact IH.
  - cbn [Nat.add le_bytes app]. f_equal. apply IH. rewrite Nat2Z.inj_succ, Z.pow_succ_r in H by lia.
    split; [apply Z.div_pos; lia|apply Z.div_lt_upper_bound; lia].
Qed.

Lemma discriminant_doubled : forall n, n = 256 \/ n = 65536 \/ n = 2 ^ 32 ->
  exists w, discriminant_width (n - 1) = Some w /\ discriminant_bytes n = (w + w)%nat /\ n = 256 ^ Z.of_nat w /\ (0 < w)%nat.
Proof.
  intros n [-> | [-> | ->]].
  - exists 1%nat. repeat split; vm_compute; reflexivity || lia.
  - exists 2%nat. repeat split; vm_compute; reflexivity || lia.
  - exists 4%nat. repeat split; vm_compute; reflexivity || lia.
Qed.

(** The variant is the right one, but as many zero bytes as the host read are left in
    front of its fields. *)
Theorem variant_shift : forall variants j name k fs,
  nth_error variants j = Some (name, k, fs) -> Forall variant_ok variants ->
  (let n := Z.of_nat (length variants) in n = 256 \/ n = 65536 \/ n = 2 ^ 32) ->
  exists w, (0 < w)%nat /\ discriminant_bytes (Z.of_nat (length variants)) = (w + w)%nat /\
  forall fields,
    get_variant (enum_str variants) (le_bytes (discriminant_bytes (Z.of_nat (length variants))) (Z.of_nat j) ++ fields) =
    Ok (name ++ fields_str k fs, repeat 0 w ++ fields).
Proof.
  intros variants j name k fs N V L. cbv zeta in L. destruct (discriminant_doubled _ L) as (w & W & B & E & P).
  exists w. split; [exact P|]. split; [exact B|]. intros fields. rewrite B.
  assert (J : (j < length variants)%nat) by (apply nth_error_Some; congruence).
  rewrite le_bytes_small by lia. rewrite <- app_assoc.
  assert (S : enum_str variants = join_bar (map variant_str variants)) by (destruct variants; [cbn in J; lia|reflexivity]).
  rewrite S. assert (F : Forall no_bar (map variant_str variants)) by (apply Forall_map; revert V; apply Forall_impl; exact variant_nobar).
  assert (A : (2 <= length (map variant_str variants))%nat)
    by (rewrite map_length; clear - L; apply Nat2Z.inj_le; change (length variants) with (@length (bytes * fkind * list field) variants) in *;
        destruct L as [-> | [-> | ->]]; vm_compute; discriminate).
  unfold get_variant. rewrite has_bar_join by auto. cbn [negb]. cbv zeta.
  assert (Q : Z.of_nat (length (filter (fun c => c =? 124) (join_bar (map variant_str variants)))) = Z.of_nat (length variants) - 1).
  { assert (X : map variant_str variants <> []) by (intros X; rewrite X in A; cbn in A; lia).
    pose proof (bars_join (map variant_str variants) X F) as Q. rewrite map_length in Q. clear - Q.
    change (@length variant variants) with (@length (bytes * fkind * list field) variants) in *. lia. }
  rewrite Q, W. erewrite rbind_ok by (apply read_u_le; lia).
  rewrite (nth_variant_join (map variant_str variants) j (name ++ fields_str k fs)); [reflexivity| |exact F].
  exact (map_nth_error variant_str j variants N).
Qed.
