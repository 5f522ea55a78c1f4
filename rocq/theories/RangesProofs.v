(** The ranges of [IdRanges] (C72). *)
From Verif Require Import Base Utf8 ParserModel DecoderModel EncodeModel EncodeSpec Numerals DisplayModel EnvFilterModel EnvFilterSpec
  SymbolModel SymbolProofs TableModel TableSpec TableProofs TableMain LevelProofs FlagsModel FlagsSpec FlagsProofs LinkModel LinkSpec LinkProofs LinkMain LinkTable
  LinkLevels RangesModel.

Lemma contains_iff : forall r i, contains r i = true <-> fst r <= i < snd r.
Proof. intros r i. unfold contains. rewrite andb_true_iff, Z.leb_le, Z.ltb_lt. reflexivity. Qed.

Lemma level_iff : forall u kind g s l, interns u kind g s -> (u_macro u = ULog l s <-> tag_level g = Some l).
Proof.
  intros u kind g s l H. destruct H as [s M|s M|s M|s M|s M|s M|s M|s M|s M|s M|ident w fls M]; rewrite M; cbn [tag_level];
    split; intros E; try discriminate; inversion E; reflexivity.
Qed.

Section Ranges.
  Context (p : program) (k : image) (OK : program_ok p) (L : link p = Ok k).

  Lemma id_range_is : forall l, id_range k l = (marker (level_start l) (im_markers k), marker (level_end l) (im_markers k)).
  Proof using OK L.
    intros l. destruct (levels_ordered p k OK L) as (a & b & c & d & e & f & M & H). unfold id_range, as_u16.
    rewrite M. set (mk := marker end_marker (im_markers k)) in *.
    destruct l; cbn -[Z.modulo]; f_equal; apply Z.mod_small; lia.
  Qed.

  (** In range iff it is a log statement of the level. *)
  Theorem range_statement : forall l u kind g s i, In u (p_uses p) -> interns u kind g s -> index_of k u kind s i ->
    (contains (id_range k l) i = true <-> u_macro u = ULog l s).
  Proof using OK L.
    intros l u kind g s i Iu G (a & A & ->). rewrite contains_iff, id_range_is. cbn [fst snd].
    destruct A as (st & I & N). pose proof (placed_range p k OK L st a I) as R. rewrite Z.mod_small by lia.
    apply (levels p k OK L l u kind g s a Iu G). exists st. auto.
  Qed.

  (** The first two bytes that the device writes. *)
  Theorem range_sent : forall l u kind g s i addr ts targs args, In u (p_uses p) -> interns u kind g s -> index_of k u kind s i ->
    (contains (id_range k l) (le_value (firstn 2 (encode_frame addr i ts targs s args))) = true <-> u_macro u = ULog l s).
  Proof using OK L.
    intros l u kind g s i addr ts targs args Iu G A.
    replace (le_value (firstn 2 (encode_frame addr i ts targs s args))) with i; [exact (range_statement l u kind g s i Iu G A)|].
    unfold encode_frame. rewrite firstn_app, le_bytes_length, Nat.sub_diag, (firstn_all2 (le_bytes 2 i)) by (rewrite le_bytes_length; lia).
    rewrite firstn_O, app_nil_r.
    destruct A as (a & (st & I & N) & ->). pose proof (placed_range p k OK L st a I) as R. rewrite le_value_mod. change (256 ^ Z.of_nat 2) with 65536.
    now rewrite Z.mod_mod by lia.
  Qed.

  (** Two ranges have nothing in common. *)
  Theorem ranges_disjoint : forall l m i, contains (id_range k l) i = true -> contains (id_range k m) i = true -> l = m.
  Proof using OK L.
    intros l m i. rewrite !contains_iff, !id_range_is. cbn [fst snd].
    destruct (levels_ordered p k OK L) as (a & b & c & d & e & f & M & H). rewrite M.
    destruct l, m; cbn; intros; try reflexivity; exfalso; lia.
  Qed.

  Context (sec : Z) (f : elf) (B : binary p k sec f) (check : bool) (t : table) (P : parse_elf check f = Ok (Some t)).

  (** The level that the host shows, from the first two bytes of the frame. *)
  Theorem range_frame : forall b fr n, decode t b = Ok (fr, n) -> forall l,
    contains (id_range k l) (le_value (firstn 2 b)) = true <-> f_level fr = Some l.
  Proof using OK L B P.
    intros b fr n D l. destruct (decode_entry t b fr n D) as (e & E & Lv & _ & Ix & _). rewrite <- Ix, Lv.
    destruct (string_known p k OK L sec f B check t P _ _ E) as (u & kind & Iu & Lu & G & A).
    rewrite <- (level_iff u kind (e_tag e) (e_string e) l G). apply (range_statement l u kind (e_tag e) _ _ Iu G).
    exists (f_index fr). split; [exact A|]. destruct A as (st & I & N). pose proof (placed_range p k OK L st _ I) as R. rewrite Z.mod_small by lia. reflexivity.
  Qed.
End Ranges.
