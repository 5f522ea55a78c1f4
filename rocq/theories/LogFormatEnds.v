(** Exactly which records can not be formatted (C41). *)
From Verif Require Import Base ParserModel Numerals EnvFilterModel LogFormatModel LogFormatSpec LogFormatProofs LogFormatShow LogFormatMain LogFormatText.

Definition default_width (m : metadata) : Z := match m with MLine => 4 | MLevel => 5 | _ => 0 end.

(** What is not padded: the text of the format, and messages of the host or of failed comparisons. *)
Definition unpadded (r : record) (m : metadata) : Prop :=
  match m with
  | MString _ => True
  | MLog => r_host r = true \/ exists before a b, comparison (r_message r) before a b
  | _ => False
  end.

Inductive fails (lim : option Z) (r : record) : segment -> Prop :=
| FL_message : forall f, r_host r = false -> short_values (r_message r) -> fails lim r (MkSegment MLog f)
| FL_file : forall n f p, r_file r = Some p -> n <= 0 \/ p = [] -> fails lim r (MkSegment (MFileName n) f)
| FL_wide : forall m f w, lim = Some w -> w < width_of f (default_width m) -> ~ unpadded r m -> fails lim r (MkSegment m f)
| FL_group : forall l f s, In s l -> fails lim r s -> fails lim r (MkSegment (MNested l) f).

Lemma components_empty : forall p, path_components p = [] <-> p = [].
Proof.
  intros p. split; [|intros ->; reflexivity]. unfold path_components. destruct p as [|b p]; [reflexivity|].
  destruct (Z.eq_dec b 47) as [->|N]; [discriminate|].
  assert (E : exists n ns, split_on 47 (b :: p) = (b :: n) :: ns).
  { cbn [split_on]. apply Z.eqb_neq in N. rewrite N. destruct (split_on 47 p) as [|n ns]; [exists [], []|exists n, ns]; reflexivity. }
  destruct E as (n & ns & E). rewrite E.
  assert (G : forall A (x y : list bytes) (z : A), (if beq (b :: n) (lit ".") then (b :: n) :: filter (fun n0 => nonemptyb n0 && negb (beq n0 (lit "."))) ((b :: n) :: ns)
     else filter (fun n0 => nonemptyb n0 && negb (beq n0 (lit "."))) ((b :: n) :: ns)) <> []).
  { intros _ _ _ _. cbn [filter nonemptyb andb]. destruct (beq (b :: n) (lit ".")); cbn [negb]; discriminate. }
  intros H. exfalso. apply (G nat [] [] O).
  destruct b as [|q|q]; [exact H| |exact H]. repeat (destruct q as [q|q|]; try exact H). congruence.
Qed.

Section Ends.
  Context (X : external) (colors : bool) (r : record) (HX : external_ok X) (HL : line_ok r).

  Lemma formatted_iff : forall s f d c, x_max X = None \/ esc_free s ->
    ((exists t, build_formatted X colors s f d (r_level r) c = Ok t) /\ forall w, x_max X = Some w -> width_of f d <= w) \/
    (build_formatted X colors s f d (r_level r) c = Panic /\ exists w, x_max X = Some w /\ w < width_of f d).
  Proof.
    intros s f d c H. unfold build_formatted. cbv zeta. destruct (x_max X) as [m|]; [|left; split; [eauto|discriminate]]. destruct H as [H|H]; [discriminate|].
    rewrite (clean_strip s s (clean_free s H)). unfold width_of. rewrite Z.sub_diag, Z.add_0_r.
    destruct (Z.ltb_spec m (match f_width f with Some w => w | None => d end)); [right; eauto|left]. split; [eauto|]. intros w E. injection E as <-. lia.
  Qed.

  Lemma segment_fails : forall s, calm X colors r [s] ->
    ((exists t, build_segment X colors r s = Ok t) /\ ~ fails (x_max X) r s) \/ (build_segment X colors r s = Panic /\ fails (x_max X) r s).
  Proof.
    apply (segment_tree (fun s => calm X colors r [s] -> ((exists t, build_segment X colors r s = Ok t) /\ ~ fails (x_max X) r s) \/ (build_segment X colors r s = Panic /\ fails (x_max X) r s))). intros m f IH Ca.
    assert (Fr : x_max X = None \/ record_free r) by (destruct Ca as [Ca|(_ & Ca & _)]; auto).
    assert (FF : forall s, (record_free r -> esc_free s) -> x_max X = None \/ esc_free s) by (intros s; tauto).
    assert (W : forall s c, x_max X = None \/ esc_free s -> ~ unpadded r m ->
      match m with MNested l => Forall (fun s => ~ fails (x_max X) r s) l | MFileName n => forall p, r_file r = Some p -> 0 < n /\ p <> [] | MLog => r_host r = false /\ ~ short_values (r_message r) | _ => True end ->
      (exists t, build_formatted X colors s f (default_width m) (r_level r) c = Ok t) /\ ~ fails (x_max X) r (MkSegment m f) \/
      build_formatted X colors s f (default_width m) (r_level r) c = Panic /\ fails (x_max X) r (MkSegment m f)).
    { intros s c Hs U E. destruct (formatted_iff s f (default_width m) c Hs) as [[O Wd]|[P (w & Ew & Lw)]].
      - left. split; [exact O|]. intros Fl. remember (MkSegment m f) as g eqn:G. destruct Fl as [f' Hh Sv|n f' p Ef Np|m' f' w Ew Lw Np|l f' s' Is Fs]; injection G as <- <-.
        + destruct E as [_ E]. contradiction.
        + destruct (E _ Ef). destruct Np; [lia|contradiction].
        + specialize (Wd _ Ew). lia.
        + rewrite Forall_forall in E. eapply E; eauto.
      - right. split; [exact P|]. eapply FL_wide; eauto. }
    destruct m; cbn [build_segment].
    - apply W; [apply FF; intros (A & B & C & D); now apply crate_free|intros []|exact Logic.I].
    - destruct (r_file r) as [p|] eqn:Ef.
      + destruct (Z.leb_spec n 0) as [Ln|Ln].
        { right. split; [|eapply FL_file; eauto]. unfold file_name. replace (Z.to_nat n) with 0%nat by lia. rewrite Nat.min_0_r, Nat.sub_0_r, skipn_all. reflexivity. }
        assert (D : {p = []} + {p <> []}) by (destruct p; [left; reflexivity|right; discriminate]). destruct D as [->|Np].
        { right. split; [reflexivity|]. eapply FL_file; eauto. }
        destruct (file_no_panic p n) as [t E]; [now rewrite components_empty|lia|]. rewrite E. cbn [bind]. apply W; [|intros []|].
        * apply FF. intros (A & B & C & D). rewrite Ef in C. exact (file_free _ _ _ C E).
        * intros p' E'. injection E' as <-. auto.
      + cbn [file_name bind]. apply W; [right; apply lit_free; reflexivity|intros []|discriminate].
    - apply W; [|intros []|exact Logic.I]. apply FF. intros (A & B & C & D). destruct (r_file r); cbn [unwrap_or]; auto. apply lit_free. reflexivity.
    - apply W; [|intros []|exact Logic.I]. right. apply dec_str_free. destruct (r_line r) eqn:E; cbn [unwrap_or]; [now apply HL|lia].
    - unfold build_log. destruct (r_host r) eqn:Eh.
      { left. split; [eauto|]. intros Fl. inversion Fl as [? Hh Sv| |? ? w Ew Lw Np|]; subst; [congruence|]. apply Np. cbn. auto. }
      destruct (diff_cases X colors (r_message r)) as [(before & a & b & Cm & E)|(Nc & [E|[Sh E]])]; rewrite E.
      + left. split; [eauto|]. intros Fl. inversion Fl as [? Hh Sv| |? ? w Ew Lw Np|]; subst.
        * apply (diff_panic_iff X colors) in Sv. congruence.
        * apply Np. cbn. right. eauto.
      + apply W.
        * apply FF. intros (A & B & C & D). auto.
        * intros [H|(before & a & b & H)]; [congruence|]. eapply Nc; eauto.
        * split; auto. intros H. apply (diff_panic_iff X colors) in H. congruence.
      + right. split; [reflexivity|]. apply FL_message; auto.
    - apply W; [|intros []|exact Logic.I]. right. destruct (r_level r) as [[]|]; apply lit_free; reflexivity.
    - apply W; [|intros []|exact Logic.I]. apply FF. intros (A & B & C & D). destruct (r_module r); cbn [unwrap_or]; auto. apply lit_free. reflexivity.
    - left. split; [eauto|]. intros Fl. inversion Fl as [| |? ? w Ew Lw Np|]; subst. apply Np. exact Logic.I.
    - apply W; [|intros []|exact Logic.I]. apply FF. intros (A & B & C & D). destruct (r_host r); [apply lit_free; reflexivity|]. destruct (r_time r); auto. apply lit_free. reflexivity.
    - change (((exists t, build_segment X colors r (MkSegment (MNested l) f) = Ok t) /\ ~ fails (x_max X) r (MkSegment (MNested l) f)) \/ (build_segment X colors r (MkSegment (MNested l) f) = Panic /\ fails (x_max X) r (MkSegment (MNested l) f))). rewrite nested_eq.
      assert (Cl : calm X colors r l). { destruct Ca as [Ca|(Cc & Ca & Cs)]; [now left|right]. split; [auto|split; [auto|]]. apply Forall_inv in Cs. inversion Cs; subst; auto. contradiction. }
      assert (A : ((exists t, build_all X colors r l = Ok t) /\ Forall (fun s => ~ fails (x_max X) r s) l) \/ (build_all X colors r l = Panic /\ exists s, In s l /\ fails (x_max X) r s)).
      { specialize (IH l eq_refl). clear - IH Cl. induction l as [|s l IHl]; cbn [build_all]; [left; eauto|]. inversion IH; subst.
        destruct H1 as [[[t E] Nf]|[E Fl]]; [destruct Cl as [Cl|(Cc & Ca & Cs)]; [now left|right]; inversion Cs; subst; auto| |right; rewrite E; split; [reflexivity|exists s; split; [now left|exact Fl]]].
        destruct IHl as [[[u Eu] Nl]|[Eu (s' & Is & Fl)]]; auto; [destruct Cl as [Cl|(Cc & Ca & Cs)]; [now left|right]; inversion Cs; subst; auto| |]; rewrite E, Eu; cbn [bind].
        - left. split; [eauto|constructor; auto].
        - right. split; [reflexivity|]. exists s'. split; [now right|exact Fl]. }
      destruct A as [[[t A] Nl]|[A (s & Is & Fl)]]; rewrite A; cbn [bind].
      + apply W; [|intros []|exact Nl].
        clear Ca. destruct Cl as [Cl|(Cc & Ca & Cs)]; [auto|right].
        destruct (build_all_split X colors r l t A) as (ts & -> & F). unfold esc_free. apply Forall_concat. subst colors.
        clear - F Cs Ca HX HL. revert Cs. induction F as [|s u l us Hs F IHf]; intros Cs; [constructor|]. inversion Cs; subst. constructor; auto.
        destruct (colors_agree X false r HX Ca HL s H1 ltac:(discriminate) u Hs) as (v & _ & [Cv Ov]). rewrite (Ov eq_refl). eapply clean_text; eauto.
      + right. split; [reflexivity|]. eapply FL_group; eauto.
  Qed.

  (** For all records if widths are not limited; with a limit for records and formats without escape characters, without colours. *)
  Theorem format_panics : forall l, calm X colors r l ->
    (format_record X colors l r = Panic <->
     match r_level r with
     | Some _ => exists s, In s l /\ fails (x_max X) r s
     | None => fails (x_max X) r (MkSegment MLog no_format)
     end) /\ (format_record X colors l r = Panic \/ exists t, format_record X colors l r = Ok t).
  Proof.
    intros l Ca. unfold format_record. destruct (r_level r) as [lv|] eqn:E.
    - clear E lv. induction l as [|s l IH]; cbn [build_all]; [split; [split; [discriminate|intros (s & [] & _)]|right; eauto]|].
      assert (C1 : calm X colors r [s]) by (destruct Ca as [Ca|(Cc & Ca & Cs)]; [now left|right]; inversion Cs; subst; auto).
      assert (C2 : calm X colors r l) by (destruct Ca as [Ca|(Cc & Ca & Cs)]; [now left|right]; inversion Cs; subst; auto).
      destruct (segment_fails s C1) as [[[t Et] Nf]|[Et Fl]]; rewrite Et; cbn [bind].
      + destruct (IH C2) as [I1 I2]. split.
        * split.
          -- intros H. assert (P : build_all X colors r l = Panic) by (destruct (build_all X colors r l); cbn [bind] in H; try discriminate; reflexivity).
             apply I1 in P as (s' & Is & Fl). exists s'. split; [now right|exact Fl].
          -- intros (s' & [<-|Is] & Fl); [contradiction|]. assert (P : build_all X colors r l = Panic) by (apply I1; eauto). now rewrite P.
        * destruct I2 as [P|[u P]]; rewrite P; cbn [bind]; eauto.
      + split; [|auto]. split; [intros _|reflexivity]. exists s. split; [now left|exact Fl].
    - assert (C1 : calm X colors r [MkSegment MLog no_format]).
      { destruct Ca as [Ca|(Cc & Ca & Cs)]; [now left|right]. split; [auto|split; [auto|]]. constructor; [|constructor]. now apply SF_other. }
      destruct (segment_fails _ C1) as [[[t Et] Nf]|[Et Fl]]; cbn [build_segment] in Et; rewrite Et.
      + split; [split; [discriminate|contradiction]|eauto].
      + split; [tauto|auto].
  Qed.
End Ends.

(** An absolute path that has no more components than are asked for gets a second slash. *)
Lemma root_doubled : forall p n, filter (fun x => nonemptyb x && negb (beq x (lit "."))) (split_on 47 (47 :: p)) <> [] ->
  Z.of_nat (length (path_components (47 :: p))) <= n ->
  exists rest, path_components (47 :: p) = lit "/" :: rest /\ file_name (Some (47 :: p)) n = Ok (lit "//" ++ join (lit "/") rest).
Proof.
  intros p n N L. unfold file_name. set (c := path_components (47 :: p)) in *.
  exists (filter (fun x => nonemptyb x && negb (beq x (lit "."))) (split_on 47 (47 :: p))). split; [reflexivity|].
  replace (length c - Nat.min (length c) (Z.to_nat n))%nat with 0%nat by lia. cbn [skipn].
  change c with (lit "/" :: filter (fun x => nonemptyb x && negb (beq x (lit "."))) (split_on 47 (47 :: p))).
  destruct (filter _ _) as [|x y]; [congruence|]. reflexivity.
Qed.
