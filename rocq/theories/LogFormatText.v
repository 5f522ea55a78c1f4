(** Accepted log formats contain the message and show their text; formatting does not panic. *)
From Verif Require Import Base Utf8 ParserModel Numerals EnvFilterModel EnvFilterProofs LogFormatModel LogFormatSpec LogFormatProofs LogFormatAccept LogFormatShow LogFormatMain.

Definition bracketed (p : bytes) : Prop := exists content, p = [123] ++ content ++ [125].
Definition plain_text (p : bytes) : Prop := p <> [] /\ ~ In 123 p /\ ~ In 37 p.
Definition open_end (p : bytes) : Prop := match p with [] => True | b :: _ => b = 123 \/ b = 37 end.

Lemma many0_pieces : forall A (p : bytes -> pres A) fuel i q l,
  (forall j r a, p j = Ok (r, a) -> exists pre, j = pre ++ r) -> many0 p fuel i = Ok (q, l) ->
  p q = Err Error /\ exists ps, i = concat ps ++ q /\ Forall2 (fun a x => exists r, p (x ++ r) = Ok (r, a)) l ps.
Proof.
  intros A p. induction fuel as [|fuel IH]; intros i q l G H; cbn [many0] in H; [discriminate|].
  destruct (p i) as [[i1 a]|[]| |] eqn:E; try discriminate.
  - destruct (length i1 =? length i)%nat; [discriminate|]. destruct (many0 p fuel i1) as [[r l']|e| |] eqn:M; cbn [bind] in H; try discriminate. injection H as <- <-.
    destruct (G _ _ _ E) as [pre ->]. destruct (IH i1 r l' G M) as (S & ps & -> & F). split; auto. exists (pre :: ps). split; [cbn [concat]; now rewrite app_assoc|]. constructor; eauto.
  - injection H as <- <-. split; auto. exists []. split; auto.
Qed.

Lemma sep_rest_forall : forall A (P : A -> Prop) sep p, (forall j q a, p j = Ok (q, a) -> P a) -> forall fuel i q l, sep_rest sep p fuel i = Ok (q, l) -> Forall P l.
Proof.
  intros A P sep p H. induction fuel as [|fuel IH]; intros i q l E; cbn [sep_rest] in E; [discriminate|]. destruct i as [|b i1]; [injection E as <- <-; constructor|].
  destruct (b =? sep); [|injection E as <- <-; constructor]. destruct (p i1) as [[i2 a]|[]| |] eqn:Q; try discriminate; [|injection E as <- <-; constructor].
  destruct (sep_rest sep p fuel i2) as [[r l']|e| |] eqn:R; cbn [bind] in E; try discriminate. injection E as <- <-. constructor; eauto.
Qed.

Lemma sep_list1_forall : forall A (P : A -> Prop) sep p, (forall j q a, p j = Ok (q, a) -> P a) -> forall i q l, sep_list1 sep p i = Ok (q, l) -> Forall P l.
Proof.
  intros A P sep p H i q l E. unfold sep_list1 in E. destruct (p i) as [[i1 a]|e| |] eqn:Q; cbn [bind] in E; try discriminate.
  destruct (sep_rest sep p (S (length i1)) i1) as [[r l']|e| |] eqn:R; cbn [bind] in E; try discriminate. injection E as <- <-. constructor; [eauto|]. eapply sep_rest_forall; eauto.
Qed.

Definition item_ok (it : item) : Prop :=
  match it with IMeta m => is_specifier m = true | INested s => is_text s = false | _ => True end.

Lemma gather_ok : forall l g g', Forall item_ok l -> (forall m, g_meta g = Some m -> is_specifier m = true) ->
  Forall (fun s => is_text s = false) (opt_list (g_nested g)) -> gather l g = Some g' ->
  (forall m, g_meta g' = Some m -> is_specifier m = true) /\ Forall (fun s => is_text s = false) (opt_list (g_nested g')).
Proof.
  induction l as [|it l IH]; intros [m c s w n] g' F M N H; cbn [gather] in H; [injection H as <-; auto|]. inversion F; subst. destruct it.
  - destruct m; [discriminate|]. eapply IH in H; eauto. cbn [g_meta]. intros m' E. injection E as <-. auto.
  - destruct w; [discriminate|]. eapply IH in H; eauto.
  - destruct c; [discriminate|]. eapply IH in H; eauto.
  - destruct (existsb _ _); [discriminate|]. eapply IH in H; eauto.
  - eapply IH in H; eauto. cbn [g_nested opt_list] in *. apply Forall_app. auto.
Qed.

Lemma spec_not_text : forall m f, is_specifier m = true -> is_text (MkSegment m f) = false.
Proof. intros [] f H; auto. Qed.

Lemma build_not_text : forall l s, Forall item_ok l -> build false l = Some s -> is_text s = false.
Proof.
  intros l s F H. unfold build in H. destruct (gather l gather_none) as [g|] eqn:E; [|discriminate].
  destruct (gather_ok l gather_none g F) as [M N]; [discriminate|constructor|auto|].
  destruct (g_meta g) as [m|]; destruct (g_nested g) as [[|x [|y z]]|]; try discriminate; injection H as <-.
  - apply spec_not_text. auto.
  - inversion N; auto.
Qed.

Lemma build_nested_text : forall l s, build true l = Some s -> is_text s = false.
Proof.
  intros l s H. unfold build in H. destruct (gather l gather_none) as [g|]; [|discriminate]. destruct (g_nested g); [|discriminate]. destruct (existsb _ _); [|discriminate]. injection H as <-. reflexivity.
Qed.

Lemma meta_spec : forall w m, meta_of w = Some m -> is_specifier m = true.
Proof.
  intros w m H. unfold meta_of in H. repeat match type of H with (if ?b then _ else _) = _ => destruct b; [injection H as <-; reflexivity|] end.
  destruct w; [discriminate|]. destruct (forallb _ _); [injection H as <-; reflexivity|discriminate].
Qed.

Section Text.
  Context (X : external).

  Lemma metadata_item : forall j q a, parse_metadata X j = Ok (q, a) -> item_ok a.
  Proof. intros j q a H. unfold parse_metadata, on_word in H. destruct (word X j) as [w r]. destruct (meta_of w) eqn:E; [|discriminate]. injection H as <- <-. eapply meta_spec; eauto. Qed.
  Lemma format_item : forall b j q a, parse_format X b j = Ok (q, a) -> item_ok a.
  Proof.
    intros b j q a H. unfold parse_format in H.
    destruct (p_or (parse_color X j) (p_or (parse_style X j) (parse_width j))) as [[q' a']|e| |] eqn:E; try discriminate. injection H as <- <-.
    assert (K : forall A (f : bytes -> option A) g r z, on_word X f g j = Ok (r, z) -> exists w, z = g w).
    { intros A f g r z H. unfold on_word in H. destruct (word X j) as [w x]. destruct (f w); [|discriminate]. injection H as <- <-. eauto. }
    unfold p_or in E. destruct (parse_color X j) as [[r z]|[]| |] eqn:E1; try discriminate.
    - injection E as <- <-. destruct (K _ _ _ _ _ E1) as [w ->]. exact Logic.I.
    - destruct (parse_style X j) as [[r z]|[]| |] eqn:E2; try discriminate.
      + injection E as <- <-. destruct (K _ _ _ _ _ E2) as [w ->]. exact Logic.I.
      + unfold parse_width in E. destruct (match j with [] => _ | _ => _ end) as [al i1]. destruct (span is_digit i1) as [d r]. destruct d; [discriminate|]. destruct (parse_digits _ _); [|discriminate].
        injection E as <- <-. exact Logic.I.
  Qed.
  Lemma nested_item_ok : forall arg j q a, parse_nested X arg j = Ok (q, a) -> item_ok a.
  Proof.
    intros arg j q a H. unfold parse_nested, nested_item, built in H. destruct (many0 _ _ _) as [[i l]|e| |]; cbn [bind] in H; try discriminate.
    destruct (build true l) eqn:E; cbn [bind] in H; [|discriminate]. injection H as <- <-. cbn. eapply build_nested_text; eauto.
  Qed.
  Lemma or_item : forall (a b : pres item), (forall q x, a = Ok (q, x) -> item_ok x) -> (forall q x, b = Ok (q, x) -> item_ok x) -> forall q x, p_or a b = Ok (q, x) -> item_ok x.
  Proof. intros a b A B q x H. destruct a as [|[]| |]; cbn [p_or] in H; eauto. Qed.

  Lemma segment_not_text : forall arg nest i q s, parse_log_segment X arg nest i = Ok (q, s) -> is_text s = false.
  Proof.
    intros arg nest i q s H. unfold parse_log_segment, built in H. destruct nest.
    - destruct (sep_list1 37 _ i) as [[r l]|e| |] eqn:E; cbn [bind] in H; try discriminate. destruct (build false l) eqn:B; [|discriminate]. injection H as <- <-.
      eapply build_not_text; [|exact B]. eapply sep_list1_forall; [|exact E]. intros j. apply or_item; [|apply or_item; [apply format_item|apply nested_item_ok]].
      intros q' x K. unfold nested_log_segment in K. destruct (sep_list1 58 _ j) as [[r' l']|e| |] eqn:E'; cbn [bind] in K; try discriminate.
      destruct (build false l') eqn:B'; [|discriminate]. injection K as <- <-. cbn. eapply build_not_text; [|exact B']. eapply sep_list1_forall; [|exact E'].
      intros j'. apply or_item; [apply metadata_item|apply format_item].
    - destruct (sep_list1 58 _ i) as [[r l]|e| |] eqn:E; cbn [bind] in H; try discriminate. destruct (build false l) eqn:B; [|discriminate]. injection H as <- <-.
      eapply build_not_text; [|exact B]. eapply sep_list1_forall; [|exact E]. intros j. apply or_item; [apply metadata_item|apply or_item; [apply format_item|apply nested_item_ok]].
  Qed.

  Lemma argument_piece : forall fuel nest p r s, parse_argument X fuel nest (p ++ r) = Ok (r, s) -> is_text s = false /\ bracketed p.
  Proof.
    intros [|fuel] nest p r s H; cbn [parse_argument] in H; [discriminate|]. destruct (p ++ r) as [|b i] eqn:Q; [discriminate|]. destruct (Z.eqb_spec b 123) as [->|]; [|discriminate].
    destruct (good_until i 0) as [_ U]. destruct (until_unbalanced 0 i) as [[rest content]|e| |] eqn:E; cbn [bind] in H; try discriminate.
    specialize (U _ _ eq_refl). destruct rest as [|c rest]; [discriminate|]. destruct (Z.eq_dec c 125) as [->|Hc].
    2:{ exfalso. destruct c as [|c|c]; try discriminate. repeat (destruct c as [c|c|]; try discriminate). congruence. }
    destruct (parse_log_segment X (parse_argument X fuel) nest content) as [[x s']|e| |] eqn:P; cbn [bind] in H; try discriminate. injection H as -> ->.
    split; [eapply segment_not_text; eauto|]. exists content. subst i. apply (app_inv_tail r). rewrite Q. cbn. now rewrite <- app_assoc.
  Qed.

  Lemma string_text : forall p r s, parse_string (p ++ r) = Ok (r, s) -> s = MkSegment (MString p) no_format /\ plain_text p.
  Proof.
    intros p r s H. unfold parse_string in H. pose proof (span_app (fun b => negb ((b =? 123) || (b =? 37))) (p ++ r)) as S. destruct (span _ (p ++ r)) as [a b]. destruct S as (E & F & _).
    destruct a as [|x a]; [discriminate|]. injection H as -> <-. apply app_inv_tail in E. subst p. split; auto. split; [discriminate|].
    rewrite Forall_forall in F. split; intros Q; specialize (F _ Q); cbn in F; discriminate.
  Qed.

  (** The parts of an accepted format. *)
  Lemma parse_parts : forall i l, parse_log_format X i = Ok l -> exists ps rest, i = concat ps ++ rest /\ open_end rest /\
    Forall2 (fun s p => (bracketed p /\ is_text s = false) \/ (plain_text p /\ s = MkSegment (MString p) no_format)) l ps.
  Proof.
    intros i l H. unfold parse_log_format in H. destruct (many0 _ _ i) as [[q l']|e| |] eqn:M; try discriminate. destruct (existsb has_log l'); [|discriminate]. injection H as <-.
    apply many0_pieces in M as (Q & ps & -> & F).
    - exists ps, q. split; auto. split.
      + destruct q as [|b q]; [exact Logic.I|]. cbn. unfold p_or in Q. destruct (parse_argument X (S (length (b :: q))) false (b :: q)) as [|[]| |]; try discriminate.
        unfold parse_string in Q. cbn [span] in Q. destruct (Z.eqb_spec b 123); [auto|]. destruct (Z.eqb_spec b 37); [auto|]. cbn in Q. destruct (span _ q). discriminate.
      + clear Q. induction F as [|s p l ps (r & E) F IH]; constructor; auto. unfold p_or in E.
        destruct (parse_argument X (S (length (p ++ r))) false (p ++ r)) as [[r' s']|[]| |] eqn:A; try discriminate.
        * injection E as -> ->. left. apply argument_piece in A. tauto.
        * right. apply string_text in E. tauto.
    - intros j r a E. destruct (good_or _ j (parse_argument X (S (length j)) false j) (parse_string j)) as (_ & _ & G); [apply good_argument; lia|apply good_string|]. eauto.
  Qed.

  Lemma parse_has_log : forall i l, parse_log_format X i = Ok l -> exists s, In s l /\ contains_log s.
  Proof.
    intros i l H. unfold parse_log_format in H. destruct (many0 _ _ i) as [[q l']|e| |] eqn:M; try discriminate. destruct (existsb has_log l') eqn:E; [|discriminate]. injection H as <-.
    apply existsb_exists in E as (s & Hs & E). exists s. split; auto. now apply has_log_contains.
  Qed.

  Lemma text_shown : forall colors i l r out, parse_log_format X i = Ok l -> r_level r <> None -> format_record X colors l r = Ok out ->
    exists parts rest, i = concat (map fst parts) ++ rest /\ open_end rest /\ out = concat (map snd parts) /\
      Forall (fun '(p, t) => bracketed p \/ (plain_text p /\ t = p)) parts.
  Proof.
    intros colors i l r out P L H. destruct (parse_parts i l P) as (ps & rest & -> & O & F). unfold format_record in H. destruct (r_level r); [|congruence].
    destruct (build_all_split X colors r l out H) as (ts & -> & B). clear - F B O. revert ts B.
    assert (G : forall ts, Forall2 (fun s u => build_segment X colors r s = Ok u) l ts -> exists parts, concat ps = concat (map fst parts) /\ concat ts = concat (map snd parts) /\
      Forall (fun '(p, t) => bracketed p \/ (plain_text p /\ t = p)) parts).
    { induction F as [|s p l ps Hs F IH]; intros ts B; inversion B; subst.
      - exists []. auto.
      - destruct (IH _ H3) as (parts & E1 & E2 & Fp). exists ((p, y) :: parts). cbn [map fst snd concat]. rewrite E1, E2. split; auto. split; auto. constructor; auto.
        destruct Hs as [[Hb _]|[Hp ->]]; [auto|]. right. split; auto. cbn [build_segment] in H1. congruence. }
    intros ts B. destruct (G ts B) as (parts & E1 & E2 & Fp). exists parts, rest. rewrite E1, E2. auto.
  Qed.
End Text.

(** ** Panics *)

Lemma diff_panic_iff : forall X colors text, color_diff X colors text = Panic <-> short_values text.
Proof.
  intros X colors text. split.
  - intros H. destruct (diff_cases X colors text) as [(before & a & b & _ & E)|(_ & [E|[S _]])]; auto; congruence.
  - intros (before & a & b & N & E & Ta & Tb & Z). unfold color_diff. rewrite E, rev_app_distr. cbn [rev app].
    destruct (rev before) as [|x y] eqn:Q; [exfalso; apply N; rewrite <- (rev_involutive before), Q; reflexivity|]. rewrite !strip_prefix_app.
    assert (T : forall s q, tick_end q -> (exists z, s = z ++ tick) -> ends_with tick (s ++ q) = true).
    { intros s q [->|[v ->]] [z Hz]; apply ends_spec; [exists z; now rewrite app_nil_r|exists (s ++ v); now rewrite app_assoc]. }
    rewrite !T; auto; [|exists (lit "right: "); reflexivity|exists (lit " left: "); reflexivity]. cbn [andb].
    assert (I0 : forall s q, q = [] -> (exists z, s = z ++ tick) -> inner s (s ++ q) = None).
    { intros s q -> [z Hz]. unfold inner. rewrite app_nil_r. destruct (Nat.ltb_spec (length s - 1) (length s)); auto. rewrite Hz, app_length in H. cbn in H. lia. }
    destruct Z as [Z|Z].
    + rewrite (I0 left_start a Z) by (exists (lit " left: "); reflexivity). reflexivity.
    + rewrite (I0 right_start b Z) by (exists (lit "right: "); reflexivity). destruct (inner left_start (left_start ++ a)); reflexivity.
Qed.

(** Segments with a number of path components that is not zero and widths within the limit. *)
Definition width_fits (lim : option Z) (w : Z) : Prop := match lim with Some m => w <= m | None => True end.
Inductive fits (lim : option Z) : segment -> Prop :=
| FT_file n f : 1 <= n -> width_fits lim (width_of f 0) -> fits lim (MkSegment (MFileName n) f)
| FT_line f : width_fits lim (width_of f 4) -> fits lim (MkSegment MLine f)
| FT_level f : width_fits lim (width_of f 5) -> fits lim (MkSegment MLevel f)
| FT_group l f : Forall (fits lim) l -> width_fits lim (width_of f 0) -> fits lim (MkSegment (MNested l) f)
| FT_text s f : fits lim (MkSegment (MString s) f)
| FT_other m f : match m with MFileName _ | MNested _ | MLine | MLevel | MString _ => False | _ => True end -> width_fits lim (width_of f 0) -> fits lim (MkSegment m f).

Definition record_ok (r : record) : Prop :=
  (forall p, r_file r = Some p -> path_components p <> []) /\ (r_host r = false -> ~ short_values (r_message r)) /\ line_ok r.

Definition calm (X : external) (colors : bool) (r : record) (l : list segment) : Prop :=
  x_max X = None \/ (colors = false /\ record_free r /\ Forall segment_free l).

Section Panics.
  Context (X : external) (colors : bool) (r : record) (HX : external_ok X) (HR : record_ok r).

  Lemma formatted_ok : forall s f d c, x_max X = None \/ esc_free s -> width_fits (x_max X) (width_of f d) -> exists t, build_formatted X colors s f d (r_level r) c = Ok t.
  Proof.
    intros s f d c H W. unfold build_formatted. cbv zeta. destruct (x_max X) as [m|]; [|eauto]. destruct H as [H|H]; [discriminate|].
    rewrite (clean_strip s s (clean_free s H)). cbn in W. unfold width_of in W. destruct (Z.ltb_spec m (match f_width f with Some w => w | None => d end + (Z.of_nat (length s) - Z.of_nat (length s)))); [lia|eauto].
  Qed.

  Lemma segment_ok : forall s, fits (x_max X) s -> calm X colors r [s] -> exists t, build_segment X colors r s = Ok t.
  Proof.
    destruct HR as (Hp & Hs & Hl).
    apply (segment_tree (fun s => fits (x_max X) s -> calm X colors r [s] -> exists t, build_segment X colors r s = Ok t)). intros m f IH Ft Ca.
    assert (Fr : x_max X = None \/ record_free r) by (destruct Ca as [Ca|(_ & Ca & _)]; auto).
    assert (FF : forall s, (record_free r -> esc_free s) -> x_max X = None \/ esc_free s) by (intros s; tauto).
    assert (Wt : forall m0, m = m0 -> match m0 with MFileName _ | MNested _ | MLine | MLevel | MString _ => False | _ => True end -> width_fits (x_max X) (width_of f 0)) by (intros m0 <- K; inversion Ft; subst; auto; contradiction).
    destruct m; cbn [build_segment].
    - apply formatted_ok; [apply FF; intros (A & B & C & D); now apply crate_free|eapply Wt; [reflexivity|exact Logic.I]].
    - assert (Hn : 1 <= n /\ width_fits (x_max X) (width_of f 0)) by (inversion Ft; subst; auto; contradiction).
      assert (E : exists t, file_name (r_file r) n = Ok t). { destruct (r_file r) as [p|]; [apply file_no_panic; [apply Hp; auto|tauto]|cbn; eauto]. }
      destruct E as [t E]. rewrite E. cbn [bind]. apply formatted_ok; [|tauto]. apply FF. intros (A & B & C & D). exact (file_free _ _ _ C E).
    - apply formatted_ok; [|eapply Wt; [reflexivity|exact Logic.I]]. apply FF. intros (A & B & C & D). destruct (r_file r); cbn [unwrap_or]; auto. apply lit_free. reflexivity.
    - apply formatted_ok; [|inversion Ft; subst; auto; contradiction]. right. apply dec_str_free. destruct (r_line r) eqn:E; cbn [unwrap_or]; [now apply Hl|lia].
    - unfold build_log. destruct (r_host r); [eauto|]. destruct (diff_cases X colors (r_message r)) as [(before & a & b & _ & E)|(_ & [E|[S _]])].
      + rewrite E. eauto.
      + rewrite E. apply formatted_ok; [|eapply Wt; [reflexivity|exact Logic.I]]. apply FF. intros (A & B & C & D). auto.
      + exfalso. now apply Hs.
    - apply formatted_ok; [|inversion Ft; subst; auto; contradiction]. right. destruct (r_level r) as [[]|]; apply lit_free; reflexivity.
    - apply formatted_ok; [|eapply Wt; [reflexivity|exact Logic.I]]. apply FF. intros (A & B & C & D). destruct (r_module r); cbn [unwrap_or]; auto. apply lit_free. reflexivity.
    - eauto.
    - apply formatted_ok; [|eapply Wt; [reflexivity|exact Logic.I]]. apply FF. intros (A & B & C & D). destruct (r_host r); [apply lit_free; reflexivity|]. destruct (r_time r); auto. apply lit_free. reflexivity.
    - change (exists t, build_segment X colors r (MkSegment (MNested l) f) = Ok t). rewrite nested_eq.
      assert (Fl : Forall (fits (x_max X)) l /\ width_fits (x_max X) (width_of f 0)) by (inversion Ft; subst; auto; contradiction). destruct Fl as [Fl Wl].
      assert (Cl : calm X colors r l). { destruct Ca as [Ca|(Cc & Ca & Cs)]; [now left|right]. split; [auto|split; [auto|]]. apply Forall_inv in Cs. inversion Cs; subst; auto. contradiction. }
      assert (A : exists t, build_all X colors r l = Ok t).
      { specialize (IH l eq_refl). clear - IH Fl Cl. induction l as [|s l IHl]; cbn [build_all]; [eauto|]. inversion IH; inversion Fl; subst.
        destruct (H1 H5) as [t E]. { destruct Cl as [Cl|(Cc & Ca & Cs)]; [now left|right]. inversion Cs; subst. auto. }
        destruct IHl as [u Eu]; auto. { destruct Cl as [Cl|(Cc & Ca & Cs)]; [now left|right]. inversion Cs; subst. auto. }
        rewrite E, Eu. cbn [bind]. eauto. }
      destruct A as [t A]. rewrite A. cbn [bind]. apply formatted_ok; auto.
      clear Ca. destruct Cl as [Cl|(Cc & Ca & Cs)]; [auto|right].
      destruct (build_all_split X colors r l t A) as (ts & -> & F). unfold esc_free. apply Forall_concat. subst colors.
      clear - F Cs Ca HX Hl. revert Cs. induction F as [|s u l us Hs F IHf]; intros Cs; [constructor|]. inversion Cs; subst. constructor; auto.
      destruct (colors_agree X false r HX Ca Hl s H1 ltac:(discriminate) u Hs) as (v & _ & [Cv Ov]). rewrite (Ov eq_refl). eapply clean_text; eauto.
  Qed.

  Lemma record_formats : forall l, width_fits (x_max X) 0 -> Forall (fits (x_max X)) l -> calm X colors r l -> exists t, format_record X colors l r = Ok t.
  Proof.
    intros l W F C. unfold format_record. destruct (r_level r) eqn:E.
    - clear E. induction F as [|s l Fs F IH]; cbn [build_all]; [eauto|].
      destruct (segment_ok s Fs) as [t Et]. { destruct C as [C|(Cc & Ca & Cs)]; [now left|right]. inversion Cs; subst. auto. }
      destruct IH as [u Eu]. { destruct C as [C|(Cc & Ca & Cs)]; [now left|right]. inversion Cs; subst. auto. }
      rewrite Et, Eu. cbn [bind]. eauto.
    - destruct (segment_ok (MkSegment MLog no_format)) as [t Et]; [apply FT_other; [exact Logic.I|exact W]| |].
      { destruct C as [C|(Cc & Ca & Cs)]; [now left|right]. split; [auto|split; [auto|]]. constructor; [|constructor]. now apply SF_other. }
      cbn [build_segment] in Et. eauto.
  Qed.

  Lemma colors_visible : forall l t u, record_free r -> Forall segment_free l -> Forall (even (r_level r)) l ->
    format_record X true l r = Ok t -> format_record X false l r = Ok u -> stripped t u.
  Proof.
    intros l t u Fr Fs Ev Ht Hu. destruct HR as (_ & _ & Hl).
    assert (K : forall s x y, segment_free s -> even (r_level r) s -> build_segment X true r s = Ok x -> build_segment X false r s = Ok y -> clean x y).
    { intros s x y Sf E Hx Hy. destruct (colors_agree X true r HX Fr Hl s Sf (fun _ => E) x Hx) as (v & E1 & [C1 _]).
      destruct (colors_agree X false r HX Fr Hl s Sf ltac:(discriminate) y Hy) as (v' & E2 & [_ C2]). rewrite (C2 eq_refl). congruence. }
    apply clean_stripped. unfold format_record in *. destruct (r_level r) eqn:El.
    - rewrite <- El in *. clear El. revert t u Ht Hu. induction l as [|s l IH]; intros t u Ht Hu; cbn [build_all] in *.
      + injection Ht as <-. injection Hu as <-. constructor.
      + destruct (build_segment X true r s) as [x| | |] eqn:Ex; cbn [bind] in Ht; try discriminate. destruct (build_all X true r l) as [x'| | |]; cbn [bind] in Ht; try discriminate.
        destruct (build_segment X false r s) as [y| | |] eqn:Ey; cbn [bind] in Hu; try discriminate. destruct (build_all X false r l) as [y'| | |]; cbn [bind] in Hu; try discriminate.
        injection Ht as <-. injection Hu as <-. inversion Fs; inversion Ev; subst. apply clean_app; eauto.
    - rewrite <- El in *. apply (K (MkSegment MLog no_format)); auto; [now apply SF_other|now apply EV_other].
  Qed.
End Panics.

Lemma record_shows : forall X r l t, external_ok X -> r_level r <> None -> Forall counted l -> format_record X false l r = Ok t ->
  exists ts, t = concat ts /\ Forall2 (shows X r) l ts.
Proof.
  intros X r l t HX L C H. assert (Hb : build_all X false r l = Ok t) by (unfold format_record in H; destruct (r_level r); [auto|congruence]).
  destruct (build_all_split X false r l t Hb) as (ts & -> & F). exists ts. split; auto. clear - F C HX L. revert C. induction F; intros C; constructor; inversion C; subst; auto. eapply show_spec; eauto.
Qed.

Lemma println_shows : forall X r l t, external_ok X -> r_level r = None -> format_record X false l r = Ok t -> shows X r (MkSegment MLog no_format) t.
Proof.
  intros X r l t HX L H. unfold format_record in H. rewrite L in H. unfold build_log in H. destruct (r_host r) eqn:Eh; [injection H as <-; now apply S_host|].
  destruct (diff_cases X false (r_message r)) as [(before & a & b & C & E)|(N & [E|[_ E]])]; rewrite E in H.
  - injection H as <-. rewrite diff_plain by auto. now apply S_diff.
  - apply S_message; auto. eapply formatted_plain; eauto.
  - discriminate.
Qed.
