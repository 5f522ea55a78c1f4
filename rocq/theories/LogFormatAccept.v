(** The log format parser accepts what is documented, with the documented meaning. *)
From Verif Require Import Base Utf8 ParserModel Numerals EnvFilterModel LogFormatModel LogFormatSpec LogFormatProofs.

Definition stop (r : bytes) : Prop := match r with b :: _ => b < 128 /\ ascii_alpha b = false | [] => True end.
Definition delim (r : bytes) : Prop := r = [] \/ exists c q, r = c :: q /\ (c = 58 \/ c = 37).

Lemma delim_stop : forall r, delim r -> stop r.
Proof. intros r [->|(c & q & -> & [->| ->])]; cbn; auto; split; try lia; reflexivity. Qed.

Lemma alpha_small : forall b, ascii_alpha b = true -> b <? 128 = true.
Proof. intros b H. unfold ascii_alpha in H. apply Z.ltb_lt. apply orb_true_iff in H as [H|H]; apply andb_true_iff in H as [A B]; apply Z.leb_le in A, B; lia. Qed.

Lemma span_exact : forall f a b, Forall (fun c => f c = true) a -> match b with c :: _ => f c = false | [] => True end -> span f (a ++ b) = (a, b).
Proof.
  intros f a b H. induction H as [|c a Hc H IH]; intros B; cbn [app span].
  - destruct b as [|c b]; auto. cbn [span]. now rewrite B.
  - rewrite Hc, IH; auto.
Qed.

Definition pitem (q : param) : item :=
  match q with QColor c => IColor c | QStyle s => IStyle s | QWidth w p a => IWidth w p a end.

Section Accept.
  Context (X : external) (HX : external_ok X).
  Notation word := (word X).
  Notation parse_format := (parse_format X).
  Notation parse_metadata := (parse_metadata X).
  Notation color_of := (color_of X).

  Lemma word_exact : forall w r, Forall (fun b => ascii_alpha b = true) w -> stop r -> word (w ++ r) = (w, r).
  Proof.
    intros w r H S. unfold LogFormatModel.word. assert (L : (length (w ++ r) <= length (w ++ r))%nat) by lia. revert L. generalize (length (w ++ r)) at 2 3 as n.
    induction H as [|b w Hb H IH]; intros n L; cbn [app] in *.
    - destruct n as [|n], r as [|b r]; cbn [take_alpha]; auto. destruct S as [A B]. apply Z.ltb_lt in A. now rewrite A, B.
    - destruct n as [|n]; cbn [length] in L; [lia|]. cbn [take_alpha]. rewrite (alpha_small b Hb), Hb, IH by lia. reflexivity.
  Qed.

  Lemma lower_ok : forall w, Forall (fun b => ascii_alpha b = true) w -> x_lower X w = map to_lower w.
  Proof. apply (ok_lower X HX). Qed.

  Lemma meta_shape : forall w, meta_of w <> None -> length w = 1%nat \/ (w <> [] /\ forallb (fun b => b =? 102) w = true).
  Proof.
    intros w. unfold meta_of.
    repeat match goal with |- context [beq w ?l] => destruct (beq w l) eqn:?E; [apply beq_true in E; subst w; auto|clear E] end.
    destruct w as [|b w]; [congruence|]. destruct (forallb (fun b => b =? 102) (b :: w)); [right; split; [discriminate|auto]|congruence].
  Qed.

  Lemma all_f_lower : forall w, forallb (fun b => b =? 102) w = true -> map to_lower w = w.
  Proof.
    induction w as [|b w IH]; intros H; auto. cbn in *. apply andb_true_iff in H as [A B]. apply Z.eqb_eq in A. subst b. rewrite IH by auto. reflexivity.
  Qed.

  (** Words that are parameters are not specifiers. *)
  Lemma meta_none : forall w n, map to_lower w = n -> (2 <= length n)%nat -> forallb (fun b => b =? 102) n = false -> meta_of w = None.
  Proof.
    intros w n E L F. destruct (meta_of w) eqn:M; auto. exfalso. assert (N : meta_of w <> None) by congruence. apply meta_shape in N as [N|[_ N]].
    - subst n. rewrite map_length in L. lia.
    - rewrite (all_f_lower w N) in E. congruence.
  Qed.

  Lemma color_param : forall w n c, Forall (fun b => ascii_alpha b = true) w -> map to_lower w = n ->
    beq n (lit "severity") = false -> beq n (lit "werror") = false ->
    (forall l, l = n -> (if beq l (lit "black") then Some Black else if beq l (lit "red") then Some Red
    else if beq l (lit "green") then Some Green else if beq l (lit "yellow") then Some Yellow
    else if beq l (lit "blue") then Some Blue else if beq l (lit "magenta") then Some Magenta
    else if beq l (lit "purple") then Some Magenta else if beq l (lit "cyan") then Some Cyan
    else if beq l (lit "white") then Some White else None) = Some c) ->
    color_of w = Some (CColor c).
  Proof.
    intros w n c A E N1 N2 H. unfold LogFormatModel.color_of, color_from_str. rewrite (lower_ok w A).
    destruct (beq w (lit "severity")) eqn:B; [apply beq_true in B; subst w; subst n; discriminate|].
    destruct (beq w (lit "werror")) eqn:B2; [apply beq_true in B2; subst w; subst n; discriminate|]. rewrite (H _ E). reflexivity.
  Qed.

  Lemma color_none : forall w, Forall (fun b => ascii_alpha b = true) w ->
    beq w (lit "severity") = false -> beq w (lit "werror") = false ->
    (if beq (map to_lower w) (lit "black") then Some Black else if beq (map to_lower w) (lit "red") then Some Red
    else if beq (map to_lower w) (lit "green") then Some Green else if beq (map to_lower w) (lit "yellow") then Some Yellow
    else if beq (map to_lower w) (lit "blue") then Some Blue else if beq (map to_lower w) (lit "magenta") then Some Magenta
    else if beq (map to_lower w) (lit "purple") then Some Magenta else if beq (map to_lower w) (lit "cyan") then Some Cyan
    else if beq (map to_lower w) (lit "white") then Some White else None) = None -> color_of w = None.
  Proof. intros w A N1 N2 H. unfold LogFormatModel.color_of, color_from_str. rewrite (lower_ok w A), N1, N2, H. reflexivity. Qed.

  Lemma color_of_nil : color_of [] = None.
  Proof. apply color_none; auto. Qed.

  Lemma digit_range : forall b, is_digit b = true -> 48 <= b <= 57.
  Proof. intros b H. unfold is_digit in H. apply andb_true_iff in H as [A B]. apply Z.leb_le in A, B. lia. Qed.

  Lemma not_alpha_low : forall b, b <= 64 -> ascii_alpha b = false.
  Proof.
    intros b H. unfold ascii_alpha. destruct (Z.leb_spec 65 b); [lia|]. destruct (Z.leb_spec 97 b); [lia|]. reflexivity.
  Qed.

  Lemma word_nil : forall s, stop s -> word s = ([], s).
  Proof. intros s H. apply (word_exact [] s); auto. Qed.

  Lemma delim_digit : forall r, delim r -> match r with c :: _ => is_digit c = false | [] => True end.
  Proof. intros r [->|(c & q & -> & [->| ->])]; cbn; auto. Qed.

  Lemma param_ok : forall q t r, writes_param q t -> delim r ->
    parse_metadata (t ++ r) = Err Error /\ forall b, parse_format b (t ++ r) = Ok (r, pitem q).
  Proof.
    intros q t r W D. pose proof (delim_stop r D) as S.
    assert (G : forall w it, Forall (fun b => ascii_alpha b = true) w -> meta_of w = None ->
      (exists c, color_of w = Some c /\ it = IColor c) \/ (color_of w = None /\ exists s, style_of w = Some s /\ it = IStyle s) ->
      parse_metadata (w ++ r) = Err Error /\ forall b, parse_format b (w ++ r) = Ok (r, it)).
    { intros w it A M C. unfold LogFormatModel.parse_metadata, LogFormatModel.parse_format, parse_color, parse_style, on_word. rewrite (word_exact w r A S), M. split; auto.
      intros b. destruct C as [(c & -> & ->)|(-> & s & -> & ->)]; reflexivity. }
    inversion W; subst.
    - apply G; auto.
      + apply (meta_none t _ H1); destruct c; cbn; auto; try lia; destruct t; try congruence; discriminate.
      + left. exists (CColor c). split; auto. apply (color_param t _ c H H1); destruct c; cbn; auto; try discriminate; try (intros l ->; reflexivity); destruct t; try congruence; discriminate.
    - apply G; auto.
      + apply (meta_none t _ H0); auto. cbn. lia.
      + left. exists (CColor Magenta). split; auto. apply (color_param t _ Magenta H H0); auto. intros l ->. reflexivity.
    - apply G; [repeat constructor|reflexivity|]. left. exists CSeverity. split; reflexivity.
    - apply G; [repeat constructor|reflexivity|]. left. exists CWarnError. split; reflexivity.
    - apply G; [destruct s; repeat constructor|destruct s; reflexivity|]. right. split; [|exists s; destruct s; split; reflexivity].
      destruct s; (apply color_none; [repeat constructor|reflexivity|reflexivity|reflexivity]).
    - pose proof (digit_range d0 ltac:(inversion H; auto)) as Rd.
      assert (St : stop ((align_sign a ++ d0 :: d) ++ r)).
      { destruct a as [[]|]; cbn; (split; [lia|]); try reflexivity. apply not_alpha_low. lia. }
      unfold LogFormatModel.parse_metadata, LogFormatModel.parse_format, parse_color, parse_style, on_word. rewrite (word_nil _ St).
      cbn [meta_of beq lit]. split; [reflexivity|]. intros b. rewrite color_of_nil. cbn [style_of beq lit p_or].
      assert (Pw : parse_width ((align_sign a ++ d0 :: d) ++ r) = Ok (r, IWidth (dec_value 0 (d0 :: d)) (if d0 =? 48 then PZero else PSpace) a)).
      { assert (Sp : span is_digit ((d0 :: d) ++ r) = (d0 :: d, r)) by (apply span_exact; [auto|apply delim_digit; auto]).
        assert (Pd : parse_digits usize_max (d0 :: d) = Some (dec_value 0 (d0 :: d))).
        { unfold parse_digits, usize_max. cbv zeta. destruct (Z.leb_spec (dec_value 0 (d0 :: d)) (2 ^ 64 - 1)); auto. lia. }
        unfold parse_width. destruct a as [[]|]; cbn [align_sign lit app] in *; cbv [N_of_ascii N_of_digits Z.of_N].
        1-3: rewrite ?Sp; cbn [Z.eqb]; try (change (_ =? _) with true || idtac). all: cbn - [span is_digit parse_digits usize_max dec_value]; cbn [app] in Sp; rewrite ?Sp, ?Pd; auto.
        replace (d0 =? 94) with false by (symmetry; apply Z.eqb_neq; lia). replace (d0 =? 60) with false by (symmetry; apply Z.eqb_neq; lia).
        replace (d0 =? 62) with false by (symmetry; apply Z.eqb_neq; lia). rewrite Sp, Pd. reflexivity. }
      unfold p_or. rewrite Pw. reflexivity.
  Qed.

  Lemma param_not_nil : forall q t, writes_param q t -> t <> [].
  Proof. intros q t W. inversion W; subst; auto; try discriminate; [destruct t; discriminate|destruct s; discriminate|destruct a as [[]|]; discriminate]. Qed.

  Lemma spec_meta : forall m w r, spec_word m w -> delim r -> parse_metadata (w ++ r) = Ok (r, IMeta m).
  Proof.
    intros m w r W D. pose proof (delim_stop r D) as S. unfold LogFormatModel.parse_metadata, on_word.
    assert (A : Forall (fun b => ascii_alpha b = true) w) by (inversion W; subst; try (repeat constructor); clear; induction n; cbn; auto).
    rewrite (word_exact w r A S). inversion W; subst; try reflexivity.
    assert (M : meta_of (repeat 102 n) = Some (MFileName (Z.of_nat n))).
    { destruct n as [|n]; [lia|]. unfold meta_of. cbn [repeat].
      assert (B : forall c s, c <> 102 -> beq (102 :: repeat 102 n) (c :: s) = false) by (intros c s H1; cbn [beq]; destruct (Z.eqb_spec 102 c); [congruence|reflexivity]).
      cbn [lit]. rewrite !B by (cbv; discriminate).
      assert (F : forallb (fun b => b =? 102) (102 :: repeat 102 n) = true) by (clear; cbn; induction n; cbn; auto). rewrite F. f_equal. f_equal.
      change (102 :: repeat 102 n) with (repeat 102 (Datatypes.S n)). rewrite repeat_length. apply Z.mod_small. lia. }
    rewrite M. reflexivity.
  Qed.

  Lemma delim_params : forall c pt r, c = 58 \/ c = 37 -> delim r -> delim (concat (map (cons c) pt) ++ r).
  Proof. intros c [|t pt] r H D; auto. right. cbn [map concat app]. eauto. Qed.

  Lemma sep_params : forall c (p : bytes -> pres item) ps pt, c = 58 \/ c = 37 -> Forall2 writes_param ps pt ->
    (forall q t r, writes_param q t -> delim r -> p (t ++ r) = Ok (r, pitem q)) ->
    forall fuel, (length (concat (map (cons c) pt)) < fuel)%nat -> sep_rest c p fuel (concat (map (cons c) pt)) = Ok ([], map pitem ps).
  Proof.
    intros c p ps pt Hc F P. induction F as [|q t ps pt W F IH]; intros fuel L; destruct fuel as [|fuel]; try lia; [reflexivity|].
    cbn [map concat app sep_rest]. rewrite Z.eqb_refl. rewrite (P q t _ W).
    - rewrite IH; [reflexivity|]. cbn [map concat length app] in L. rewrite app_length in L. lia.
    - rewrite <- app_nil_r. apply delim_params; auto. now left.
  Qed.

  Lemma style_in : forall s l, existsb (style_eqb s) l = true <-> In s l.
  Proof.
    intros s l. rewrite existsb_exists. split.
    - intros (x & H & E). destruct s, x; cbn in E; try discriminate; auto.
    - intros H. exists s. split; auto. destruct s; reflexivity.
  Qed.

  Lemma gather_params : forall ps m c s w n,
    (length (match c with Some x => [x] | None => [] end ++ colors_in ps) <= 1)%nat ->
    (length (match w with Some x => [x] | None => [] end ++ widths_in ps) <= 1)%nat ->
    NoDup (opt_list s ++ styles_in ps) ->
    gather (map pitem ps) (MkGathered m c s w n) =
    Some (MkGathered m (hd_error (match c with Some x => [x] | None => [] end ++ colors_in ps))
           (match styles_in ps with [] => s | l => Some (opt_list s ++ l) end)
           (hd_error (match w with Some x => [x] | None => [] end ++ widths_in ps)) n).
  Proof.
    induction ps as [|q ps IH]; intros m c s w n Hc Hw Hs; cbn [map gather].
    - cbn [colors_in widths_in styles_in flat_map]. rewrite !app_nil_r. destruct c, w; reflexivity.
    - destruct q as [k|k|k p a]; cbn [pitem]; cbn [colors_in widths_in styles_in flat_map app] in Hc, Hw, Hs |- *.
      + destruct c as [x|]; cbn [app length] in Hc; [lia|]. rewrite IH; auto.
      + destruct (existsb (style_eqb k) (opt_list s)) eqn:E.
        * exfalso. apply style_in in E. apply NoDup_remove_2 in Hs. apply Hs. apply in_or_app. auto.
        * rewrite IH; auto; [|cbn [opt_list]; rewrite <- app_assoc; auto]. f_equal. f_equal. fold (styles_in ps). destruct (styles_in ps) eqn:Q; cbn [opt_list]; auto.
          now rewrite <- app_assoc.
      + destruct w as [x|]; cbn [app length] in Hw; [lia|]. rewrite IH; auto.
  Qed.

  Lemma make_format : forall m ps n, make_segment m (MkGathered n (hd_error (colors_in ps)) (match styles_in ps with [] => None | l => Some l end)
    (hd_error (widths_in ps)) None) = MkSegment m (format_of ps).
  Proof. intros m ps n. unfold make_segment, format_of. cbn [g_width g_color g_style]. destruct (widths_in ps) as [|[[w p] a] r]; reflexivity. Qed.

  Lemma build_spec : forall m ps, params_ok ps -> build false (IMeta m :: map pitem ps) = Some (MkSegment m (format_of ps)).
  Proof.
    intros m ps (A & B & C). unfold build. cbn [gather gather_none]. rewrite gather_params by auto. cbn [g_nested g_meta app]. f_equal.
    unfold make_segment, format_of. cbn [g_width g_color g_style]. destruct (styles_in ps), (widths_in ps) as [|[[w p] a] r]; reflexivity.
  Qed.

  Lemma gather_nested : forall l r m c s w n, gather (map INested l ++ r) (MkGathered m c s w n) =
    gather r (MkGathered m c s w (match l with [] => n | _ => Some (opt_list n ++ l) end)).
  Proof.
    induction l as [|x l IH]; intros r m c s w n; auto. cbn [map app gather]. rewrite IH. destruct l; cbn [opt_list]; [reflexivity|]. now rewrite <- app_assoc.
  Qed.

  Lemma build_group : forall l ps, params_ok ps -> (exists m f, In (MkSegment m f) l /\ shows_data m) ->
    build true (map INested l ++ map pitem ps) = Some (MkSegment (MNested l) (format_of ps)).
  Proof.
    intros l ps (A & B & C) (m & f & Hx & Sx). unfold build, gather_none. rewrite gather_nested, gather_params by auto. cbn [g_nested opt_list app].
    destruct l as [|y l]; [contradiction|]. assert (E : existsb (fun s => is_specifier (seg_meta s)) (y :: l) = true) by (apply existsb_exists; eexists; split; [exact Hx|]; destruct m; try reflexivity; contradiction). rewrite E.
    f_equal. unfold make_segment, format_of. cbn [g_width g_color g_style]. destruct (styles_in ps), (widths_in ps) as [|[[w p] a] r]; reflexivity.
  Qed.

  (** ** Specifiers *)

  Lemma spec_list : forall (p3 : bytes -> pres item) m w ps pt, spec_word m w -> Forall2 writes_param ps pt ->
    sep_list1 58 (fun j => p_or (parse_metadata j) (p_or (parse_format false j) (p3 j))) (w ++ concat (map (cons 58) pt)) = Ok ([], IMeta m :: map pitem ps).
  Proof.
    intros p3 m w ps pt W F. unfold sep_list1. assert (D : delim (concat (map (cons 58) pt))) by (rewrite <- app_nil_r; apply delim_params; auto; now left).
    rewrite (spec_meta m w _ W D). cbn [p_or bind]. rewrite (sep_params 58 _ ps pt); auto.
    intros q t r Wq Dr. destruct (param_ok q t r Wq Dr) as [E1 E2]. rewrite E1, E2. reflexivity.
  Qed.

  Lemma spec_segment : forall arg nest m w ps pt, spec_word m w -> Forall2 writes_param ps pt -> params_ok ps ->
    parse_log_segment X arg nest (w ++ concat (map (cons 58) pt)) = Ok ([], MkSegment m (format_of ps)).
  Proof.
    intros arg nest m w ps pt W F K. unfold parse_log_segment. destruct nest.
    - unfold sep_list1 at 1. assert (N : nested_log_segment X (w ++ concat (map (cons 58) pt)) = Ok ([], INested (MkSegment m (format_of ps)))).
      { unfold nested_log_segment. pose proof (spec_list (fun _ => Err Error) m w ps pt W F) as L.
        assert (E : forall j, p_or (parse_metadata j) (p_or (parse_format false j) (Err Error)) = p_or (parse_metadata j) (parse_format false j)).
        { intros j. destruct (parse_metadata j) as [|[]| |]; auto. cbn [p_or]. destruct (parse_format false j) as [|[]| |]; auto. }
        unfold sep_list1 in *. rewrite E in L. destruct (p_or (parse_metadata (w ++ concat (map (cons 58) pt))) (parse_format false (w ++ concat (map (cons 58) pt)))) as [[i1 a]|e| |]; try discriminate.
        cbn [bind] in *.
        assert (Ex : forall fuel i, sep_rest 58 (fun j => p_or (parse_metadata j) (p_or (parse_format false j) (Err Error))) fuel i =
                     sep_rest 58 (fun j => p_or (parse_metadata j) (parse_format false j)) fuel i).
        { induction fuel as [|fuel IHf]; intros i; auto. cbn [sep_rest]. destruct i as [|b i]; auto. destruct (b =? 58); auto. rewrite E.
          destruct (p_or (parse_metadata i) (parse_format false i)) as [[i2 a2]|[]| |]; auto. now rewrite IHf. }
        rewrite Ex in L. destruct (sep_rest 58 (fun j => p_or (parse_metadata j) (parse_format false j)) (S (length i1)) i1) as [[r l]|e| |]; try discriminate.
        cbn [bind] in *. injection L as -> -> ->. rewrite build_spec; auto. }
      rewrite N. cbn [p_or bind length sep_rest]. reflexivity.
    - rewrite (spec_list _ m w ps pt W F). cbn [built bind]. now rewrite build_spec.
  Qed.

  (** ** Brackets *)

  Definition prep (x : bytes) (r : pres bytes) : pres bytes := match r with Ok (q, y) => Ok (q, x ++ y) | e => e end.

  Lemma prep_prep : forall x y r, prep x (prep y r) = prep (x ++ y) r.
  Proof. intros x y [[q z]|e| |]; cbn; auto. now rewrite app_assoc. Qed.

  Definition inert (b : Z) : Prop := b <> 92 /\ b <> 123 /\ b <> 125.

  Lemma until_inert : forall a d r, Forall inert a -> until_unbalanced d (a ++ r) = prep a (until_unbalanced d r).
  Proof.
    intros a d r H. induction H as [|b a (A & B & C) H IH]; cbn [app].
    - destruct (until_unbalanced d r) as [[]| | |]; reflexivity.
    - cbn [until_unbalanced]. apply Z.eqb_neq in A, B, C. rewrite A, B, C, IH. destruct (until_unbalanced d r) as [[]| | |]; reflexivity.
  Qed.

  Lemma until_group : forall x d r, (forall d r, until_unbalanced d (x ++ r) = prep x (until_unbalanced d r)) ->
    until_unbalanced d (([123] ++ x ++ [125]) ++ r) = prep ([123] ++ x ++ [125]) (until_unbalanced d r).
  Proof.
    intros x d r H. cbn [app]. rewrite <- app_assoc. cbn [until_unbalanced app]. change (123 =? 92) with false. change (123 =? 123) with true. cbn iota.
    rewrite (H (S d)). cbn [until_unbalanced]. change (125 =? 92) with false. change (125 =? 123) with false. change (125 =? 125) with true. cbn iota.
    destruct (until_unbalanced d r) as [[q y]| | |]; cbn [prep]; auto. repeat f_equal. cbn [app]. now rewrite <- ?app_assoc.
  Qed.

  Lemma alpha_inert : forall w, Forall (fun b => ascii_alpha b = true) w -> Forall inert w.
  Proof.
    intros w. apply Forall_impl. intros b H. unfold ascii_alpha in H. apply orb_true_iff in H as [H|H]; apply andb_true_iff in H as [A B]; apply Z.leb_le in A, B; unfold inert; lia.
  Qed.

  Lemma param_inert : forall q t, writes_param q t -> Forall inert t.
  Proof.
    intros q t W. inversion W; subst; try solve [now apply alpha_inert]; try solve [apply alpha_inert; repeat constructor].
    - destruct s; apply alpha_inert; repeat constructor.
    - apply Forall_app. split; [destruct a as [[]|]; repeat constructor; cbv; discriminate|]. revert H. apply Forall_impl. intros b H. apply digit_range in H. unfold inert. lia.
  Qed.

  Lemma params_inert : forall c ps pt, c = 58 \/ c = 37 -> Forall2 writes_param ps pt -> Forall inert (concat (map (cons c) pt)).
  Proof.
    intros c ps pt Hc F. induction F as [|q t ps pt W F IH]; cbn [map concat]; [constructor|]. cbn [app]. constructor; [unfold inert; lia|].
    apply Forall_app. split; auto. eapply param_inert; eauto.
  Qed.

  Lemma spec_inert : forall m w, spec_word m w -> Forall inert w.
  Proof. intros m w W. inversion W; subst; try (repeat constructor; cbv; discriminate). clear. induction n; cbn; constructor; auto. unfold inert. lia. Qed.

  Lemma until_writes : forall g s a, writes X g s a -> is_text s = false \/ g = true ->
    forall d r, until_unbalanced d (a ++ r) = prep a (until_unbalanced d r).
  Proof.
    apply (writes_mut X (fun g s a _ => is_text s = false \/ g = true -> forall d r, until_unbalanced d (a ++ r) = prep a (until_unbalanced d r))
      (fun g l b _ => g = true -> forall d r, until_unbalanced d (b ++ r) = prep b (until_unbalanced d r))).
    - intros g s [_ T] [H|H]; [discriminate|]. intros d r. apply until_inert. revert T. apply Forall_impl. unfold inert. intros b (A & B & C). destruct (C H). auto.
    - intros g m w ps pt W F K _ d r. rewrite app_assoc with (l := w). apply until_group. intros d' r'. apply until_inert. apply Forall_app. split; [eapply spec_inert; eauto|eapply params_inert; eauto].
    - intros g l body ps pt W IH F K E B _ d r. rewrite app_assoc with (l := body). apply until_group. intros d' r'. rewrite <- app_assoc, IH by auto.
      rewrite until_inert; [apply prep_prep|]. eapply params_inert; eauto.
    - intros g _ d r. cbn [app]. destruct (until_unbalanced d r) as [[]| | |]; reflexivity.
    - intros g s l a b W IHs Wl IHl N H d r. rewrite <- app_assoc, IHs by auto. rewrite IHl by auto. apply prep_prep.
  Qed.

  (** ** Sequences *)

  Inductive pieces (R : segment -> bytes -> Prop) : list segment -> bytes -> Prop :=
  | Pc_nil : pieces R [] []
  | Pc_cons s l a b : R s a -> pieces R l b -> (is_text s = true -> match l with t :: _ => is_text t = false | [] => True end) -> pieces R (s :: l) (a ++ b).

  Definition opens (r : bytes) : Prop := match r with b :: _ => b = 123 \/ b = 37 | [] => True end.

  Lemma take_alpha_open : forall m r, opens r -> exists q, take_alpha X m r = ([], q).
  Proof. intros [|m] [|b r] O; cbn [take_alpha]; try (eexists; reflexivity). destruct O as [->| ->]; eexists; reflexivity. Qed.

  Lemma many_pieces : forall A (inj : segment -> A) (p : bytes -> pres A) (R : segment -> bytes -> Prop) l b, pieces R l b ->
    (forall s a, R s a -> a <> [] /\ (is_text s = false -> exists q, a = 123 :: q)) ->
    forall r, (forall s a q, R s a -> (length a <= length b)%nat -> (is_text s = true -> opens q) -> p (a ++ q) = Ok (q, inj s)) ->
    match r with x :: _ => x = 37 | [] => True end ->
    forall q items, (forall fuel, (length r < fuel)%nat -> many0 p fuel r = Ok (q, items)) ->
    forall fuel, (length (b ++ r) < fuel)%nat -> many0 p fuel (b ++ r) = Ok (q, map inj l ++ items).
  Proof.
    intros A inj p R l b H Sh. induction H as [|s l a b Rs H IH N]; intros r P Hr q items M fuel L; [apply M; auto|].
    rewrite <- app_assoc in *. destruct (Sh s a Rs) as [Na Oa]. destruct fuel as [|fuel]; [lia|]. cbn [many0]. rewrite (P s a (b ++ r) Rs).
    - assert (La : (0 < length a)%nat) by (destruct a; [congruence|cbn; lia]). rewrite app_length in L.
      destruct (Nat.eqb_spec (length (b ++ r)) (length (a ++ b ++ r))) as [Q|_]; [rewrite (app_length a) in Q; lia|].
      rewrite (IH r) with (q := q) (items := items); auto; [|lia]. intros s' a' q' R' L'. apply P; auto. rewrite app_length. lia.
    - rewrite app_length. lia.
    - intros T. specialize (N T). destruct H as [|s' l' a' b' R' H N']; cbn [app].
      + destruct r; cbn; auto.
      + destruct (Sh s' a' R') as [_ O]. destruct (O N) as [q' ->]. cbn. auto.
  Qed.

  Lemma string_piece : forall g s q, text_ok g s -> opens q -> parse_string (s ++ q) = Ok (q, MkSegment (MString s) no_format).
  Proof.
    intros g s q [N T] O. unfold parse_string. rewrite span_exact.
    - destruct s; [congruence|reflexivity].
    - revert T. apply Forall_impl. intros b (A & B & _). apply Z.eqb_neq in A, B. now rewrite A, B.
    - destruct q as [|b q]; auto. destruct O as [->| ->]; reflexivity.
  Qed.

  Lemma format_params : forall (arg : bytes -> pres segment) ps pt, Forall2 writes_param ps pt -> (forall j, match j with b :: _ => b <> 123 | [] => True end -> arg j = Err Error) ->
    forall fuel, (length (concat (map (cons 37%Z) pt)) < fuel)%nat ->
    many0 (fun j => p_or (nested_item (arg j)) (p_or (nested_item (parse_string j))
         (match j with b :: r => if b =? 37 then parse_format true r else Err Error | [] => Err Error end))) fuel (concat (map (cons 37) pt)) = Ok ([], map pitem ps).
  Proof.
    intros arg ps pt F Ha. set (p := fun j : bytes => _).
    assert (Hp : forall q t r, writes_param q t -> delim r -> p (37 :: t ++ r) = Ok (r, pitem q)).
    { intros q t r W D. unfold p. rewrite (Ha (37 :: t ++ r)) by discriminate. destruct (param_ok q t r W D) as [_ E]. rewrite <- E with (b := true). reflexivity. }
    assert (Hn : p [] = Err Error) by (unfold p; rewrite Ha by auto; reflexivity). clearbody p.
    induction F as [|q t ps pt W F IH]; intros fuel L; destruct fuel as [|fuel]; try lia; cbn [map concat app many0].
    - rewrite Hn. reflexivity.
    - cbn [map concat app length] in L. rewrite app_length in L. rewrite (Hp q t _ W) by (rewrite <- app_nil_r; apply delim_params; auto; now left).
      destruct (Nat.eqb_spec (length (concat (map (cons 37) pt))) (length (37 :: t ++ concat (map (cons 37) pt)))) as [Q|Q].
      + cbn [length] in Q. rewrite app_length in Q. lia.
      + rewrite IH by lia. reflexivity.
  Qed.

  Lemma argument_shut : forall fuel nest j, match j with b :: _ => b <> 123 | [] => True end -> parse_argument X (S fuel) nest j = Err Error.
  Proof. intros fuel nest [|b j] H; cbn [parse_argument]; auto. apply Z.eqb_neq in H. now rewrite H. Qed.

  (** The content of a group is not taken for a specifier or parameter. *)
  Lemma plain_start : forall s r, begins_plain X s -> text_ok true s -> opens r ->
    parse_metadata (s ++ r) = Err Error /\ parse_format false (s ++ r) = Err Error.
  Proof.
    intros s r (M & C & T & D) [N K] O.
    assert (W : exists q, word (s ++ r) = (fst (word s), q)).
    { clear - O. unfold LogFormatModel.word. assert (L1 : (length s <= length s)%nat) by lia. assert (L2 : (length (s ++ r) <= length (s ++ r))%nat) by lia. revert L1 L2.
      generalize (length s) at 2 3 as n. generalize (length (s ++ r)) at 2 3 as m. intros m n. revert m s. induction n as [|n IH]; intros m s Ls Lm.
      - destruct s; [|cbn in Ls; lia]. cbn [app]. apply take_alpha_open; auto.
      - destruct s as [|b s]; cbn [app].
        + cbn [take_alpha fst]. apply take_alpha_open; auto.
        + destruct m as [|m]; [cbn in Lm; lia|]. cbn [take_alpha app]. cbn [length] in Ls. cbn [app length] in Lm. destruct (b <? 128).
          * destruct (ascii_alpha b); [|eauto]. destruct (IH m s) as [q Q]; [lia|lia|]. rewrite Q. destruct (take_alpha X n s) as [w q']. eauto.
          * assert (Sp : let '(k, q) := span is_continuation s in span is_continuation (s ++ r) = (k, q ++ r) /\ (length q <= length s)%nat).
            { pose proof (span_app is_continuation s) as Sa. destruct (span is_continuation s) as [k q]. destruct Sa as (-> & A & B). split; [|rewrite app_length; lia].
              rewrite <- app_assoc. apply span_exact; auto. destruct q as [|c q]; auto. cbn [app]. destruct r as [|c r]; auto. destruct O as [->| ->]; reflexivity. }
            destruct (span is_continuation s) as [k q]. destruct Sp as [-> Lq]. destruct (x_alpha X (b :: k)); [|eauto].
            destruct (IH m q) as [q' Q]; [lia|rewrite app_length in *; lia|]. rewrite Q. destruct (take_alpha X n q) as [w q'']. eauto. }
    destruct W as [q W]. unfold LogFormatModel.parse_metadata, LogFormatModel.parse_format, parse_color, parse_style, on_word. rewrite W, M, C, T. cbn [p_or]. split; auto.
    assert (E : parse_width (s ++ r) = Err Error); [|now rewrite E].
    destruct s as [|b s]; [congruence|]. destruct D as [D1 D2]. unfold parse_width. cbn [app].
    assert (E : is_sign b = true -> span is_digit (s ++ r) = ([], s ++ r)).
    { intros Sg. specialize (D2 Sg). destruct s as [|c s]; cbn [app].
      - destruct r as [|c r]; auto. destruct O as [->| ->]; reflexivity.
      - cbn [span]. now rewrite D2. }
    destruct (b =? 94) eqn:E1; [rewrite E; [reflexivity|unfold is_sign; rewrite E1, !orb_true_r; auto]|].
    destruct (b =? 60) eqn:E2; [rewrite E; [reflexivity|unfold is_sign; rewrite E2; auto]|].
    destruct (b =? 62) eqn:E3; [rewrite E; [reflexivity|unfold is_sign; rewrite E3, !orb_true_r; auto]|]. cbn [span]. rewrite D1. reflexivity.
  Qed.

  Lemma brace_start : forall r, parse_metadata (123 :: r) = Err Error /\ parse_format false (123 :: r) = Err Error.
  Proof.
    intros r. assert (St : stop (123 :: r)) by (cbn; split; [lia|reflexivity]).
    unfold LogFormatModel.parse_metadata, LogFormatModel.parse_format, parse_color, parse_style, on_word. rewrite (word_nil _ St), color_of_nil. split; reflexivity.
  Qed.

  Lemma group_start : forall l body r, pieces (fun s a => writes X true s a) l body -> l <> [] -> opens r ->
    (forall s l', l = MkSegment (MString s) no_format :: l' -> begins_plain X s) ->
    parse_metadata (body ++ r) = Err Error /\ parse_format false (body ++ r) = Err Error.
  Proof.
    intros l body r P N O B. destruct P as [|s l a b W P T]; [congruence|]. rewrite <- app_assoc. inversion W; subst.
    - apply plain_start; [eapply B; reflexivity|auto|]. specialize (T eq_refl). destruct P as [|s' l' a' b' W' P T']; [exact O|].
      inversion W'; subst; cbn; auto. discriminate.
    - apply brace_start.
    - apply brace_start.
  Qed.

  Lemma group_log_segment_none : forall j, parse_metadata j = Err Error -> parse_format false j = Err Error -> nested_log_segment X j = Err Error.
  Proof. intros j A B. unfold nested_log_segment, sep_list1. rewrite A, B. reflexivity. Qed.

  Lemma parse_group : forall fuel nest l body ps pt,
    pieces (fun s a => writes X true s a /\ (is_text s = false -> forall fuel nest r, (length a < fuel)%nat -> parse_argument X fuel nest (a ++ r) = Ok (r, s))) l body ->
    Forall2 writes_param ps pt -> params_ok ps -> (exists m f, In (MkSegment m f) l /\ shows_data m) ->
    (forall s r, l = MkSegment (MString s) no_format :: r -> begins_plain X s) ->
    (length body < fuel)%nat ->
    parse_log_segment X (parse_argument X fuel) nest (body ++ concat (map (cons 37) pt)) = Ok ([], MkSegment (MNested l) (format_of ps)).
  Proof.
    intros fuel nest l body ps pt P F K E B L. destruct fuel as [|fuel]; [lia|].
    set (txt := concat (map (cons 37) pt)).
    assert (O : opens txt) by (subst txt; destruct pt; cbn; auto).
    assert (Nl : l <> []) by (destruct E as (m & f & Hx & _); destruct l; [contradiction|discriminate]).
    assert (P' : pieces (fun s a => writes X true s a) l body). { clear - P. induction P as [|s l a b [R _] P IH N]; constructor; auto. }
    destruct (group_start l body txt P' Nl O B) as [E1 E2].
    assert (G : forall n, parse_nested X (parse_argument X (S fuel) n) (body ++ txt) = Ok ([], INested (MkSegment (MNested l) (format_of ps)))).
    { intros n. unfold parse_nested.
      rewrite (many_pieces item INested _ _ l body P) with (q := []) (items := map pitem ps).
      - cbn [built bind]. rewrite build_group by auto. reflexivity.
      - intros s a [W _]. inversion W; subst; (split; [|intros Q; try discriminate; cbn; eauto]); try discriminate. destruct H. auto.
      - intros s a q [W A] La Oq. destruct (is_text s) eqn:T.
        + inversion W; subst; cbn [is_text] in T; try discriminate; [|destruct m; try discriminate; inversion H; discriminate].
          rewrite argument_shut by (destruct H as [Hn Ht]; destruct a; [congruence|]; inversion Ht; cbn; tauto). cbn [nested_item bind p_or].
          rewrite (string_piece true); auto.
        + rewrite A by (auto; lia). reflexivity.
      - subst txt. destruct pt; cbn; auto.
      - apply format_params; auto. intros j. apply argument_shut.
      - lia. }
    unfold parse_log_segment. destruct nest.
    - unfold sep_list1. rewrite (group_log_segment_none _ E1 E2), E2, G. cbn [p_or bind length sep_rest built]. reflexivity.
    - unfold sep_list1. rewrite E1, E2, G. cbn [p_or bind length sep_rest built]. reflexivity.
  Qed.

  Lemma closed_argument : forall fuel nest x r s, (forall d q, until_unbalanced d (x ++ q) = prep x (until_unbalanced d q)) ->
    parse_log_segment X (parse_argument X fuel) nest x = Ok ([], s) -> parse_argument X (S fuel) nest (([123] ++ x ++ [125]) ++ r) = Ok (r, s).
  Proof.
    intros fuel nest x r s U P. cbn [app parse_argument]. change (123 =? 123) with true. cbn iota. rewrite <- app_assoc. rewrite U. cbn [app until_unbalanced].
    change (125 =? 92) with false. change (125 =? 123) with false. change (125 =? 125) with true. cbn iota. cbn [prep bind]. rewrite app_nil_r, P. reflexivity.
  Qed.

  Lemma accept_writes : forall g s a, writes X g s a -> is_text s = false -> forall fuel nest r, (length a < fuel)%nat -> parse_argument X fuel nest (a ++ r) = Ok (r, s).
  Proof.
    apply (writes_mut X (fun g s a _ => is_text s = false -> forall fuel nest r, (length a < fuel)%nat -> parse_argument X fuel nest (a ++ r) = Ok (r, s))
      (fun g l b _ => pieces (fun s a => writes X g s a /\ (is_text s = false -> forall fuel nest r, (length a < fuel)%nat -> parse_argument X fuel nest (a ++ r) = Ok (r, s))) l b)).
    - discriminate.
    - intros g m w ps pt W F K _ fuel nest r L. destruct fuel as [|fuel]; [lia|]. rewrite app_assoc with (l := w).
      apply closed_argument; [|apply spec_segment; auto]. intros d q. apply until_inert. apply Forall_app. split; [eapply spec_inert; eauto|eapply params_inert; eauto].
    - intros g l body ps pt W P F K E B _ fuel nest r L. destruct fuel as [|fuel]; [lia|]. rewrite app_assoc with (l := body).
      apply closed_argument.
      + intros d q. rewrite <- app_assoc.
        assert (U : forall d q, until_unbalanced d (body ++ q) = prep body (until_unbalanced d q)).
        { clear - P. induction P as [|s l a b [R _] P IH N]; intros d q; cbn [app]; [destruct (until_unbalanced d q) as [[]| | |]; reflexivity|].
          rewrite <- app_assoc, (until_writes true s a R), IH by auto. apply prep_prep. }
        rewrite U, until_inert; [apply prep_prep|]. eapply params_inert; eauto.
      + apply parse_group; auto. cbn [app length] in L. rewrite app_length in L. lia.
    - constructor.
    - intros g s l a b W IHs Wl IHl N. constructor; auto.
  Qed.

  Lemma pieces_of : forall g l b, writes_all X g l b -> pieces (fun s a => writes X g s a) l b.
  Proof. intros g l b H. induction H; constructor; auto. Qed.

  Lemma has_log_contains : forall s, has_log s = true -> contains_log s.
  Proof.
    fix IH 1. intros [m f]. destruct m; cbn [has_log]; try discriminate; [constructor|].
    intros H. induction l as [|s l IHl]; cbn [existsb] in H; [discriminate|]. apply orb_true_iff in H as [H|H].
    - apply CL_group with (s := s); [now left|]. now apply IH.
    - specialize (IHl H). inversion IHl; subst. apply CL_group with (s := s0); auto. now right.
  Qed.

  Lemma has_log_iff : forall s, has_log s = true <-> contains_log s.
  Proof.
    intros s. split; [apply has_log_contains|]. intros H. induction H as [f|l f s Hs H IH]; auto. cbn [has_log]. apply existsb_exists. eauto.
  Qed.

  Lemma accepts : forall l text, writes_all X false l text -> (exists s, In s l /\ contains_log s) -> parse_log_format X text = Ok l.
  Proof.
    intros l text W (x & Hx & Lx). unfold parse_log_format. pose proof (pieces_of false l text W) as P.
    pose proof (many_pieces segment (fun s => s) (fun j => p_or (parse_argument X (S (length j)) false j) (parse_string j)) _ l text P) as M.
    rewrite <- (app_nil_r text) at 2. rewrite M with (r := []) (q := []) (items := []); auto.
    - rewrite map_id, app_nil_r. assert (E : existsb has_log l = true) by (apply existsb_exists; exists x; split; auto; now apply has_log_iff). now rewrite E.
    - intros s a R. inversion R; subst; (split; [|intros Q; try discriminate; cbn; eauto]); try discriminate. destruct H. auto.
    - intros s a q R La Oq. destruct (is_text s) eqn:T.
      + inversion R; subst; cbn [is_text] in T; try discriminate; [|destruct m; try discriminate; inversion H; discriminate].
        rewrite argument_shut by (destruct H as [Hn Ht]; destruct a; [congruence|]; inversion Ht; cbn; tauto). cbn [p_or]. apply (string_piece false); auto.
      + rewrite (accept_writes false s a R T); auto. rewrite app_length. lia.
    - intros fuel L. destruct fuel as [|fuel]; [lia|]. reflexivity.
    - rewrite app_nil_r. lia.
  Qed.
End Accept.
