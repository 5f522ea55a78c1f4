(** What the log formatter shows, with and without colours, and when it panics. *)
From Verif Require Import Base Utf8 ParserModel Numerals EnvFilterModel EnvFilterProofs LogFormatModel LogFormatSpec LogFormatProofs LogFormatAccept LogFormatShow.

Lemma segment_tree : forall P : segment -> Prop,
  (forall m f, (forall l, m = MNested l -> Forall P l) -> P (MkSegment m f)) -> forall s, P s.
Proof.
  intros P H. fix IH 1. intros [m f]. apply H. intros l E. destruct m; try discriminate. injection E as <-. induction l0 as [|x l0 IHl]; constructor; auto.
Qed.

Lemma nested_eq : forall X colors r l f, build_segment X colors r (MkSegment (MNested l) f) =
  (t <- build_all X colors r l ;; build_formatted X colors t f 0 (r_level r) (f_color f)).
Proof.
  intros X colors r l f. cbn [build_segment].
  assert (G : forall l acc, (fix go (l : list segment) (acc : bytes) : outcome unit bytes :=
           match l with
           | [] => build_formatted X colors acc f 0 (r_level r) (f_color f)
           | s :: l' => t <- build_segment X colors r s ;; go l' (acc ++ t)
           end) l acc = (t <- build_all X colors r l ;; build_formatted X colors (acc ++ t) f 0 (r_level r) (f_color f))).
  { clear l. induction l as [|s l IH]; intros acc; cbn [build_all bind]; [now rewrite app_nil_r|].
    destruct (build_segment X colors r s) as [t|e| |]; cbn [bind]; auto. rewrite IH. destruct (build_all X colors r l) as [u|e| |]; cbn [bind]; auto. now rewrite app_assoc. }
  rewrite G. reflexivity.
Qed.

(** ** Without colours *)

Lemma formatted_plain : forall X s f d l c t, build_formatted X false s f d l c = Ok t -> padded (align_of f) (fill_of f) (width_of f d) s t.
Proof.
  intros X s f d l c t H. unfold build_formatted in H. cbv zeta in H. destruct (match x_max X with Some m => _ | None => _ end); [discriminate|].
  match type of H with Ok (paint _ _ ?k ?st s ?sh) = _ => assert (P : paint X false k st s sh = sh s) by (unfold paint; destruct k, st; reflexivity); rewrite P in H end.
  injection H as <-. destruct (pad_shape (match f_align f with Some a => a | None => ALeft end) (match f_pad f with Some p => p | None => PSpace end)
     (match f_width f with Some w => w | None => d end + (Z.of_nat (length s) - Z.of_nat (length (strip_ansi s)))) s) as (i & j & -> & C & A).
  exists i, j, (strip_ansi s). split; [unfold fill_of; destruct (f_pad f) as [[]|]; reflexivity|]. split; [apply strip_spec|]. split; [|exact A].
  rewrite C. pose proof (stripped_count s _ (strip_spec s)). unfold width_of. lia.
Qed.

Definition leveled (r : record) : Prop := r_level r <> None.
Inductive counted : segment -> Prop :=
| CO_file n f : 0 <= n -> counted (MkSegment (MFileName n) f)
| CO_group l f : Forall counted l -> counted (MkSegment (MNested l) f)
| CO_other m f : match m with MFileName _ | MNested _ => False | _ => True end -> counted (MkSegment m f).

Lemma build_all_split : forall X colors r l t, build_all X colors r l = Ok t -> exists ts, t = concat ts /\ Forall2 (fun s u => build_segment X colors r s = Ok u) l ts.
Proof.
  induction l as [|s l IH]; intros t H; cbn [build_all] in H.
  - injection H as <-. exists []. split; auto.
  - destruct (build_segment X colors r s) as [u|e| |] eqn:E; cbn [bind] in H; try discriminate. destruct (build_all X colors r l) as [v|e| |]; cbn [bind] in H; try discriminate.
    injection H as <-. destruct (IH v eq_refl) as (ts & -> & F). exists (u :: ts). split; auto.
Qed.

Lemma show_spec : forall X r, external_ok X -> leveled r -> forall s, counted s -> forall t, build_segment X false r s = Ok t -> shows X r s t.
Proof.
  intros X r HX Lv. apply (segment_tree (fun s => counted s -> forall t, build_segment X false r s = Ok t -> shows X r s t)). intros m f IH Co t H. destruct m.
  - apply S_crate with (c := crate_name (r_module r)); [apply crate_spec|]. cbn [build_segment] in H. eapply formatted_plain; eauto.
  - cbn [build_segment] in H. destruct (r_file r) as [p|] eqn:Ef.
    + destruct (file_name (Some p) n) as [u|e| |] eqn:En; cbn [bind] in H; try discriminate.
      assert (Hn : 0 <= n) by (inversion Co; subst; auto; contradiction). destruct (file_spec p n u En Hn) as (before & comps & E & N & L & ->).
      eapply S_file; eauto. eapply formatted_plain; eauto.
    + cbn [file_name bind] in H. apply S_no_file; auto. eapply formatted_plain; eauto.
  - apply S_path. cbn [build_segment] in H. eapply formatted_plain; eauto.
  - apply S_line. cbn [build_segment] in H. eapply formatted_plain; eauto.
  - cbn [build_segment] in H. unfold build_log in H. destruct (r_host r) eqn:Eh; [injection H as <-; now apply S_host|].
    destruct (diff_cases X false (r_message r)) as [(before & a & b & C & E)|(N & [E|[_ E]])]; rewrite E in H.
    + injection H as <-. rewrite diff_plain by auto. now apply S_diff.
    + apply S_message; auto. eapply formatted_plain; eauto.
    + discriminate.
  - cbn [build_segment] in H. unfold leveled in Lv. destruct (r_level r) as [l|] eqn:El; [|congruence]. apply S_level with (l := l); auto. eapply formatted_plain; eauto.
  - apply S_module. cbn [build_segment] in H. eapply formatted_plain; eauto.
  - cbn [build_segment] in H. injection H as <-. constructor.
  - apply S_time. cbn [build_segment] in H. eapply formatted_plain; eauto.
  - rewrite nested_eq in H. destruct (build_all X false r l) as [u|e| |] eqn:E; cbn [bind] in H; try discriminate.
    destruct (build_all_split X false r l u E) as (ts & -> & F). apply S_group with (ts := ts); [|eapply formatted_plain; eauto].
    assert (Cl : Forall counted l) by (inversion Co; subst; auto; contradiction). specialize (IH l eq_refl). clear - F IH Cl. revert IH Cl. induction F; intros IH Cl; constructor; inversion IH; inversion Cl; subst; auto.
Qed.

(** ** With colours *)

Definition record_free (r : record) : Prop :=
  esc_free (r_time r) /\ esc_free (r_message r) /\ (forall p, r_file r = Some p -> esc_free p) /\ (forall p, r_module r = Some p -> esc_free p).
Inductive segment_free : segment -> Prop :=
| SF_text s f : esc_free s -> segment_free (MkSegment (MString s) f)
| SF_group l f : Forall segment_free l -> segment_free (MkSegment (MNested l) f)
| SF_other m f : match m with MString _ | MNested _ => False | _ => True end -> segment_free (MkSegment m f).

(** Groups with a width have no colour or style of their own. *)
Inductive even (l : option level) : segment -> Prop :=
| EV_group segs f : Forall (even l) segs -> width_of f 0 <= 0 \/ pick_color (f_color f) l = None /\ opt_list (f_style f) = [] -> even l (MkSegment (MNested segs) f)
| EV_other m f : match m with MNested _ => False | _ => True end -> even l (MkSegment m f).

Definition unlimited (X : external) : external := MkExternal (x_alpha X) (x_lower X) (x_sgr X) (x_diff X) None.

Lemma sgr_clean : forall X c st, external_ok X -> clean (x_sgr X c st) [].
Proof. intros X c st H. destruct (ok_sgr X H c st) as (d & D & ->). replace ([27; 91] ++ d ++ [109]) with ([27; 91] ++ d ++ [109] ++ []) by reflexivity. apply CN_seq; auto. constructor. Qed.
Lemma reset_clean : clean reset [].
Proof. change reset with ([27; 91] ++ [48] ++ [109] ++ []). apply CN_seq; [repeat constructor|constructor]. Qed.

Lemma formatted_clean : forall X colors s v f d l c t, external_ok X -> clean s v -> (colors = false -> s = v) ->
  (s = v \/ width_of f d <= 0 \/ pick_color c l = None /\ opt_list (f_style f) = []) ->
  build_formatted X colors s f d l c = Ok t ->
  exists t0, build_formatted (unlimited X) false v f d l c = Ok t0 /\ clean t t0 /\ (colors = false -> t = t0).
Proof.
  intros X colors s v f d l c t HX C Off G H. unfold build_formatted in *. cbv zeta in *. cbn [unlimited x_max].
  destruct (match x_max X with Some m => _ | None => _ end); [discriminate|].
  pose proof (clean_text s v C) as Fv. pose proof (clean_strip s v C) as Es. pose proof (clean_strip v v (clean_free v Fv)) as Ev. rewrite Es in H. rewrite Ev.
  pose proof (stripped_count s v (clean_stripped s v C)) as Cnt. change (match f_width f with Some w => w | None => d end) with (width_of f d) in *. set (w := width_of f d) in *.
  set (a := match f_align f with Some a => a | None => ALeft end) in *. set (p := match f_pad f with Some p => p | None => PSpace end) in *.
  replace (w + (Z.of_nat (length v) - Z.of_nat (length v))) with w by lia. set (w1 := w + (Z.of_nat (length s) - Z.of_nat (length v))) in *.
  destruct (pad_same a p w1 s w v) as (x & y & P1 & P2 & Fx & Fy); [subst w1; lia|].
  assert (Pn : forall X' k st z sh, paint X' false k st z sh = sh z) by (intros X' k st z sh; unfold paint; destruct k, st; reflexivity). rewrite Pn.
  assert (Base : clean (pad_text a p w1 s) (pad_text a p w v)).
  { rewrite P1, P2. apply clean_app; [now apply clean_free|]. apply clean_app; [exact C|now apply clean_free]. }
  eexists. split; [reflexivity|]. injection H as <-. destruct colors.
  2:{ rewrite Pn. split; auto. intros _. rewrite P1, P2. now rewrite (Off eq_refl). }
  split; [|discriminate]. unfold paint. set (seq := x_sgr X (pick_color c l) (opt_list (f_style f))).
  assert (Painted : (s = v \/ w <= 0) -> clean (seq ++ pad_text a p w1 (escape_resets (length s) seq s) ++ reset) (pad_text a p w v)).
  { intros K. assert (M : clean (pad_text a p w1 (escape_resets (length s) seq s)) (pad_text a p w v)).
    { destruct (escape_clean seq (sgr_clean X _ _ HX) s v C (length s) (le_n _)) as [Ce Ge]. destruct K as [K|K].
      - rewrite escape_free by (rewrite K; auto). exact Base.
      - rewrite !pad_none; auto; [pose proof (char_count_nonneg v); lia|]. subst w1. pose proof (char_count_nonneg v). lia. }
    assert (E0 : pad_text a p w v = [] ++ pad_text a p w v ++ []) by (cbn [app]; symmetry; apply app_nil_r). rewrite E0.
    apply clean_app; [apply sgr_clean, HX|]. apply clean_app; [exact M|apply reset_clean]. }
  destruct (pick_color c l) eqn:Ep.
  - apply Painted. destruct G as [G|[G|[G _]]]; auto. discriminate.
  - destruct (opt_list (f_style f)) eqn:Eo; [exact Base|]. apply Painted. destruct G as [G|[G|[_ G]]]; auto. discriminate.
Qed.

Lemma paint_clean : forall X colors c st s, external_ok X -> esc_free s -> clean (paint X colors c st s plain) s /\ (colors = false -> paint X colors c st s plain = s).
Proof.
  intros X colors c st s HX F. unfold paint, plain. rewrite escape_free by auto. pose proof (clean_free s F) as C.
  assert (P : clean (x_sgr X c st ++ s ++ reset) s).
  { assert (E0 : s = [] ++ s ++ []) by (cbn [app]; symmetry; apply app_nil_r). rewrite E0 at 2.
    apply clean_app; [apply sgr_clean, HX|]. apply clean_app; [exact C|apply reset_clean]. }
  destruct c, st, colors; auto; split; auto; discriminate.
Qed.

Lemma dec_str_free : forall n, 0 <= n -> esc_free (dec_str n).
Proof.
  intros n Hn. assert (H := dec_str_digits n Hn). revert H. apply Forall_impl. intros b H. unfold is_digit in H. apply andb_true_iff in H as [A B]. apply Z.leb_le in A, B. lia.
Qed.

Lemma split_path_free : forall n s, (length s < n)%nat -> esc_free s -> Forall esc_free (split_path s).
Proof.
  induction n as [|n IH]; intros s L F; [lia|]. destruct s as [|b s]; [repeat constructor|]. rewrite split_path_cons. inversion F; subst.
  destruct s as [|d s]; [repeat constructor; auto|]. inversion H2; subst. cbn [length] in L. destruct ((b =? 58) && (d =? 58)).
  - constructor; [constructor|]. apply IH; auto. lia.
  - specialize (IH (d :: s) ltac:(cbn [length]; lia) H2). destruct (split_path (d :: s)) as [|p ps]; [repeat constructor; auto|]. inversion IH; subst. constructor; auto. constructor; auto.
Qed.

Lemma lit_free : forall s, forallb (fun b => negb (b =? 27)) s = true -> esc_free s.
Proof. intros s H. apply Forall_forall. intros b Hb. rewrite forallb_forall in H. specialize (H b Hb). apply negb_true_iff, Z.eqb_neq in H. exact H. Qed.

Lemma crate_free : forall m, (forall p, m = Some p -> esc_free p) -> esc_free (crate_name m).
Proof.
  intros [p|] H; cbn [crate_name]; [|apply lit_free; reflexivity]. pose proof (split_path_free (S (length p)) p ltac:(lia) (H p eq_refl)) as F.
  destruct (split_path p) as [|c [|c2 l]]; try (apply lit_free; reflexivity). inversion F; auto.
Qed.

Lemma join_free : forall sep l, esc_free sep -> Forall esc_free l -> esc_free (join sep l).
Proof.
  intros sep l Hs F. induction F as [|x l Hx F IH]; [constructor|]. destruct l as [|y l]; auto. cbn [join] in *. apply free_app. split; auto. apply free_app. auto.
Qed.

Lemma split_on_free : forall c s, esc_free s -> Forall esc_free (split_on c s).
Proof.
  intros c s F. induction F as [|b s Hb F IH]; cbn [split_on]; [repeat constructor|]. destruct (b =? c); [constructor; auto; constructor|].
  destruct (split_on c s); [repeat constructor; auto|]. inversion IH; subst. constructor; auto. constructor; auto.
Qed.

Lemma components_free : forall p, esc_free p -> Forall esc_free (path_components p).
Proof.
  intros p F. pose proof (split_on_free 47 p F) as S. unfold path_components.
  assert (Ff : Forall esc_free (filter (fun n => nonemptyb n && negb (beq n (lit "."))) (split_on 47 p))).
  { apply Forall_forall. intros x Hx. apply filter_In in Hx as [Hx _]. rewrite Forall_forall in S. auto. }
  assert (A : Forall esc_free match split_on 47 p with [] => filter (fun n => nonemptyb n && negb (beq n (lit "."))) (split_on 47 p)
     | n :: _ => if beq n (lit ".") then n :: filter (fun n => nonemptyb n && negb (beq n (lit "."))) (split_on 47 p) else filter (fun n => nonemptyb n && negb (beq n (lit "."))) (split_on 47 p) end).
  { destruct (split_on 47 p) as [|n l]; auto. destruct (beq n (lit ".")); auto. constructor; auto. inversion S; auto. }
  destruct p as [|b p]; auto. destruct (Z.eq_dec b 47) as [->|Nb]; [constructor; [apply lit_free; reflexivity|exact Ff]|].
  destruct b as [|b|b]; auto. repeat (destruct b as [b|b|]; auto). congruence.
Qed.

Lemma file_free : forall file n t, (forall p, file = Some p -> esc_free p) -> file_name file n = Ok t -> esc_free t.
Proof.
  intros [p|] n t F H; [|injection H as <-; apply lit_free; reflexivity]. unfold file_name in H.
  destruct (skipn _ _) as [|x y] eqn:Q in H; [discriminate|]. assert (t = join (lit "/") (x :: y)) by congruence. subst t. apply join_free; [apply lit_free; reflexivity|].
  rewrite <- Q. pose proof (components_free p (F p eq_refl)) as C. rewrite <- (firstn_skipn (length (path_components p) - Nat.min (length (path_components p)) (Z.to_nat n)) (path_components p)) in C.
  apply Forall_app in C. tauto.
Qed.

Lemma lines_free : forall s, esc_free s -> Forall esc_free (lines s).
Proof.
  intros s. pattern s. apply bytes_length_ind. clear s. intros s IH F. destruct s as [|b r]; [constructor|]. cbn [lines]. inversion F; subst.
  destruct (b =? 10); [constructor; [constructor|apply IH; auto]|]. destruct r as [|c r']; [repeat constructor; auto|]. inversion H2; subst.
  destruct ((b =? 13) && (c =? 10)); [constructor; [constructor|apply IH; auto; cbn; lia]|].
  specialize (IH (c :: r') ltac:(cbn; lia) H2). destruct (lines (c :: r')); [repeat constructor; auto|]. inversion IH; subst. constructor; auto. constructor; auto.
Qed.

Lemma chunks_clean : forall X colors (g : chunk -> bytes) (h : chunk -> bytes) l,
  (forall k, In k l -> clean (g k) (h k) /\ (colors = false -> g k = h k)) -> external_ok X ->
  clean (flat_map g l) (flat_map h l) /\ (colors = false -> flat_map g l = flat_map h l).
Proof.
  intros X colors g h l H HX. induction l as [|k l IH]; cbn [flat_map]; [split; [constructor|auto]|].
  destruct (H k (or_introl eq_refl)) as [A B]. destruct IH as [C D]; [intros k' Hk; apply H; now right|]. split; [now apply clean_app|]. intros E. now rewrite B, D.
Qed.

Definition agree (colors : bool) (t u : bytes) : Prop := clean t u /\ (colors = false -> t = u).
Lemma agree_app : forall c a b x y, agree c a x -> agree c b y -> agree c (a ++ b) (x ++ y).
Proof. intros c a b x y [A1 A2] [B1 B2]. split; [now apply clean_app|]. intros E. now rewrite A2, B2. Qed.
Lemma agree_free : forall c s, esc_free s -> agree c s s.
Proof. intros c s F. split; auto. now apply clean_free. Qed.

Lemma diff_agree : forall X colors text before a b, external_ok X -> esc_free text -> comparison text before a b ->
  agree colors (diff_out X colors before a b) (diff_out (unlimited X) false before a b).
Proof.
  intros X colors text before a b HX F [_ E]. pose proof (lines_free text F) as L. rewrite E in L. apply Forall_app in L as [Lb Lv].
  pose proof (Forall_inv Lv) as Fa. pose proof (Forall_inv (Forall_inv_tail Lv)) as Fb. apply free_app in Fa as [_ Fa]. apply free_app in Fa as [Fa _]. apply free_app in Fb as [_ Fb]. apply free_app in Fb as [Fb _].
  assert (Fl : forall s, forallb (fun b => negb (b =? 27)) s = true -> agree colors s s) by (intros; apply agree_free, lit_free; auto).
  assert (Pa : forall c st s, esc_free s -> agree colors (paint X colors c st s plain) (paint (unlimited X) false c st s plain)).
  { intros c st s Fs. destruct (paint_clean X colors c st s HX Fs) as [A B]. assert (paint (unlimited X) false c st s plain = s) as -> by (unfold paint, plain; destruct c, st; reflexivity). split; auto. }
  assert (Pl : forall c st s, forallb (fun b => negb (b =? 27)) s = true -> agree colors (paint X colors c st s plain) (paint (unlimited X) false c st s plain)) by (intros; apply Pa, lit_free; auto).
  destruct (ok_diff X HX a b) as [Ho Hn].
  assert (Ck : forall k, In k (x_diff X a b) -> match k with CEqual s | CDelete s | CInsert s => esc_free s end).
  { intros k Hk. destruct k as [s|s|s].
    - assert (esc_free (old_text (x_diff X a b))) as Q by (rewrite Ho; auto). unfold old_text in Q. unfold esc_free in *. rewrite Forall_forall in *. intros z Hz. apply Q. apply in_flat_map. exists (CEqual s). auto.
    - assert (esc_free (new_text (x_diff X a b))) as Q by (rewrite Hn; auto). unfold new_text in Q. unfold esc_free in *. rewrite Forall_forall in *. intros z Hz. apply Q. apply in_flat_map. exists (CInsert s). auto.
    - assert (esc_free (old_text (x_diff X a b))) as Q by (rewrite Ho; auto). unfold old_text in Q. unfold esc_free in *. rewrite Forall_forall in *. intros z Hz. apply Q. apply in_flat_map. exists (CDelete s). auto. }
  unfold diff_out. cbv zeta. change (x_diff (unlimited X)) with (x_diff X).
  repeat match goal with |- agree _ (_ ++ _) (_ ++ _) => apply agree_app end; try solve [apply Pl; reflexivity|apply Fl; reflexivity].
  - apply Pa. apply join_free; auto. apply lit_free. reflexivity.
  - apply (chunks_clean X); auto. intros k Hk. specialize (Ck k Hk). destruct k; [apply Pa; auto|split; [constructor|auto]|apply Pa; auto].
  - apply (chunks_clean X); auto. intros k Hk. specialize (Ck k Hk). destruct k; [apply Pa; auto|apply Pa; auto|split; [constructor|auto]].
Qed.

Lemma diff_shape : forall X X' c c' text, color_diff X c text = Err tt -> color_diff X' c' text = Err tt.
Proof.
  intros X X' c c' text H. unfold color_diff in *. destruct (rev (lines text)) as [|rl [|ll [|x y]]]; auto. destruct (strip_prefix left_start ll), (strip_prefix right_start rl); auto.
  destruct (ends_with tick ll && ends_with tick rl); auto. destruct (inner left_start ll), (inner right_start rl); discriminate.
Qed.

Definition line_ok (r : record) : Prop := forall n, r_line r = Some n -> 0 <= n.

Section Colors.
  Context (X : external) (colors : bool) (r : record).
  Context (HX : external_ok X) (HF : record_free r) (HL : line_ok r).

  Lemma leaf_agree : forall s f d c t, esc_free s -> build_formatted X colors s f d (r_level r) c = Ok t ->
    exists u, build_formatted (unlimited X) false s f d (r_level r) c = Ok u /\ agree colors t u.
  Proof. intros s f d c t F H. apply (formatted_clean X colors s s); auto. now apply clean_free. Qed.

  Lemma colors_agree : forall s, segment_free s -> (colors = true -> even (r_level r) s) -> forall t, build_segment X colors r s = Ok t ->
    exists u, build_segment (unlimited X) false r s = Ok u /\ agree colors t u.
  Proof.
    destruct HF as (Ft & Fm & Ff & Fo).
    apply (segment_tree (fun s => segment_free s -> (colors = true -> even (r_level r) s) -> forall t, build_segment X colors r s = Ok t ->
      exists u, build_segment (unlimited X) false r s = Ok u /\ agree colors t u)).
    intros m f IH Sf Ev t H. destruct m; cbn [build_segment] in H |- *.
    - apply leaf_agree; auto. now apply crate_free.
    - destruct (file_name (r_file r) n) as [x|e| |] eqn:E; cbn [bind] in *; try discriminate. apply leaf_agree; auto. exact (file_free _ _ _ Ff E).
    - apply leaf_agree; auto. destruct (r_file r); cbn [unwrap_or]; auto. apply lit_free. reflexivity.
    - apply leaf_agree; auto. apply dec_str_free. destruct (r_line r) eqn:E; cbn [unwrap_or]; [now apply HL|lia].
    - unfold build_log in *. destruct (r_host r); [injection H as <-; eexists; split; [reflexivity|now apply agree_free]|].
      destruct (diff_cases X colors (r_message r)) as [(before & a & b & C & E)|(N & [E|[_ E]])]; rewrite E in H.
      + injection H as <-. rewrite (diff_found (unlimited X) false _ before a b C). eexists. split; [reflexivity|]. eapply diff_agree; eauto.
      + rewrite (diff_shape X (unlimited X) colors false _ E). now apply leaf_agree.
      + discriminate.
    - apply leaf_agree; auto. destruct (r_level r) as [[]|]; apply lit_free; reflexivity.
    - apply leaf_agree; auto. destruct (r_module r); cbn [unwrap_or]; auto. apply lit_free. reflexivity.
    - injection H as <-. eexists. split; [reflexivity|]. apply agree_free. inversion Sf; subst; auto. contradiction.
    - apply leaf_agree; auto. destruct (r_host r); [apply lit_free; reflexivity|]. destruct (r_time r); auto. apply lit_free. reflexivity.
    - change (build_segment X colors r (MkSegment (MNested l) f) = Ok t) in H. change (exists u, build_segment (unlimited X) false r (MkSegment (MNested l) f) = Ok u /\ agree colors t u).
      rewrite nested_eq in *. destruct (build_all X colors r l) as [w|e| |] eqn:E; cbn [bind] in H; try discriminate.
      assert (A : exists u, build_all (unlimited X) false r l = Ok u /\ agree colors w u).
      { assert (Sl : Forall segment_free l) by (inversion Sf; subst; auto; contradiction). assert (El : colors = true -> Forall (even (r_level r)) l) by (intros Q; specialize (Ev Q); inversion Ev; subst; auto; contradiction).
        specialize (IH l eq_refl). clear - IH E Sl El. revert w E. induction l as [|s l IHl]; intros w E; cbn [build_all] in *.
        - injection E as <-. eexists. split; [reflexivity|]. apply agree_free. constructor.
        - destruct (build_segment X colors r s) as [x|e| |] eqn:Es; cbn [bind] in E; try discriminate. destruct (build_all X colors r l) as [y|e| |]; cbn [bind] in E; try discriminate.
          injection E as <-. inversion IH; inversion Sl; subst. destruct (H1 H5 ltac:(intros Q; specialize (El Q); inversion El; auto) x Es) as (u & Eu & Au).
          destruct (IHl H2 H6 ltac:(intros Q; specialize (El Q); inversion El; auto) y eq_refl) as (v & Ev & Av). rewrite Eu, Ev. cbn [bind]. eexists. split; [reflexivity|]. now apply agree_app. }
      destruct A as (u & Eu & [Cu Ou]). rewrite Eu. cbn [bind]. apply (formatted_clean X colors w u); auto.
      destruct colors; [|left; auto]. right. specialize (Ev eq_refl). inversion Ev; subst; auto. contradiction.
  Qed.
End Colors.

Lemma pick_color_of : forall c l k, stands_for c (Some l) k -> pick_color c (Some l) = k.
Proof.
  intros c l k H. inversion H; subst; try reflexivity. destruct l; try reflexivity; exfalso; match goal with N : ~ In _ _ |- _ => apply N end; cbn; auto.
Qed.

Lemma color_of_exists : forall c l, exists k, stands_for c (Some l) k.
Proof.
  intros [[c| |]|] l; [eexists; constructor|destruct l; eexists; constructor| |eexists; constructor].
  destruct l; try (eexists; constructor; cbn; intuition discriminate); eexists; constructor.
Qed.

Lemma formatted_decorated : forall X s f d l c k t, esc_free s -> stands_for c (Some l) k ->
  build_formatted X true s f d (Some l) c = Ok t ->
  exists u, build_formatted X false s f d (Some l) c = Ok u /\ decorated X k (opt_list (f_style f)) u t.
Proof.
  intros X s f d l c k t F C H. unfold build_formatted in *. cbv zeta in *.
  destruct (match x_max X with Some m => _ | None => _ end); [discriminate|].
  rewrite (pick_color_of _ _ _ C) in *. unfold paint in *. rewrite escape_free in H by auto. injection H as <-.
  eexists. split; [reflexivity|]. destruct k; destruct (opt_list (f_style f)); [right|right|left|right]; split; auto; try (left; discriminate); right; discriminate.
Qed.

Theorem piece_decorated : forall X r m f l t, record_free r -> line_ok r -> r_level r = Some l -> piece r m ->
  format_record X true [MkSegment m f] r = Ok t ->
  exists u k, format_record X false [MkSegment m f] r = Ok u /\ stands_for (color_setting m f) (Some l) k /\
    decorated X k (opt_list (f_style f)) u t.
Proof.
  intros X r m f l t (Ft & Fm & Ff & Fo) HL El P H. unfold format_record in *. rewrite El in *. cbn [build_all] in *.
  destruct (build_segment X true r (MkSegment m f)) as [t'|e| |] eqn:E; cbn [bind] in H; try discriminate.
  rewrite app_nil_r in H. injection H as ->.
  destruct (color_of_exists (color_setting m f) l) as (k & K).
  enough (A : exists u, build_segment X false r (MkSegment m f) = Ok u /\ decorated X k (opt_list (f_style f)) u t).
  { destruct A as (u & -> & D). cbn [bind]. exists u, k. rewrite app_nil_r. auto. }
  destruct m; cbn [build_segment] in E |- *; rewrite ?El in *; try contradiction.
  - eapply formatted_decorated; eauto. now apply crate_free.
  - destruct (file_name (r_file r) n) as [x|e| |] eqn:Ex; cbn [bind] in *; try discriminate. eapply formatted_decorated; eauto. exact (file_free _ _ _ Ff Ex).
  - eapply formatted_decorated; eauto. destruct (r_file r); cbn [unwrap_or]; auto. apply lit_free. reflexivity.
  - eapply formatted_decorated; eauto. apply dec_str_free. destruct (r_line r) eqn:Er; cbn [unwrap_or]; [now apply HL|lia].
  - unfold build_log in *. destruct P as [Hh N]. rewrite Hh, ?El in *.
    destruct (diff_cases X true (r_message r)) as [(before & a & b & C & _)|(_ & [Ed|[_ Ed]])]; [now destruct (N before a b)| |]; rewrite Ed in E; [|discriminate].
    rewrite (diff_shape X X true false _ Ed). eapply formatted_decorated; eauto.
  - eapply formatted_decorated; eauto; [destruct l; apply lit_free; reflexivity|]. unfold color_setting in K. destruct (f_color f); exact K.
  - eapply formatted_decorated; eauto. destruct (r_module r); cbn [unwrap_or]; auto. apply lit_free. reflexivity.
  - eapply formatted_decorated; eauto. destruct (r_host r); [apply lit_free; reflexivity|]. destruct (r_time r); auto. apply lit_free. reflexivity.
Qed.
