(** What the log formatter shows: text, padding, colours. *)
From Verif Require Import Base Utf8 ParserModel Numerals EnvFilterModel EnvFilterProofs LogFormatModel LogFormatSpec LogFormatProofs.

(* ------------------------------------------------------------------ *)
(** * Escape sequences *)

Lemma strip_loop_spec : forall fuel s, (length s <= fuel)%nat -> stripped s (strip_loop fuel s).
Proof.
  induction fuel as [|fuel IH]; intros s L.
  - destruct s; [constructor|cbn in L; lia].
  - destruct s as [|b r]; [constructor|]. cbn [length] in L. cbn [strip_loop].
    assert (K : forall x, (x = None -> forall d q, Forall (fun b => sgr_char b = true) d -> b :: r <> [27; 91] ++ d ++ [109] ++ q) ->
      (forall q, x = Some q -> exists d, Forall (fun b => sgr_char b = true) d /\ b :: r = [27; 91] ++ d ++ [109] ++ q) ->
      stripped (b :: r) (match x with Some q => strip_loop fuel q | None => b :: strip_loop fuel r end)).
    { intros [q|] N E.
      - destruct (E q eq_refl) as (d & D & Q). rewrite Q. constructor; auto. apply IH.
        assert (length (b :: r) = length ([27; 91] ++ d ++ [109] ++ q)) as Hl by congruence. rewrite !app_length in Hl. cbn in Hl. lia.
      - constructor; [now apply N|]. apply IH. lia. }
    apply K.
    + destruct (Z.eqb_spec b 27) as [->|Nb]; [|intros _ d q _ E; injection E as E; congruence].
      destruct r as [|c r']; [intros _ d q _ E; discriminate|]. destruct (Z.eqb_spec c 91) as [->|Nc]; [|intros _ d q _ E; injection E as E; congruence].
      intros E d q D Q. injection Q as Q. subst r'.
      pose proof (span_app sgr_char (d ++ 109 :: q)) as S. destruct (span sgr_char (d ++ 109 :: q)) as [a z]. destruct S as (S & A & B). cbn [snd] in E.
      assert (W : forall d a z, Forall (fun b => sgr_char b = true) d -> d ++ 109 :: q = a ++ z -> Forall (fun b => sgr_char b = true) a -> match z with c :: _ => sgr_char c = false | [] => True end ->
        exists z', z = 109 :: z').
      { clear. induction d as [|x d IHd]; intros a z D E A B; cbn [app] in E.
        - destruct a as [|y a]; cbn [app] in E; [eauto|]. injection E as <- E. inversion A. discriminate.
        - destruct a as [|y a]; cbn [app] in E; [subst z; inversion D; congruence|]. injection E as <- E. inversion D; inversion A; subst. eapply IHd; eauto. }
      destruct (W d a z D S A B) as [z' ->]. rewrite Z.eqb_refl in E. discriminate.
    + intros q. destruct (Z.eqb_spec b 27) as [->|Nb]; [|discriminate]. destruct r as [|c r']; [discriminate|]. destruct (Z.eqb_spec c 91) as [->|Nc]; [|discriminate].
      pose proof (span_app sgr_char r') as S. destruct (span sgr_char r') as [a z]. destruct S as (S & A & B). cbn [snd]. destruct z as [|d z]; [discriminate|].
      destruct (Z.eqb_spec d 109) as [->|]; [|discriminate]. intros E. injection E as ->. exists a. subst r'. auto.
Qed.

Lemma strip_spec : forall s, stripped s (strip_ansi s).
Proof. intros s. apply strip_loop_spec. lia. Qed.

Lemma stripped_det : forall s t, stripped s t -> forall u, stripped s u -> t = u.
Proof.
  assert (U : forall d d' q q', Forall (fun b => sgr_char b = true) d -> Forall (fun b => sgr_char b = true) d' -> d ++ 109 :: q = d' ++ 109 :: q' -> q = q').
  { induction d as [|x d IH]; intros [|y d'] q q' D D' E; cbn [app] in E.
    - congruence.
    - injection E as E1 E2. subst y. inversion D'. discriminate.
    - injection E as E1 E2. subst x. inversion D. discriminate.
    - injection E as E1 E2. inversion D; inversion D'; subst. eauto. }
  intros s t H. induction H as [|d s t D H IH|b s t N H IH]; intros u Hu.
  - inversion Hu; auto.
  - inversion Hu as [|d' s' t' D' H' E|b s' t' N' H' E]; subst.
    + apply IH. rewrite (U d d' s s'); auto.
    + exfalso. apply (N' d s D). reflexivity.
  - inversion Hu as [|d' s' t' D' H' E|b' s' t' N' H' E]; subst.
    + exfalso. apply (N d' s' D'). auto.
    + f_equal. auto.
Qed.

Lemma char_count_cons : forall b s, char_count (b :: s) = (if is_continuation b then 0 else 1) + char_count s.
Proof. intros b s. unfold char_count. cbn [filter]. destruct (is_continuation b); cbn [negb length]; lia. Qed.
Lemma char_count_nonneg : forall s, 0 <= char_count s.
Proof. intros s. unfold char_count. lia. Qed.
Lemma char_count_app : forall a b, char_count (a ++ b) = char_count a + char_count b.
Proof. intros a b. unfold char_count. rewrite filter_app, app_length. lia. Qed.
Lemma char_count_sgr : forall d, Forall (fun b => sgr_char b = true) d -> char_count d = Z.of_nat (length d).
Proof.
  intros d H. induction H as [|b d Hb H IH]; auto. rewrite char_count_cons, IH. cbn [length].
  assert (is_continuation b = false) as ->; [|lia].
  unfold sgr_char, is_digit in Hb. unfold is_continuation. apply orb_true_iff in Hb as [Hb|Hb]; [apply andb_true_iff in Hb as [A B]; apply Z.leb_le in A, B|apply Z.eqb_eq in Hb];
    (destruct (Z.leb_spec 128 b); [lia|reflexivity]).
Qed.

Lemma stripped_count : forall s t, stripped s t -> char_count s - char_count t = Z.of_nat (length s) - Z.of_nat (length t).
Proof.
  intros s t H. induction H as [|d s t D H IH|b s t N H IH]; auto.
  - rewrite !char_count_app, (char_count_sgr d D), !app_length. change (char_count [27; 91]) with 2. change (char_count [109]) with 1. cbn [length]. lia.
  - rewrite !char_count_cons. cbn [length]. lia.
Qed.

(** Text without escape characters, with complete escape sequences in between: [clean s t] says that [t] is the text. *)
Inductive clean : bytes -> bytes -> Prop :=
| CN_nil : clean [] []
| CN_seq d s t : Forall (fun b => sgr_char b = true) d -> clean s t -> clean ([27; 91] ++ d ++ [109] ++ s) t
| CN_char b s t : b <> 27 -> clean s t -> clean (b :: s) (b :: t).

Definition esc_free (s : bytes) : Prop := Forall (fun b => b <> 27) s.

Lemma clean_stripped : forall s t, clean s t -> stripped s t.
Proof. intros s t H. induction H; constructor; auto. intros d q _ E. injection E as E. congruence. Qed.
Lemma clean_app : forall a x, clean a x -> forall b y, clean b y -> clean (a ++ b) (x ++ y).
Proof.
  intros a x H. induction H as [|d s t D H IH|c s t N H IH]; intros b y Hb; auto.
  - rewrite <- !app_assoc. apply CN_seq; auto.
  - cbn [app]. constructor; auto.
Qed.
Lemma clean_free : forall s, esc_free s -> clean s s.
Proof. intros s H. induction H; constructor; auto. Qed.
Lemma clean_text : forall s t, clean s t -> esc_free t.
Proof. intros s t H. induction H; auto; constructor; auto. Qed.
Lemma clean_strip : forall s t, clean s t -> strip_ansi s = t.
Proof. intros s t H. eapply stripped_det; [apply strip_spec|]. now apply clean_stripped. Qed.
Lemma clean_self : forall s t, esc_free s -> clean s t -> s = t.
Proof. intros s t F H. eapply stripped_det; [apply clean_stripped, (clean_free s F)|now apply clean_stripped]. Qed.

Lemma free_app : forall a b, esc_free (a ++ b) <-> esc_free a /\ esc_free b.
Proof. intros. apply Forall_app. Qed.
Lemma free_repeat : forall c n, c <> 27 -> esc_free (repeat c n).
Proof. intros c n H. induction n; constructor; auto. Qed.

Lemma escape_nil : forall fuel seq, escape_resets fuel seq [] = [].
Proof. destruct fuel; reflexivity. Qed.

Lemma escape_char : forall fuel seq b r, b <> 27 -> escape_resets (S fuel) seq (b :: r) = b :: escape_resets fuel seq r.
Proof. intros fuel seq b r H. cbn [escape_resets strip_prefix reset]. destruct (Z.eqb_spec 27 b); [congruence|reflexivity]. Qed.

Lemma sgr_not_esc : forall b, sgr_char b = true -> b <> 27.
Proof. intros b H E. subst b. discriminate. Qed.

Lemma escape_free_prefix : forall a fuel seq r, esc_free a -> (length (a ++ r) <= fuel)%nat -> escape_resets fuel seq (a ++ r) = a ++ escape_resets (fuel - length a) seq r.
Proof.
  induction a as [|b a IH]; intros fuel seq r F L; cbn [app length] in *; [now rewrite Nat.sub_0_r|].
  destruct fuel as [|fuel]; [lia|]. inversion F; subst. rewrite escape_char, IH by (auto; lia). reflexivity.
Qed.

Lemma escape_clean : forall seq, clean seq [] -> forall s t, clean s t -> forall fuel, (length s <= fuel)%nat ->
  clean (escape_resets fuel seq s) t /\ char_count s <= char_count (escape_resets fuel seq s).
Proof.
  intros seq Hs s t H. induction H as [|d s t D H IH|b s t N H IH]; intros fuel L.
  - rewrite escape_nil. split; [constructor|lia].
  - assert (Fd : esc_free ([91] ++ d ++ [109])).
    { apply Forall_app. split; [constructor; [lia|constructor]|]. apply Forall_app. split; [|constructor; [lia|constructor]]. revert D. apply Forall_impl. apply sgr_not_esc. }
    rewrite !app_length in L. cbn [length] in L. destruct fuel as [|fuel]; [lia|].
    assert (E : [27; 91] ++ d ++ [109] ++ s = 27 :: ([91] ++ d ++ [109]) ++ s) by (cbn; now rewrite <- app_assoc).
    destruct (list_eq_dec Z.eq_dec d [48]) as [->|Nd].
    + change (escape_resets (S fuel) seq ([27; 91] ++ [48] ++ [109] ++ s)) with (reset ++ seq ++ escape_resets fuel seq s).
      destruct (IH fuel ltac:(lia)) as [C G]. split.
      * change reset with ([27; 91] ++ [48] ++ [109]). rewrite <- !app_assoc. apply CN_seq; [repeat constructor|]. apply (clean_app seq [] Hs _ _ C).
      * change ([27; 91] ++ [48] ++ [109] ++ s) with (reset ++ s). rewrite !char_count_app. pose proof (char_count_nonneg seq). lia.
    + assert (Q : escape_resets (S fuel) seq ([27; 91] ++ d ++ [109] ++ s) = 27 :: escape_resets fuel seq (([91] ++ d ++ [109]) ++ s)).
      { rewrite E. cbn [escape_resets]. destruct (strip_prefix reset (27 :: ([91] ++ d ++ [109]) ++ s)) as [q|] eqn:P; auto.
        exfalso. apply strip_prefix_some in P. apply Nd. cbn in P. injection P as P. rewrite <- app_assoc in P. clear - P D.
        destruct d as [|x d]; cbn in P; [discriminate|]. injection P as -> P. destruct d as [|y d]; auto. cbn in P. injection P as -> P. inversion D; subst. inversion H2. discriminate. }
      rewrite Q, (escape_free_prefix ([91] ++ d ++ [109])); auto; [|rewrite !app_length; cbn [length]; lia].
      destruct (IH (fuel - length ([91%Z] ++ d ++ [109%Z]))%nat) as [C G]; [rewrite !app_length; cbn [length]; lia|]. split.
      * change (27 :: ([91] ++ d ++ [109]) ++ ?z) with ([27] ++ ([91] ++ d ++ [109]) ++ z). rewrite <- !app_assoc. apply CN_seq; auto.
      * rewrite E, !char_count_cons, !char_count_app. lia.
  - destruct fuel as [|fuel]; [cbn in L; lia|]. cbn [length] in L. rewrite escape_char by auto. destruct (IH fuel ltac:(lia)) as [C G]. split; [constructor; auto|].
    rewrite !char_count_cons. lia.
Qed.

Lemma escape_free : forall seq s, esc_free s -> escape_resets (length s) seq s = s.
Proof.
  intros seq s F. pose proof (escape_free_prefix s (length s) seq [] F) as H. rewrite app_nil_r in H. rewrite H by lia. rewrite escape_nil. apply app_nil_r.
Qed.

(* ------------------------------------------------------------------ *)
(** * Padding *)

Lemma pad_shape : forall a p width s, exists i j, pad_text a p width s = repeat (match p with PSpace => 32 | PZero => 48 end) i ++ s ++ repeat (match p with PSpace => 32 | PZero => 48 end) j /\
  Z.of_nat (i + j) = Z.max 0 (width - char_count s) /\ match a with ALeft => i = 0%nat | ARight => j = 0%nat | ACenter => (i <= j <= S i)%nat end.
Proof.
  intros a p width s. unfold pad_text. cbv zeta. generalize (width - char_count s) as n. intros n.
  exists (Z.to_nat (match a with ACenter => n / 2 | ALeft => 0 | ARight => n end)), (Z.to_nat (n - match a with ACenter => n / 2 | ALeft => 0 | ARight => n end)). split; auto.
  destruct a; [|split; [lia|reflexivity]|split; [lia|lia]].
  pose proof (Z.div_mod n 2 ltac:(lia)) as D. pose proof (Z.mod_pos_bound n 2 ltac:(lia)) as B.
  set (q := n / 2) in *. set (m := n mod 2) in *. clearbody q m. lia.
Qed.

Lemma pad_none : forall a p width s, width <= char_count s -> pad_text a p width s = s.
Proof.
  intros a p width s H. destruct (pad_shape a p width s) as (i & j & -> & C & _). assert (i = 0%nat /\ j = 0%nat) as [-> ->] by lia. cbn. apply app_nil_r.
Qed.

Lemma pad_same : forall a p w1 s1 w2 s2, w1 - char_count s1 = w2 - char_count s2 ->
  exists x y, pad_text a p w1 s1 = x ++ s1 ++ y /\ pad_text a p w2 s2 = x ++ s2 ++ y /\ esc_free x /\ esc_free y.
Proof.
  intros a p w1 s1 w2 s2 E. unfold pad_text. cbv zeta. rewrite E. do 2 eexists. split; [reflexivity|]. split; [reflexivity|]. split; apply free_repeat; destruct p; lia.
Qed.

(* ------------------------------------------------------------------ *)
(** * Parts of records *)

Lemma first_split : forall n s, (length s < n)%nat ->
  match split_path s with
  | [] => False
  | [c] => c = s /\ forall c rest, s <> c ++ lit "::" ++ rest
  | c :: _ :: _ => exists rest, s = c ++ lit "::" ++ rest /\ forall c' rest', s = c' ++ lit "::" ++ rest' -> (length c <= length c')%nat
  end.
Proof.
  induction n as [|n IH]; intros s L; [lia|]. destruct s as [|b s]; [cbn; split; [auto|]; intros [|]; discriminate|].
  rewrite split_path_cons. destruct s as [|d s].
  { split; auto. intros [|x [|y c]]; discriminate. }
  destruct ((b =? 58) && (d =? 58)) eqn:E.
  - apply andb_true_iff in E as [E1 E2]. apply Z.eqb_eq in E1, E2. subst b d. destruct (split_path s) eqn:Q; [now apply split_path_nonempty in Q|].
    exists s. split; [reflexivity|]. intros. cbn. lia.
  - cbn [length] in L. specialize (IH (d :: s) ltac:(cbn [length]; lia)). destruct (split_path (d :: s)) as [|c [|c2 l]]; [contradiction| |].
    + destruct IH as [-> N]. split; auto. intros [|x c] rest Q.
      * injection Q as -> -> ->. discriminate.
      * injection Q as -> Q. apply (N c rest Q).
    + destruct IH as (rest & Q & M). exists rest. split; [rewrite Q; reflexivity|]. intros [|x c'] rest' Q'.
      * injection Q' as -> -> ->. discriminate.
      * injection Q' as -> Q'. cbn [length]. specialize (M c' rest' Q'). lia.
Qed.

Lemma crate_spec : forall m, crate_of m (crate_name m).
Proof.
  intros [m|]; [|constructor]. pose proof (first_split (S (length m)) m ltac:(lia)) as H. unfold crate_name. destruct (split_path m) as [|c [|c2 l]]; [contradiction| |].
  - destruct H as [-> N]. now constructor.
  - destruct H as (rest & -> & M). constructor. auto.
Qed.

Lemma file_spec : forall p n t, file_name (Some p) n = Ok t -> 0 <= n -> exists before comps, path_components p = before ++ comps /\ comps <> [] /\
  (Z.of_nat (length comps) = n \/ before = [] /\ Z.of_nat (length comps) <= n) /\ t = join (lit "/") comps.
Proof.
  intros p n t H Hn. unfold file_name in H. set (l := path_components p) in *. set (k := (length l - Nat.min (length l) (Z.to_nat n))%nat) in *.
  destruct (skipn k l) as [|x y] eqn:Q; [discriminate|]. assert (t = join (lit "/") (x :: y)) by congruence. subst t. exists (firstn k l), (x :: y).
  rewrite <- Q, firstn_skipn. split; auto. rewrite Q. split; [discriminate|]. split; auto.
  assert (Len : length (x :: y) = (length l - k)%nat) by (rewrite <- Q; apply skipn_length). rewrite Len.
  destruct (Nat.le_gt_cases (length l) (Z.to_nat n)) as [Le|Gt]; [right|left; lia]. assert (k = 0%nat) as -> by lia. split; [reflexivity|lia].
Qed.

Lemma file_no_panic : forall p n, path_components p <> [] -> 1 <= n -> exists t, file_name (Some p) n = Ok t.
Proof.
  intros p n Hp Hn. unfold file_name. set (l := path_components p) in *. set (k := (length l - Nat.min (length l) (Z.to_nat n))%nat).
  destruct (skipn k l) as [|x y] eqn:Q; [|eauto]. exfalso. apply (f_equal (@length bytes)) in Q. rewrite skipn_length in Q. cbn in Q. destruct l; [congruence|]. cbn [length] in *. lia.
Qed.

Lemma ends_spec : forall p s, ends_with p s = true <-> exists q, s = q ++ p.
Proof.
  intros p s. unfold ends_with. split.
  - destruct (strip_prefix (rev p) (rev s)) as [r|] eqn:E; [|discriminate]. intros _. apply strip_prefix_some in E. exists (rev r).
    rewrite <- (rev_involutive s), E, rev_app_distr, rev_involutive. reflexivity.
  - intros [q ->]. rewrite rev_app_distr, strip_prefix_app. reflexivity.
Qed.

Lemma inner_spec : forall start v, inner start (start ++ v ++ tick) = Some v.
Proof.
  intros start v. unfold inner. rewrite !app_length. change (length tick) with 1%nat. destruct (Nat.ltb_spec (length start + (length v + 1) - 1) (length start)); [lia|].
  rewrite skipn_app, skipn_all, Nat.sub_diag. cbn [skipn app]. replace (length start + (length v + 1) - 1 - length start)%nat with (length v) by lia.
  rewrite firstn_app, firstn_all, Nat.sub_diag. cbn [firstn]. now rewrite app_nil_r.
Qed.

Lemma inner_cases : forall start q, ends_with tick (start ++ q) = true ->
  (q = [] /\ inner start (start ++ q) = None) \/ exists v, q = v ++ tick.
Proof.
  intros start q H. apply ends_spec in H as [x H]. destruct q as [|b q] using rev_ind.
  - left. split; auto. unfold inner. rewrite app_nil_r. destruct (Nat.ltb_spec (length start - 1) (length start)); auto.
    assert (start <> []) by (intros ->; cbn in H; destruct x; discriminate). destruct start; [congruence|]. cbn [length] in *. lia.
  - right. rewrite app_assoc in H. apply app_inj_tail in H as [_ Eb]. subst b. exists q. reflexivity.
Qed.

Lemma tick_end_spec : forall start q, ends_with tick (start ++ q) = true -> tick_end q.
Proof. intros start q H. destruct (inner_cases start q H) as [[-> _]|[v ->]]; [now left|right; eauto]. Qed.

Section Diff.
  Context (X : external) (colors : bool).

  Definition diff_out (before : list bytes) (a b : bytes) : bytes :=
    let chunks := x_diff X a b in
    paint X colors None [Bold] (join [10] before) plain ++ [10] ++
    paint X colors None [Bold] (lit "diff") plain ++ lit " " ++ paint X colors (Some Red) [] (lit "< left") plain ++ lit " / " ++
    paint X colors (Some Green) [] (lit "right >") plain ++ [10] ++
    paint X colors (Some Red) [] (lit "<") plain ++
    flat_map (fun k => match k with
      | CEqual s => paint X colors (Some Red) [] s plain | CInsert _ => [] | CDelete s => paint X colors (Some Red) [Bold] s plain end) chunks ++
    [10] ++ paint X colors (Some Green) [] (lit ">") plain ++
    flat_map (fun k => match k with
      | CEqual s => paint X colors (Some Green) [] s plain | CDelete _ => [] | CInsert s => paint X colors (Some Green) [Bold] s plain end) chunks.

  Lemma diff_found : forall text before a b, comparison text before a b -> color_diff X colors text = Ok (diff_out before a b).
  Proof.
    intros text before a b [N E]. unfold color_diff. rewrite E, rev_app_distr. cbn [rev app].
    destruct (rev before) as [|x y] eqn:Q; [exfalso; apply N; rewrite <- (rev_involutive before), Q; reflexivity|].
    rewrite !strip_prefix_app, !inner_spec.
    assert (T : forall s v, ends_with tick (s ++ v ++ tick) = true) by (intros s v; apply ends_spec; exists (s ++ v); now rewrite app_assoc). rewrite !T.
    cbn [andb]. assert (Eb : before = rev (x :: y)) by (rewrite <- Q; symmetry; apply rev_involutive). rewrite Eb. reflexivity.
  Qed.

  Lemma diff_cases : forall text,
    (exists before a b, comparison text before a b /\ color_diff X colors text = Ok (diff_out before a b)) \/
    ((forall before a b, ~ comparison text before a b) /\
     (color_diff X colors text = Err tt \/ short_values text /\ color_diff X colors text = Panic)).
  Proof.
    intros text. unfold color_diff. destruct (rev (lines text)) as [|rline [|lline [|x y]]] eqn:Q.
    1-3: right; split; [|auto]; intros before a b [N E]; rewrite E, rev_app_distr in Q; cbn [rev app] in Q; try discriminate; injection Q as _ _ Q; apply N; rewrite <- (rev_involutive before), Q; reflexivity.
    assert (Un : forall before a b, comparison text before a b -> lline = left_start ++ a ++ tick /\ rline = right_start ++ b ++ tick).
    { intros before a b [N E]. rewrite E, rev_app_distr in Q. cbn [rev app] in Q. injection Q as <- <- _. auto. }
    assert (T : forall s v, ends_with tick (s ++ v ++ tick) = true) by (intros s v; apply ends_spec; exists (s ++ v); now rewrite app_assoc).
    destruct (strip_prefix left_start lline) as [lq|] eqn:El.
    2:{ right. split; [|auto]. intros before a b C. destruct (Un before a b C) as [-> ->]. rewrite strip_prefix_app in El. discriminate. }
    destruct (strip_prefix right_start rline) as [rq|] eqn:Er.
    2:{ right. split; [|auto]. intros before a b C. destruct (Un before a b C) as [-> ->]. rewrite strip_prefix_app in Er. discriminate. }
    destruct (ends_with tick lline && ends_with tick rline) eqn:En.
    2:{ right. split; [|auto]. intros before a b C. destruct (Un before a b C) as [-> ->]. rewrite !T in En. discriminate. }
    apply andb_true_iff in En as [En1 En2]. apply strip_prefix_some in El, Er. subst lline rline.
    assert (Ln : lines text = rev (x :: y) ++ [left_start ++ lq; right_start ++ rq]) by (rewrite <- (rev_involutive (lines text)), Q; cbn [rev]; now rewrite <- !app_assoc).
    assert (Nr : rev (x :: y) <> []) by (intros Z; apply (f_equal (@rev bytes)) in Z; rewrite rev_involutive in Z; discriminate).
    destruct (inner_cases left_start lq En1) as [[-> I1]|[a ->]].
    { rewrite I1. right. split; [|right; split; [exists (rev (x :: y)), [], rq; repeat split; auto; [now left|exact (tick_end_spec _ _ En2)]|reflexivity]].
      intros before a b C. destruct (Un before a b C) as [E1 _]. apply app_inv_head in E1. destruct a; discriminate. }
    rewrite inner_spec. destruct (inner_cases right_start rq En2) as [[-> I2]|[b ->]].
    { rewrite I2. right. split; [|right; split; [exists (rev (x :: y)), (a ++ tick), []; repeat split; auto; [right; eauto|now left]|reflexivity]].
      intros before a' b C. destruct (Un before a' b C) as [_ E2]. apply app_inv_head in E2. destruct b; discriminate. }
    rewrite inner_spec. left. exists (rev (x :: y)), a, b. split; [split; auto|reflexivity].
  Qed.
End Diff.

Lemma diff_plain : forall X before a b, external_ok X ->
  diff_out X false before a b = join [10] before ++ [10] ++ lit "diff < left / right >" ++ [10] ++ lit "<" ++ a ++ [10] ++ lit ">" ++ b.
Proof.
  intros X before a b H. unfold diff_out, paint, plain. cbv zeta. cbn iota. destruct (ok_diff X H a b) as [Ha Hb].
  repeat match goal with |- context [flat_map ?f (x_diff X a b)] =>
    first [ replace (flat_map f (x_diff X a b)) with a by (rewrite <- Ha at 1; unfold old_text; apply flat_map_ext; intros []; reflexivity)
          | replace (flat_map f (x_diff X a b)) with b by (rewrite <- Hb at 1; unfold new_text; apply flat_map_ext; intros []; reflexivity)] end.
  reflexivity.
Qed.
