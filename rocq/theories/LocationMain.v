(** Locations: success, and what is shown with a frame. *)
From Verif Require Import Base Utf8 DecoderModel EnvFilterModel LogFormatModel LocationModel LocationSpec LocationProofs.

(* ------------------------------------------------------------------ *)
(** * Success *)

Lemma source_file_path : forall u i p, source_file u i p -> exists q, file_path u i = Ok q.
Proof.
  intros u i p (files & dir & name & N & F & E & _). unfold file_path. apply Z.eqb_neq in N. rewrite N, F, E. eauto.
Qed.

Lemma has_address_expr : forall v ops a, v_location v = Some ops -> has_address v a -> expr_address ops = Ok a.
Proof.
  intros v ops a L (n & r & E). rewrite L in E. injection E as ->. clear L. induction n; cbn; auto.
Qed.

Lemma address_unique : forall v a b, has_address v a -> has_address v b -> a = b.
Proof.
  intros v a b A B. pose proof A as (n & r & E). pose proof (has_address_expr _ _ _ E A). pose proof (has_address_expr _ _ _ E B). congruence.
Qed.

Definition kind_variables (k : kind) : list variable := match k with KVariable v => [v] | _ => [] end.
Definition kind_texts (k : kind) : list bytes :=
  match k with KNamespace n => opt_part n | KVariable v => opt_part (v_name v) ++ opt_part (v_linkage v) | KOther => [] end.

Lemma flat_map_flat_map : forall {A B C} (f : A -> list B) (g : B -> list C) l,
  flat_map g (flat_map f l) = flat_map (fun x => flat_map g (f x)) l.
Proof. intros A B C f g l. induction l as [|x l IH]; [reflexivity|]. cbn. now rewrite flat_map_app, IH. Qed.

Lemma flat_map_ext_in : forall {A B} (f g : A -> list B) l, Forall (fun x => f x = g x) l -> flat_map f l = flat_map g l.
Proof. intros A B f g l H. induction H as [|x l E _ IH]; [reflexivity|]. cbn. now rewrite E, IH. Qed.

Lemma depth_variables : forall t d, flat_map (fun dk => kind_variables (snd dk)) (with_depth d t) = variables t.
Proof.
  induction t as [k ch IH] using die_tree. intros d. cbn [with_depth flat_map variables snd]. f_equal.
  rewrite flat_map_flat_map. apply flat_map_ext_in. eapply Forall_impl; [|exact IH]. intros t H. apply H.
Qed.

Lemma depth_texts : forall t d, flat_map (fun dk => kind_texts (snd dk)) (with_depth d t) = texts t.
Proof.
  induction t as [k ch IH] using die_tree. intros d. cbn [with_depth flat_map texts snd]. f_equal.
  rewrite flat_map_flat_map. apply flat_map_ext_in. eapply Forall_impl; [|exact IH]. intros t H. apply H.
Qed.

(** Every address in [m] is that of one of the variables [seen]. *)
Definition from_seen (symbols : list bytes) (seen : list variable) (m : list (Z * location)) : Prop :=
  forall a, loc_get a m <> None -> exists v, In v seen /\ statement symbols v /\ has_address v a.

Lemma ordered_pairs_app : forall {A} (R : A -> A -> Prop) l1 l2, ForallOrdPairs R (l1 ++ l2) -> forall x y, In x l1 -> In y l2 -> R x y.
Proof.
  intros A R l1 l2. induction l1 as [|z l1 IH]; intros H x y I1 I2; [destruct I1|].
  inversion H as [|? ? F O0]; subst. destruct I1 as [->|I1]; [|eauto].
  rewrite Forall_forall in F. apply F. apply in_app_iff. now right.
Qed.

Lemma visit_variable_ok : forall u symbols segs v m seen rest,
  (forall s, In s (kind_texts (KVariable v)) -> utf8_valid s = true) ->
  (statement symbols v -> (exists a, has_address v a) /\ exists i p, v_file v = Some i /\ source_file u i p) ->
  distinct_addresses symbols (seen ++ v :: rest) -> from_seen symbols seen m ->
  exists m', visit_variable u symbols segs v m = Ok m' /\ from_seen symbols (seen ++ [v]) m'.
Proof.
  intros u symbols segs v m seen rest T S D F.
  assert (F' : from_seen symbols (seen ++ [v]) m).
  { intros a G. destruct (F a G) as (w & I0 & X). exists w. split; [apply in_app_iff; now left|exact X]. }
  unfold visit_variable. cbn [kind_texts] in T.
  destruct (v_name v) as [name|] eqn:En; [|eauto]. destruct (v_linkage v) as [k|] eqn:Ek; [|eauto].
  destruct (v_file v) as [i|] eqn:Ef; [|eauto]. destruct (v_line v) as [ln|] eqn:El; [|eauto].
  destruct (v_location v) as [ops|] eqn:Eo; [|eauto]. cbn [opt_part app] in T.
  unfold from_utf8. rewrite (T name (or_introl eq_refl)), (T k (or_intror (or_introl eq_refl))). cbn [bind].
  destruct (beq name statement_name) eqn:B; [|eauto]. apply beq_true in B. subst name.
  destruct (existsb (fun s => beq s k) symbols) eqn:X; [|eauto]. apply symbols_in in X.
  assert (Sv : statement symbols v).
  { split; [exact En|]. repeat split; try congruence. eauto. }
  destruct (S Sv) as ((a & A) & j & p & Ej & P). injection Ej as <-.
  rewrite (has_address_expr _ _ _ Eo A). destruct (source_file_path _ _ _ P) as (q & ->). cbn [bind].
  destruct (loc_get a m) eqn:G.
  { destruct (F a) as (w & I0 & Sw & Aw); [congruence|].
    destruct (ordered_pairs_app _ _ _ D w v I0 (or_introl eq_refl) Sw Sv a Aw A). }
  eexists. split; [reflexivity|]. intros b H. cbn in H. destruct (b =? a) eqn:E.
  - apply Z.eqb_eq in E. subst b. exists v. split; [apply in_app_iff; right; now left|auto].
  - now apply F'.
Qed.

Lemma walk_ok : forall u symbols l segs m seen rest,
  (forall s, In s (flat_map (fun dk => kind_texts (snd dk)) l) -> utf8_valid s = true) ->
  (forall v, In v (flat_map (fun dk => kind_variables (snd dk)) l) -> statement symbols v ->
     (exists a, has_address v a) /\ exists i p, v_file v = Some i /\ source_file u i p) ->
  distinct_addresses symbols (seen ++ flat_map (fun dk => kind_variables (snd dk)) l ++ rest) -> from_seen symbols seen m ->
  exists segs' m', walk u symbols l segs m = Ok (segs', m') /\
    from_seen symbols (seen ++ flat_map (fun dk => kind_variables (snd dk)) l) m'.
Proof.
  intros u symbols l. induction l as [|[d k] l IH]; intros segs m seen rest T S D F.
  - exists segs, m. split; [reflexivity|]. cbn. now rewrite app_nil_r.
  - cbn [flat_map snd] in *. cbn [walk].
    assert (Tl : forall s, In s (flat_map (fun dk => kind_texts (snd dk)) l) -> utf8_valid s = true).
    { intros s J. apply T. apply in_app_iff. now right. }
    assert (Sl : forall v, In v (flat_map (fun dk => kind_variables (snd dk)) l) -> statement symbols v ->
      (exists a, has_address v a) /\ exists i p, v_file v = Some i /\ source_file u i p).
    { intros v J. apply S. apply in_app_iff. now right. }
    destruct k as [name|v|].
    + cbn [kind_variables app] in *. assert (N : exists s', enter_namespace d name segs = Ok s').
      { destruct name as [n|]; cbn; [|eauto]. unfold from_utf8. rewrite (T n); [cbn; eauto|]. now left. }
      destruct N as (s' & ->). cbn [bind]. eapply IH; eauto.
    + destruct (visit_variable_ok u symbols segs v m seen (flat_map (fun dk => kind_variables (snd dk)) l ++ rest)) as (m' & -> & F').
      * intros s J. apply T. apply in_app_iff. now left.
      * apply S. now left.
      * exact D.
      * exact F.
      * cbn [bind kind_variables app] in *.
        replace (seen ++ v :: flat_map (fun dk => kind_variables (snd dk)) l) with
          ((seen ++ [v]) ++ flat_map (fun dk => kind_variables (snd dk)) l) by now rewrite <- app_assoc.
        eapply IH; eauto. rewrite <- app_assoc. exact D.
    + cbn [kind_variables app] in *. eapply IH; eauto.
Qed.

Lemma units_ok : forall symbols us m seen, Forall (readable symbols) us ->
  distinct_addresses symbols (seen ++ unit_variables us) -> from_seen symbols seen m ->
  exists m', visit_units symbols us m = Ok m'.
Proof.
  intros symbols us. induction us as [|u us IH]; intros m seen R D F; [exists m; reflexivity|].
  inversion R as [|? ? (t & Rt & T & S) Rus]; subst. cbn [visit_units]. rewrite Rt.
  unfold unit_variables, unit_trees in D. cbn [flat_map] in D. rewrite Rt in D. cbn [app flat_map snd] in D.
  fold (unit_trees us) in D. fold (unit_variables us) in D.
  destruct t as [k ch]. cbn [cursor children] in *. rewrite visit_walk.
  assert (V : forall d, flat_map (fun dk => kind_variables (snd dk)) (flat_map (with_depth d) ch) = flat_map variables ch).
  { intros d. rewrite flat_map_flat_map. apply flat_map_ext_in. apply Forall_forall. intros; apply depth_variables. }
  assert (X : forall d, flat_map (fun dk => kind_texts (snd dk)) (flat_map (with_depth d) ch) = flat_map texts ch).
  { intros d. rewrite flat_map_flat_map. apply flat_map_ext_in. apply Forall_forall. intros; apply depth_texts. }
  destruct (walk_ok u symbols (flat_map (with_depth 1) ch) [] m seen (unit_variables us)) as (s' & m' & -> & F').
  - now rewrite X.
  - now rewrite V.
  - now rewrite V.
  - exact F.
  - cbn [bind snd]. rewrite V in F'. eapply IH; eauto. now rewrite <- app_assoc.
Qed.

Theorem locations_succeed : forall symbols us, Forall (readable symbols) us -> distinct_addresses symbols (unit_variables us) ->
  exists m, get_locations symbols us = Ok m.
Proof.
  intros symbols us R D. apply (units_ok symbols us [] []); auto. intros a H. now destruct H.
Qed.

Theorem locations_no_panic : forall symbols us, (exists m, get_locations symbols us = Ok m) \/ get_locations symbols us = Err tt.
Proof.
  assert (F : forall u i, (exists p, file_path u i = Ok p) \/ file_path u i = Err tt).
  { intros u i. unfold file_path. destruct (i =? 0); [auto|]. destruct (u_files u) as [f|]; [|auto]. destruct (f i) as [[? ?]|]; eauto. }
  assert (A : forall l, (exists a, expr_address l = Ok a) \/ expr_address l = Err tt).
  { induction l as [|[a|] l IH]; cbn; eauto. }
  assert (V : forall u symbols s v m, (exists m', visit_variable u symbols s v m = Ok m') \/ visit_variable u symbols s v m = Err tt).
  { intros u symbols s v m. unfold visit_variable, from_utf8.
    destruct (v_name v) as [n|], (v_linkage v) as [k|], (v_file v) as [i|], (v_line v), (v_location v) as [ops|]; eauto.
    destruct (utf8_valid n); [|auto]. destruct (utf8_valid k); [|auto]. cbn [bind].
    destruct (beq n statement_name); [|eauto]. destruct (existsb (fun s0 => beq s0 k) symbols); [|eauto].
    destruct (A ops) as [(a & ->)| ->]; [|auto]. destruct (F u i) as [(p & ->)| ->]; [|auto]. cbn [bind].
    destruct (loc_get a m); eauto. }
  assert (W : forall u symbols l s m, (exists p, walk u symbols l s m = Ok p) \/ walk u symbols l s m = Err tt).
  { intros u symbols l. induction l as [|[d k] l IH]; intros s m; cbn [walk]; [eauto|]. destruct k as [[n|]|v|].
    - cbn [enter_namespace]. unfold from_utf8. destruct (utf8_valid n); cbn [bind]; auto.
    - cbn [enter_namespace bind]. auto.
    - destruct (V u symbols s v m) as [(m' & ->)| ->]; cbn [bind]; auto.
    - auto. }
  intros symbols us. unfold get_locations. generalize (@nil (Z * location)). induction us as [|u us IH]; intros m; cbn [visit_units]; [eauto|].
  destruct (u_root u) as [[k ch]|]; [|auto]. cbn [cursor]. rewrite visit_walk.
  destruct (W u symbols (flat_map (with_depth 1) ch) [] m) as [(p & ->)| ->]; cbn [bind]; auto.
Qed.

(* ------------------------------------------------------------------ *)
(** * Paths seen from a directory *)

Lemma split_pieces : forall c s, Forall (fun p => ~ In c p) (split_on c s).
Proof.
  intros c s. induction s as [|x s IH]; cbn; [constructor; [intros []|constructor]|]. destruct (x =? c) eqn:E.
  - constructor; [intros []|exact IH].
  - apply Z.eqb_neq in E. destruct (split_on c s) as [|p l]; [constructor; [cbn; intros [H|[]]; congruence|constructor]|].
    inversion IH; subst. constructor; [|assumption]. intros [H|H]; [congruence|auto].
Qed.

Lemma split_piece : forall c p, ~ In c p -> split_on c p = [p].
Proof.
  intros c p. induction p as [|x p IH]; intros N; [reflexivity|]. cbn. destruct (x =? c) eqn:E.
  - apply Z.eqb_eq in E. destruct N. now left.
  - rewrite IH; [reflexivity|]. intros H. apply N. now right.
Qed.

Lemma split_join_slash : forall l, l <> [] -> Forall (fun p => ~ In 47 p) l -> split_on 47 (join [47] l) = l.
Proof.
  intros l. induction l as [|p l IH]; intros N F; [congruence|]. inversion F; subst.
  destruct l as [|q l]; [now apply split_piece|]. change (join [47] (p :: q :: l)) with (p ++ [47] ++ join [47] (q :: l)).
  cbn [app]. rewrite split_app, split_piece by auto. rewrite IH; [reflexivity|discriminate|assumption].
Qed.

Notation real := (fun n => negb (trivial_name n)).

Lemma drop_real : forall l, filter real (drop_trivial l) = filter real l.
Proof. induction l as [|n l IH]; [reflexivity|]. cbn. destruct (trivial_name n) eqn:E; cbn; [exact IH|]. now rewrite E. Qed.

Lemma drop_forall : forall (P : bytes -> Prop) l, Forall P l -> Forall P (drop_trivial l).
Proof. intros P l H. induction H as [|n l Pn H IH]; [constructor|]. cbn. destruct (trivial_name n); [exact IH|]. now constructor. Qed.

Lemma filter_rev : forall {A} (f : A -> bool) l, filter f (rev l) = rev (filter f l).
Proof.
  intros A f l. induction l as [|x l IH]; [reflexivity|]. cbn. rewrite filter_app, IH. cbn. destruct (f x); cbn; [reflexivity|apply app_nil_r].
Qed.

Lemma drop_head : forall l n r, drop_trivial l = n :: r -> trivial_name n = false.
Proof.
  induction l as [|x l IH]; intros n r H; [discriminate|]. cbn in H. destruct (trivial_name x) eqn:E; [eauto|]. now injection H as <- <-.
Qed.

(** Dropping at the end does not touch a first real name. *)
Lemma drop_last_head : forall n l, trivial_name n = false -> exists r, rev (drop_trivial (rev (n :: l))) = n :: r.
Proof.
  intros n l T. assert (H : forall k, exists r, drop_trivial (k ++ [n]) = r ++ [n]).
  { induction k as [|x k (r & E)]; cbn [app].
    - exists []. cbn [drop_trivial]. now rewrite T.
    - cbn [drop_trivial]. destruct (trivial_name x); [eauto|]. exists (x :: k). reflexivity. }
  cbn [rev]. destruct (H (rev l)) as (r & ->). exists (rev r). now rewrite rev_app_distr.
Qed.

Lemma strip_names_some : forall base l r, Forall (fun n => trivial_name n = false) base -> strip_names base l = Some r ->
  filter real l = base ++ filter real r /\ (Forall (fun p => ~ In 47 p) l -> Forall (fun p => ~ In 47 p) r).
Proof.
  induction base as [|b base IH]; intros l r B H; [injection H as ->; auto|]. cbn [strip_names] in H.
  destruct (drop_trivial l) as [|n l'] eqn:E; [discriminate|]. destruct (beq n b) eqn:Q; [|discriminate].
  apply beq_true in Q. subst n. inversion B; subst. destruct (IH _ _ H3 H) as (X & Y). split.
  - rewrite <- drop_real, E. cbn. rewrite H2. cbn. now rewrite X.
  - intros F. apply Y. apply drop_forall in F. rewrite E in F. now inversion F.
Qed.

Lemma strip_names_none : forall base l, strip_names base l = None -> ~ exists rest, filter real l = base ++ rest.
Proof.
  induction base as [|b base IH]; intros l H (rest & E); [discriminate|]. cbn [strip_names] in H.
  destruct (drop_trivial l) as [|n l'] eqn:D.
  - rewrite <- drop_real, D in E. discriminate.
  - pose proof (drop_head _ _ _ D) as T. rewrite <- drop_real, D in E. cbn in E. rewrite T in E. cbn in E. injection E as -> E.
    rewrite beq_refl in H. apply (IH _ H). eauto.
Qed.

Theorem strip_seen : forall dir file,
  seen_from dir file (match path_strip_prefix dir file with Some p => p | None => file end).
Proof.
  intros dir file. unfold path_strip_prefix, seen_from. destruct (is_absolute file) eqn:A; [|right; auto].
  fold (names dir). destruct (strip_names (names dir) (split_on 47 file)) as [r|] eqn:S.
  - left. assert (B : Forall (fun n => trivial_name n = false) (names dir)).
    { apply Forall_forall. intros n H. apply filter_In in H as [_ H]. destruct (trivial_name n); [discriminate|reflexivity]. }
    destruct (strip_names_some _ _ _ B S) as (E & F). specialize (F (split_pieces _ _)).
    exists (filter real r). split; [reflexivity|]. split; [exact E|].
    set (q := rev (drop_trivial (rev (drop_trivial r)))).
    assert (Fq : Forall (fun p => ~ In 47 p) q) by (unfold q; apply Forall_rev, drop_forall, Forall_rev, drop_forall; exact F).
    assert (Eq : filter real q = filter real r) by (unfold q; rewrite filter_rev, drop_real, filter_rev, rev_involutive; apply drop_real).
    destruct q as [|n q'] eqn:Q.
    + split; [reflexivity|]. cbn in Eq. now rewrite <- Eq.
    + split; [|unfold names; rewrite split_join_slash by (discriminate || assumption); exact Eq].
      assert (T : trivial_name n = false).
      { destruct (drop_trivial r) as [|x l] eqn:D; [subst q; discriminate|]. pose proof (drop_head _ _ _ D) as Tx.
        destruct (drop_last_head x l Tx) as (z & Z0). subst q. cbv zeta in Q. rewrite Z0 in Q. now injection Q as <- <-. }
      inversion Fq as [|? ? Nn _]; subst. destruct n as [|c n]; [discriminate|].
      transitivity (c =? 47); [destruct q'; reflexivity|].
      apply Z.eqb_neq. intros ->. apply Nn. now left.
  - right. split; [right; now apply strip_names_none|reflexivity].
Qed.

(* ------------------------------------------------------------------ *)
(** * Frames *)

Theorem frame_location : forall symbols trees m f dir u ts path v line,
  all_located symbols trees m -> In (u, ts) trees -> inside ts path v -> statement symbols v ->
  has_address v (f_index f) -> v_line v = Some line -> 0 <= line < 4294967296 ->
  exists i file shown, location_info (Some m) f dir = (Some shown, Some line, Some (join (lit "::") path)) /\
    v_file v = Some i /\ source_file u i file /\ seen_from dir file shown.
Proof.
  intros symbols trees m f dir u ts path v line (_ & B) I0 J S A L R.
  destruct (B u ts path v I0 J S) as (a & l & Ha & G & (El & Em & i & Ei & Ef)).
  assert (a = f_index f) by (eapply address_unique; eauto). subst a. cbn [location_info]. rewrite G.
  assert (l_line l = line) by congruence. exists i, (l_file l). eexists. split; [|split; [exact Ei|split; [exact Ef|apply strip_seen]]].
  rewrite H, Em. rewrite Z.mod_small by lia. reflexivity.
Qed.

(** Either every log statement of the table has a location, or none is shown. *)
Theorem all_or_none : forall t m dir,
  match usable_locations t m with
  | Some m' => m' = m /\ forall f, In (f_index f) (indices t) ->
      exists p line mo, location_info (usable_locations t m) f dir = (Some p, Some line, Some mo)
  | None => (exists i, In i (indices t) /\ loc_get i m = None) /\ forall f, location_info (usable_locations t m) f dir = (None, None, None)
  end.
Proof.
  intros t m dir. unfold usable_locations.
  destruct (forallb (fun i => match loc_get i m with Some _ => true | None => false end) (indices t)) eqn:E.
  - split; [reflexivity|]. intros f H. rewrite forallb_forall in E. specialize (E _ H). cbn [location_info].
    destruct (loc_get (f_index f) m); [eauto|discriminate].
  - split; [|reflexivity]. assert (N : ~ forallb (fun i => match loc_get i m with Some _ => true | None => false end) (indices t) = true) by congruence.
    clear E. induction (indices t) as [|i l IH]; [destruct N; reflexivity|]. cbn in N. destruct (loc_get i m) eqn:G.
    + destruct (IH N) as (j & J & K). exists j. split; [now right|exact K].
    + exists i. split; [now left|exact G].
Qed.
