(** Proofs about the locations of log statements. *)
From Verif Require Import Base Utf8 DecoderModel EnvFilterModel LogFormatModel LocationModel LocationSpec.

(* ------------------------------------------------------------------ *)
(** * Paths *)

Lemma split_nonempty : forall c s, split_on c s <> [].
Proof. intros c [|x s]; cbn; [discriminate|]. destruct (x =? c); [discriminate|]. destruct (split_on c s); discriminate. Qed.

Lemma split_app : forall c p q, split_on c (p ++ c :: q) = split_on c p ++ split_on c q.
Proof.
  intros c p q. induction p as [|x p IH]; cbn [split_on app]; [now rewrite Z.eqb_refl|].
  rewrite IH. destruct (x =? c); [reflexivity|].
  destruct (split_on c p) as [|a l] eqn:E; [now apply split_nonempty in E|]. reflexivity.
Qed.

Lemma names_app : forall p q, names (p ++ 47 :: q) = names p ++ names q.
Proof. intros p q. unfold names. now rewrite split_app, filter_app. Qed.

Lemma names_nil : names [] = [].
Proof. reflexivity. Qed.

Lemma push_names : forall p q, names (path_push p q) = if is_absolute q then names q else names p ++ names q.
Proof.
  intros p q. unfold path_push. destruct (is_absolute q) eqn:A; [reflexivity|].
  destruct (rev p) as [|c r] eqn:R.
  - apply (f_equal (@rev Z)) in R. rewrite rev_involutive in R. now subst p.
  - apply (f_equal (@rev Z)) in R. rewrite rev_involutive in R. cbn [rev] in R. subst p.
    destruct (c =? 47) eqn:C.
    + apply Z.eqb_eq in C. subst c. rewrite <- app_assoc. cbn [app]. rewrite !names_app. now rewrite names_nil, app_nil_r.
    + cbn [app]. apply names_app.
Qed.

Lemma push_absolute : forall p q, is_absolute (path_push p q) = is_absolute q || is_absolute p.
Proof.
  intros p q. unfold path_push. destruct (is_absolute q) eqn:A; [now rewrite A|].
  destruct (rev p) as [|c r] eqn:R.
  - apply (f_equal (@rev Z)) in R. rewrite rev_involutive in R. subst p. now rewrite A.
  - destruct p as [|x p]; [discriminate|]. destruct (c =? 47); reflexivity.
Qed.

Lemma doubled_app : forall a b, doubled (a ++ b) -> doubled a \/ doubled b \/ (exists a' b', a = a' ++ [47] /\ b = 47 :: b').
Proof.
  induction a as [|x a IH]; intros b (u & v & E); [right; left; exists u, v; exact E|].
  destruct u as [|y u]; cbn [app] in E; injection E as -> E.
  - destruct a as [|z a]; cbn [app] in E.
    + right. right. exists [], v. auto.
    + injection E as -> E. left. exists [], a. reflexivity.
  - destruct (IH b) as [(u' & v' & ->)|[D|(a' & b' & -> & ->)]]; [exists u, v; exact E|left; exists (y :: u'), v'; reflexivity|auto|].
    right. right. exists (y :: a'), b'. auto.
Qed.

Lemma push_doubled : forall p q, ~ doubled p -> ~ doubled q -> ~ doubled (path_push p q).
Proof.
  intros p q P Q. unfold path_push. destruct (is_absolute q) eqn:A; [exact Q|].
  assert (N : forall b, q <> 47 :: b) by (intros b ->; discriminate).
  destruct (rev p) as [|c r] eqn:R.
  - apply (f_equal (@rev Z)) in R. rewrite rev_involutive in R. now subst p.
  - apply (f_equal (@rev Z)) in R. rewrite rev_involutive in R. cbn [rev] in R. subst p. destruct (Z.eqb_spec c 47) as [->|C].
    + intros D. apply doubled_app in D as [D|[D|(a & b & _ & D)]]; [auto|auto|exact (N b D)].
    + intros D. apply doubled_app in D as [D|[D|(a & b & E & D)]]; [auto| |].
      * change (47 :: q) with ([47] ++ q) in D. apply doubled_app in D as [(a & b & D)|[D|(a & b & _ & D)]]; [|auto|exact (N b D)].
        destruct a as [|x [|y a]]; discriminate.
      * apply app_inj_tail in E as [_ E]. congruence.
Qed.

Lemma composed_push : forall parts p q, composed parts p -> parts <> [] -> composed (parts ++ [q]) (path_push p q).
Proof.
  intros parts p q (N & A & D) NE. split; [|split].
  - rewrite push_names. destruct (is_absolute q) eqn:Q.
    + replace (effective (parts ++ [q])) with [q]; [cbn; now rewrite app_nil_r|].
      clear - Q. induction parts as [|x parts IH]; [reflexivity|]. cbn [app effective].
      now rewrite existsb_app, (ltac:(cbn; now rewrite Q) : existsb is_absolute [q] = true), orb_true_r.
    + rewrite N. replace (effective (parts ++ [q])) with (effective parts ++ [q]).
      { rewrite flat_map_app. cbn. now rewrite app_nil_r. }
      clear - Q NE. induction parts as [|x parts IH]; [congruence|]. cbn [app effective].
      rewrite existsb_app, (ltac:(cbn; now rewrite Q) : existsb is_absolute [q] = false), orb_false_r.
      destruct (existsb is_absolute parts) eqn:E; [|reflexivity]. apply IH. intros ->. discriminate.
  - rewrite push_absolute, A, existsb_app. cbn. rewrite orb_false_r. apply orb_comm.
  - intros F. apply Forall_app in F as [F1 F2]. inversion F2; subst. apply push_doubled; auto.
Qed.

Lemma composed_one : forall q, composed [q] (path_push [] q).
Proof.
  intros q. unfold composed, path_push. cbn [rev effective existsb]. split; [|split; [destruct (is_absolute q) eqn:Q; rewrite Q; reflexivity|]].
  - destruct (is_absolute q); cbn [flat_map]; now rewrite app_nil_r.
  - intros F. inversion F; subst. destruct (is_absolute q); assumption.
Qed.

(** An absolute directory stands alone. *)
Lemma composed_absolute : forall c d r p, is_absolute d = true -> composed (d :: r) p -> composed (c :: d :: r) p.
Proof.
  intros c d r p A (N & B & D). split; [|split].
  - cbn [effective existsb]. rewrite A. cbn [orb]. exact N.
  - cbn [existsb] in *. rewrite A in *. cbn [orb] in *. now rewrite orb_true_r.
  - intros F. inversion F; subst. auto.
Qed.

Lemma file_path_source : forall u i p, file_path u i = Ok p -> source_file u i p.
Proof.
  intros u i p H. unfold file_path in H. destruct (i =? 0) eqn:I0; [discriminate|]. apply Z.eqb_neq in I0.
  destruct (u_files u) as [files|] eqn:F; [|discriminate]. destruct (files i) as [[dir name]|] eqn:E; [|discriminate].
  injection H as <-. exists files, dir, name. do 3 (split; [assumption|]).
  destruct dir as [d|]; [|apply composed_one].
  destruct (is_absolute d) eqn:A.
  - assert (C : composed ([d] ++ [name]) (path_push (path_push [] d) name)).
    { apply composed_push; [apply composed_one|discriminate]. }
    destruct (u_comp_dir u) as [c|]; cbn [opt_part app] in *; [now apply composed_absolute|exact C].
  - apply composed_push; [|destruct (u_comp_dir u); discriminate].
    destruct (u_comp_dir u) as [c|]; cbn [opt_part app]; [|apply composed_one].
    change [c; d] with ([c] ++ [d]). apply composed_push; [apply composed_one|discriminate].
Qed.

Lemma expr_address_has : forall v ops a, v_location v = Some ops -> expr_address ops = Ok a -> has_address v a.
Proof.
  intros v ops a L H. unfold has_address. rewrite L. clear L. induction ops as [|[x|] ops IH]; cbn in H; [discriminate| |].
  - injection H as ->. exists O, ops. reflexivity.
  - destruct (IH H) as (n & r & E). injection E as ->. exists (S n), r. reflexivity.
Qed.

(* ------------------------------------------------------------------ *)
(** * The tree *)

Lemma die_tree : forall P : die -> Prop, (forall k ch, Forall P ch -> P (Die k ch)) -> forall t, P t.
Proof.
  intros P H. fix IH 1. intros [k ch]. apply H. induction ch as [|t ch IHc]; constructor; [apply IH|exact IHc].
Qed.

Section Unit.
  Context (u : unit_info) (symbols : list bytes).

  (** [visit] with absolute depths, keeping the segments. *)
  Fixpoint walk (l : list (Z * kind)) (s : list bytes) (m : list (Z * location)) : outcome unit (list bytes * list (Z * location)) :=
    match l with
    | [] => Ok (s, m)
    | (d, k) :: l' =>
        match k with
        | KNamespace name => s <- enter_namespace d name s ;; walk l' s m
        | KVariable v => m <- visit_variable u symbols s v m ;; walk l' s m
        | KOther => walk l' s m
        end
    end.

  Lemma visit_walk : forall l d s m, visit u symbols (deltas d l) d s m = (p <- walk l s m ;; Ok (snd p)).
  Proof.
    induction l as [|[d' k] l IH]; intros d s m; [reflexivity|]. cbn [deltas visit walk].
    replace (d + (d' - d)) with d' by lia. destruct k as [name|v|].
    - destruct (enter_namespace d' name s); cbn [bind]; auto.
    - destruct (visit_variable u symbols s v m); cbn [bind]; auto.
    - apply IH.
  Qed.

  Lemma walk_app : forall l1 l2 s m, walk (l1 ++ l2) s m = (p <- walk l1 s m ;; walk l2 (fst p) (snd p)).
  Proof.
    induction l1 as [|[d k] l1 IH]; intros l2 s m; [reflexivity|]. cbn [app walk]. destruct k as [name|v|].
    - destruct (enter_namespace d name s); cbn [bind]; auto.
    - destruct (visit_variable u symbols s v m); cbn [bind]; auto.
    - apply IH.
  Qed.

  (** The entries [new] are those of the statements in [ts]. *)
  Definition explains (base : list bytes) (ts : list die) (new : list (Z * location)) : Prop :=
    (forall a l, In (a, l) new -> exists path v, inside ts path v /\ statement symbols v /\ has_address v a /\ located u (base ++ path) v l) /\
    (forall path v, inside ts path v -> statement symbols v -> exists a l, In (a, l) new /\ has_address v a /\ located u (base ++ path) v l).

  Lemma inside_nil : forall path v, ~ inside [] path v.
  Proof. intros path v H. inversion H; subst; contradiction. Qed.

  Lemma inside_app : forall t1 t2 path v, inside (t1 ++ t2) path v <-> inside t1 path v \/ inside t2 path v.
  Proof.
    intros t1 t2 path v. split.
    - intros H. inversion H; subst; rewrite in_app_iff in *.
      + destruct H0; [left|right]; eapply I_here; eauto.
      + destruct H0; [left|right]; eapply I_namespace; eauto.
      + destruct H0; [left|right]; eapply I_other; eauto.
    - intros [H|H]; inversion H; subst.
      1, 4: eapply I_here. 3, 5: eapply I_namespace. 5, 6: idtac.
      all: try (rewrite in_app_iff; eauto; fail); eauto.
      all: eapply I_other; [rewrite in_app_iff; eauto| |]; auto.
  Qed.

  Lemma explains_nil : forall base, explains base [] [].
  Proof. intros base. split; [intros a l []|]. intros path v H. now apply inside_nil in H. Qed.

  Lemma explains_app : forall base t1 t2 n1 n2, explains base t1 n1 -> explains base t2 n2 -> explains base (t1 ++ t2) (n2 ++ n1).
  Proof.
    intros base t1 t2 n1 n2 (A1 & B1) (A2 & B2). split.
    - intros a l H. apply in_app_iff in H as [H|H].
      + destruct (A2 a l H) as (path & v & X & Y). exists path, v. split; [apply inside_app; now right|auto].
      + destruct (A1 a l H) as (path & v & X & Y). exists path, v. split; [apply inside_app; now left|auto].
    - intros path v H S. apply inside_app in H as [H|H].
      + destruct (B1 path v H S) as (a & l & X & Y). exists a, l. split; [apply in_app_iff; now right|auto].
      + destruct (B2 path v H S) as (a & l & X & Y). exists a, l. split; [apply in_app_iff; now left|auto].
  Qed.

  (** One variable, without its children. *)
  Lemma statement_dec : forall v, statement symbols v \/ ~ statement symbols v.
  Proof.
    intros [n k f l o]. unfold statement. cbn.
    destruct n as [n|]; [|right; intros (H & _); discriminate].
    destruct k as [k|]; [|right; intros (_ & (? & H & _) & _); discriminate].
    destruct f; [|right; intros (_ & _ & H & _); auto]. destruct l; [|right; intros (_ & _ & _ & H & _); auto].
    destruct o; [|right; intros (_ & _ & _ & _ & H); auto].
    destruct (beq n statement_name) eqn:B; [apply beq_true in B; subst n|].
    - destruct (in_dec (list_eq_dec Z.eq_dec) k symbols) as [H|H].
      + left. repeat split; try discriminate. eauto.
      + right. intros (_ & (s & E & J) & _). injection E as ->. contradiction.
    - right. intros (E & _). injection E as ->. rewrite beq_refl in B. discriminate.
  Qed.

  Lemma symbols_in : forall k, existsb (fun s => beq s k) symbols = true <-> In k symbols.
  Proof.
    intros k. rewrite existsb_exists. split.
    - intros (s & H & B). apply beq_true in B. now subst.
    - intros H. exists k. split; [auto|apply beq_refl].
  Qed.

  Lemma variable_visited : forall s v m m', visit_variable u symbols s v m = Ok m' ->
    exists new, m' = new ++ m /\
      (forall a l, In (a, l) new -> statement symbols v /\ has_address v a /\ located u s v l /\ loc_get a m = None) /\
      (statement symbols v -> exists a l, new = [(a, l)]) /\ (length new <= 1)%nat.
  Proof.
    intros s v m m' H. unfold visit_variable in H.
    assert (Z0 : forall (P : Prop), (statement symbols v -> False) -> m' = m ->
      exists new, m' = new ++ m /\
      (forall a l, In (a, l) new -> statement symbols v /\ has_address v a /\ located u s v l /\ loc_get a m = None) /\
      (statement symbols v -> exists a l, new = [(a, l)]) /\ (length new <= 1)%nat).
    { intros _ N ->. exists []. split; [reflexivity|]. split; [intros a l []|]. split; [intros S; now destruct (N S)|cbn; lia]. }
    destruct (v_name v) as [name|] eqn:En; [|apply (Z0 True); [intros (S & _); congruence|congruence]].
    destruct (v_linkage v) as [k|] eqn:Ek; [|apply (Z0 True); [intros (_ & (? & S & _) & _); congruence|congruence]].
    destruct (v_file v) as [i|] eqn:Ef; [|apply (Z0 True); [intros (_ & _ & S & _); congruence|congruence]].
    destruct (v_line v) as [ln|] eqn:El; [|apply (Z0 True); [intros (_ & _ & _ & S & _); congruence|congruence]].
    destruct (v_location v) as [ops|] eqn:Eo; [|apply (Z0 True); [intros (_ & _ & _ & _ & S); congruence|congruence]].
    unfold from_utf8 in H. destruct (utf8_valid name); [|discriminate]. destruct (utf8_valid k); [|discriminate].
    cbn [bind] in H. destruct (beq name statement_name) eqn:B.
    2: { apply (Z0 True); [|congruence]. intros (S & _). assert (name = statement_name) by congruence. subst. rewrite beq_refl in B. discriminate. }
    apply beq_true in B. subst name. destruct (existsb (fun s => beq s k) symbols) eqn:X.
    2: { apply (Z0 True); [|congruence]. intros (_ & (z & S & J) & _). assert (z = k) by congruence. subst.
         apply symbols_in in J. congruence. }
    apply symbols_in in X. destruct (expr_address ops) as [a| | |] eqn:A; try discriminate.
    destruct (file_path u i) as [f| | |] eqn:F; try discriminate. cbn [bind] in H.
    destruct (loc_get a m) eqn:G; [discriminate|]. injection H as <-.
    exists [(a, MkLocation f ln (join (lit "::") s))]. split; [reflexivity|]. split; [|split; [eauto|cbn; lia]].
    intros a' l' [E|[]]. injection E as <- <-. split; [|split; [|split; [|exact G]]].
    - split; [exact En|]. repeat split; try congruence. eauto.
    - eapply expr_address_has; eauto.
    - split; [exact El|]. split; [reflexivity|]. exists i. split; [auto|]. now apply file_path_source.
  Qed.

  Lemma loc_get_fresh : forall a m, loc_get a m = None -> ~ In a (map fst m).
  Proof.
    intros a m. induction m as [|[b l] m IH]; cbn; [auto|]. destruct (a =? b) eqn:E; [discriminate|].
    apply Z.eqb_neq in E. intros H [J|J]; [congruence|]. now apply IH.
  Qed.

  Lemma explains_ext : forall base t1 t2 new, (forall path v, inside t1 path v <-> inside t2 path v) ->
    explains base t1 new -> explains base t2 new.
  Proof.
    intros base t1 t2 new E (A & B). split.
    - intros a l H. destruct (A a l H) as (path & v & X & Y). exists path, v. split; [now apply E|auto].
    - intros path v H. apply E in H. now apply B.
  Qed.

  Lemma inside_one : forall k ch path v, named k = false ->
    (inside [Die k ch] path v <-> (path = [] /\ k = KVariable v) \/ inside ch path v).
  Proof.
    intros k ch path v N. split.
    - intros H. inversion H as [? ? ? J|? ? ? ? ? J|? ? ? ? ? J ? ?]; subst; destruct J as [J|[]]; injection J as ? ?; subst; auto.
      discriminate.
    - intros [(-> & ->)|H]; [eapply I_here; now left|]. eapply I_other; eauto. now left.
  Qed.

  Lemma inside_one_ns : forall n ch path v,
    (inside [Die (KNamespace (Some n)) ch] path v <-> exists p, path = n :: p /\ inside ch p v).
  Proof.
    intros n ch path v. split.
    - intros H. inversion H as [? ? ? J|? ? ? ? ? J|? ? ? ? ? J E ?]; subst; destruct J as [J|[]]; injection J as ? ?; subst; eauto.
      all: discriminate.
    - intros (p & -> & H). eapply I_namespace; eauto. now left.
  Qed.

  Definition adds (base : list bytes) (ts : list die) (m m' : list (Z * location)) : Prop :=
    (NoDup (map fst m) -> NoDup (map fst m')) /\ exists new, m' = new ++ m /\ explains base ts new.

  Lemma adds_nil : forall base m, adds base [] m m.
  Proof. intros base m. split; [auto|]. exists []. split; [reflexivity|apply explains_nil]. Qed.

  Lemma adds_app : forall base t1 t2 m1 m2 m3, adds base t1 m1 m2 -> adds base t2 m2 m3 -> adds base (t1 ++ t2) m1 m3.
  Proof.
    intros base t1 t2 m1 m2 m3 (D1 & n1 & -> & E1) (D2 & n2 & -> & E2). split; [auto|].
    exists (n2 ++ n1). split; [apply app_assoc|]. now apply explains_app.
  Qed.

  Lemma adds_ext : forall base t1 t2 m m', (forall path v, inside t1 path v <-> inside t2 path v) -> adds base t1 m m' -> adds base t2 m m'.
  Proof. intros base t1 t2 m m' E (D & n & X & Y). split; [auto|]. exists n. split; [auto|]. eapply explains_ext; eauto. Qed.

  (** An entry alone. *)
  Lemma walk_single : forall d k s m s' m', named k = false -> walk [(d, k)] s m = Ok (s', m') ->
    s' = s /\ adds s [Die k []] m m'.
  Proof.
    intros d k s m s' m' N H. cbn [walk] in H. destruct k as [[name|]|v|]; [discriminate| | |].
    - cbn [enter_namespace bind] in H. injection H as <- <-. split; [reflexivity|].
      eapply adds_ext; [|apply adds_nil]. intros path v. rewrite inside_one by auto. split; [intros H; now apply inside_nil in H|].
      intros [(_ & E)|E]; [discriminate|exact E].
    - destruct (visit_variable u symbols s v m) as [m1| | |] eqn:V; try discriminate. cbn [bind] in H. injection H as <- <-.
      split; [reflexivity|]. apply variable_visited in V as (new & -> & A & B & L). split.
      + intros D. destruct new as [|[a l] [|? ?]]; [auto| |cbn in L; lia]. cbn. constructor; [|auto].
        apply loc_get_fresh. now apply (A a l); left.
      + exists new. split; [reflexivity|]. split.
        * intros a l J. exists [], v. rewrite app_nil_r. destruct (A a l J) as (S & X & Y & _).
          split; [apply I_here with (ch := []); now left|auto].
        * intros path w J S. rewrite inside_one in J by auto. destruct J as [(-> & J)|J]; [|now apply inside_nil in J].
          injection J as <-. destruct (B S) as (a & l & ->). exists a, l. rewrite app_nil_r.
          destruct (A a l (or_introl eq_refl)) as (_ & X & Y & _). split; [now left|auto].
    - injection H as <- <-. split; [reflexivity|].
      eapply adds_ext; [|apply adds_nil]. intros path v. rewrite inside_one by auto. split; [intros H; now apply inside_nil in H|].
      intros [(_ & E)|E]; [discriminate|exact E].
  Qed.

  Lemma walk_split : forall l1 l2 s m s2 m2, walk (l1 ++ l2) s m = Ok (s2, m2) ->
    exists s1 m1, walk l1 s m = Ok (s1, m1) /\ walk l2 s1 m1 = Ok (s2, m2).
  Proof.
    intros l1 l2 s m s2 m2 H. rewrite walk_app in H. destruct (walk l1 s m) as [[s1 m1]| | |]; try discriminate. eauto.
  Qed.

  Lemma inside_parts : forall k ch path v, named k = false ->
    (inside ([Die k []] ++ ch) path v <-> inside [Die k ch] path v).
  Proof.
    intros k ch path v N. rewrite inside_app, !inside_one by auto. split.
    - intros [[H|H]|H]; [auto|now apply inside_nil in H|auto].
    - intros [H|H]; auto.
  Qed.

  Lemma no_namespace_children : forall k ch, ~ has_namespace (Die k ch) -> named k = false /\ Forall (fun t => ~ has_namespace t) ch.
  Proof.
    intros k ch H. split; [destruct (named k) eqn:E; auto; destruct H; now constructor|].
    apply Forall_forall. intros t I0 J. apply H. eapply N_below; eauto.
  Qed.

  (** Trees without namespaces. *)
  Lemma walk_leafy : forall t d s m s' m', ~ has_namespace t -> walk (with_depth d t) s m = Ok (s', m') ->
    s' = s /\ adds s [t] m m'.
  Proof.
    induction t as [k ch IH] using die_tree. intros d s m s' m' N H. apply no_namespace_children in N as (Nk & Nc).
    cbn [with_depth] in H. change ((d, k) :: ?l) with ([(d, k)] ++ l) in H.
    apply walk_split in H as (s1 & m1 & H1 & H2). apply walk_single in H1 as (-> & A); [|exact Nk].
    assert (Q : s' = s /\ adds s ch m1 m').
    { clear A. revert m1 H2 Nc. induction IH as [|t ch IHt IHc IHl]; intros m1 H2 Nc.
      - injection H2 as <- <-. split; [reflexivity|apply adds_nil].
      - cbn [flat_map] in H2. apply walk_split in H2 as (s2 & m2 & H1 & H2). inversion Nc; subst.
        apply IHt in H1 as (-> & A1); [|assumption]. destruct (IHl _ H2) as (E & A2); [assumption|]. split; [exact E|].
        change (t :: ch) with ([t] ++ ch). eapply adds_app; eauto. }
    destruct Q as (-> & B). split; [reflexivity|]. eapply adds_ext; [intros; apply inside_parts; exact Nk|]. eapply adds_app; eauto.
  Qed.

  (** When nothing is a direct statement, the base does not matter. *)
  Lemma not_direct : forall ts path v, Forall (fun t => ~ has_namespace t) ts -> Forall (fun t => ~ direct symbols t) ts -> inside ts path v -> ~ statement symbols v.
  Proof.
    intros ts path v N D H. induction H as [ts v ch J|ts n ch path v J _ _|ts k ch path v J Nk _ IH]; rewrite Forall_forall in N, D.
    - intros S. apply (D _ J). now constructor.
    - destruct (N _ J). now constructor.
    - apply IH; apply Forall_forall; intros t I0 X; [apply (N _ J)|apply (D _ J)]; [eapply N_below|eapply D_below]; eauto.
  Qed.

  Lemma adds_shift : forall base base' ts m m', Forall (fun t => ~ has_namespace t) ts -> Forall (fun t => ~ direct symbols t) ts ->
    adds base ts m m' -> adds base' ts m m'.
  Proof.
    intros base base' ts m m' N D (ND & new & -> & A & B). split; [auto|]. exists new. split; [reflexivity|]. split.
    - intros a l H. destruct (A a l H) as (path & v & I0 & S & _). now destruct (not_direct _ _ _ N D I0).
    - intros path v I0 S. now destruct (not_direct _ _ _ N D I0).
  Qed.

  Lemma inside_prefix : forall n base ch m m', adds (base ++ [n]) ch m m' -> adds base [Die (KNamespace (Some n)) ch] m m'.
  Proof.
    intros n base ch m m' (ND & new & -> & A & B). split; [auto|]. exists new. split; [reflexivity|]. split.
    - intros a l H. destruct (A a l H) as (path & v & I0 & S & X & Y). exists (n :: path), v.
      split; [apply inside_one_ns; eauto|]. rewrite <- app_assoc in Y. auto.
    - intros path v I0 S. apply inside_one_ns in I0 as (p & -> & I0). destruct (B p v I0 S) as (a & l & X & Y & Z0).
      exists a, l. rewrite <- app_assoc in Z0. auto.
  Qed.

  (** All trees: [s] begins with the namespaces around the tree, and is equal to them if there is a statement to name. *)
  Definition walked (t : die) : Prop := forall base s m s' m', tidy symbols t ->
    walk (with_depth (Z.of_nat (length base) + 1) t) s m = Ok (s', m') ->
    firstn (length base) s = base -> (s = base \/ ~ direct symbols t) ->
    firstn (length base) s' = base /\ (~ has_namespace t -> s' = s) /\ adds base [t] m m'.

  Lemma has_namespace_dec : forall t, has_namespace t \/ ~ has_namespace t.
  Proof.
    induction t as [k ch IH] using die_tree. destruct (named k) eqn:K; [left; now constructor|].
    assert (Q : Exists has_namespace ch \/ Forall (fun t => ~ has_namespace t) ch).
    { induction IH as [|t ch [H|H] IHc [J|J]]; [right; constructor| | | |]; try (left; (now left) || (now right)). right. now constructor. }
    destruct Q as [Q|Q].
    - apply Exists_exists in Q as (t & I0 & H). left. eapply N_below; eauto.
    - right. intros H. inversion H; subst; [congruence|]. rewrite Forall_forall in Q. eapply Q; eauto.
  Qed.

  Lemma walk_list : forall ch base s m s' m', Forall walked ch -> Forall (tidy symbols) ch -> in_order symbols ch ->
    walk (flat_map (with_depth (Z.of_nat (length base) + 1)) ch) s m = Ok (s', m') ->
    firstn (length base) s = base -> (s = base \/ Forall (fun t => ~ direct symbols t) ch) ->
    firstn (length base) s' = base /\ adds base ch m m'.
  Proof.
    induction ch as [|t ch IH]; intros base s m s' m' W T O0 H F C.
    - injection H as <- <-. split; [exact F|apply adds_nil].
    - cbn [flat_map] in H. apply walk_split in H as (s1 & m1 & H1 & H2).
      inversion W as [|? ? Wt Wc]; inversion T as [|? ? Tt Tc]; inversion O0 as [|? ? Ot Oc]; subst.
      destruct (Wt _ _ _ _ _ Tt H1 F) as (F1 & K & A1).
      { destruct C as [C|C]; [now left|]. right. now apply Forall_inv in C. }
      destruct (IH _ _ _ _ _ Wc Tc Oc H2 F1) as (F2 & A2).
      { destruct (has_namespace_dec t) as [N|N].
        - right. eapply Forall_impl; [|exact Ot]. intros b Q. now apply Q.
        - rewrite (K N). destruct C as [C|C]; [now left|right]. now apply Forall_inv_tail in C. }
      split; [exact F2|]. change (t :: ch) with ([t] ++ ch). eapply adds_app; eauto.
  Qed.

  Lemma pop_to : forall base s, firstn (length base) s = base ->
    pop (Z.of_nat (length s) + 1 - (Z.of_nat (length base) + 1)) s = base.
  Proof.
    intros base s F. unfold pop. rewrite <- F at 2. f_equal.
    assert (length base <= length s)%nat by (rewrite <- F; rewrite firstn_length; lia). lia.
  Qed.

  Theorem walk_tidy : forall t, walked t.
  Proof.
    induction t as [k ch IH] using die_tree. intros base s m s' m' T H F C. inversion T as [n ch' Tc Oc|k' ch' Nk Nc]; subst.
    - cbn [with_depth] in H. cbn [walk] in H. unfold enter_namespace, from_utf8 in H.
      destruct (utf8_valid n) eqn:V; [|discriminate]. cbn [bind] in H. rewrite (pop_to _ _ F) in H.
      replace (Z.of_nat (length base) + 1 + 1) with (Z.of_nat (length (base ++ [n])) + 1) in H by (rewrite app_length; cbn; lia).
      eapply walk_list in H as (F' & A); [|exact IH|exact Tc|exact Oc|apply firstn_all|now left].
      split; [|split; [|now apply inside_prefix]].
      + rewrite app_length in F'. cbn [length] in F'. apply (f_equal (firstn (length base))) in F'.
        rewrite firstn_firstn in F'. rewrite Nat.min_l in F' by lia. rewrite F'. rewrite firstn_app, firstn_all, Nat.sub_diag. cbn. apply app_nil_r.
      + intros N. destruct N. now constructor.
    - assert (N : ~ has_namespace (Die k ch)).
      { intros N. inversion N; subst; [congruence|]. rewrite Forall_forall in Nc. eapply Nc; eauto. }
      apply walk_leafy in H as (-> & A); [|exact N]. split; [exact F|]. split; [auto|].
      destruct C as [->|C]; [exact A|]. eapply adds_shift; [| |exact A]; constructor; auto.
  Qed.

  Theorem visit_unit : forall t m m', u_root u = Some t -> tidy_unit symbols u -> visit u symbols (cursor t) 0 [] m = Ok m' ->
    adds [] (children t) m m'.
  Proof.
    intros [k ch] m m' R T H. cbn [cursor] in H. rewrite visit_walk in H.
    destruct (walk (flat_map (with_depth 1) ch) [] m) as [[s' m1]| | |] eqn:W; try discriminate. injection H as <-.
    destruct (T _ R) as (Tc & Oc). cbn [children snd] in *.
    eapply (walk_list ch []) in W as (_ & A); [exact A|apply Forall_forall; intros; apply walk_tidy|exact Tc|exact Oc|reflexivity|now left].
  Qed.
End Unit.

Lemma in_loc_get : forall a l m, NoDup (map fst m) -> (loc_get a m = Some l <-> In (a, l) m).
Proof.
  intros a l m. induction m as [|[b k] m IH]; intros D; cbn; [split; [discriminate|intros []]|].
  inversion D as [|? ? N D']; subst. destruct (a =? b) eqn:E.
  - apply Z.eqb_eq in E. subst b. split; [intros H; injection H as ->; now left|].
    intros [H|H]; [congruence|]. destruct N. apply (in_map fst) in H. exact H.
  - apply Z.eqb_neq in E. rewrite IH by auto. split; [now right|]. intros [H|H]; [congruence|auto].
Qed.

Lemma visit_all : forall symbols us m m', Forall (tidy_unit symbols) us -> visit_units symbols us m = Ok m' ->
  (NoDup (map fst m) -> NoDup (map fst m')) /\ exists new, m' = new ++ m /\
  (forall a l, In (a, l) new -> exists u ts path v,
     In (u, ts) (unit_trees us) /\ inside ts path v /\ statement symbols v /\ has_address v a /\ located u path v l) /\
  (forall u ts path v, In (u, ts) (unit_trees us) -> inside ts path v -> statement symbols v ->
     exists a l, has_address v a /\ In (a, l) new /\ located u path v l).
Proof.
  intros symbols us. induction us as [|u us IH]; intros m m' T H.
  - injection H as <-. split; [auto|]. exists []. split; [reflexivity|]. split; [intros a l []|intros u ts path v []].
  - cbn [visit_units] in H. destruct (u_root u) as [t|] eqn:R; [|discriminate].
    destruct (visit u symbols (cursor t) 0 [] m) as [m1| | |] eqn:V; try discriminate. cbn [bind] in H.
    inversion T as [|? ? Tu Tus]; subst. apply visit_unit in V as (D1 & n1 & -> & A1 & B1); [|exact R|exact Tu].
    destruct (IH _ _ Tus H) as (D2 & n2 & -> & A2 & B2). split; [auto|].
    exists (n2 ++ n1). split; [apply app_assoc|]. unfold unit_trees. cbn [flat_map]. rewrite R. fold (unit_trees us). split.
    + intros a l J. apply in_app_iff in J as [J|J].
      * destruct (A2 a l J) as (w & ts & path & v & X & Y). exists w, ts, path, v. split; [now right|exact Y].
      * destruct (A1 a l J) as (path & v & Y). exists u, (children t), path, v. split; [now left|exact Y].
    + intros w ts path v [J|J] I0 S.
      * injection J as <- <-. destruct (B1 path v I0 S) as (a & l & X & Y & Z0). exists a, l.
        split; [exact Y|]. split; [apply in_app_iff; now right|exact Z0].
      * destruct (B2 w ts path v J I0 S) as (a & l & X & Y & Z0). exists a, l.
        split; [exact X|]. split; [apply in_app_iff; now left|exact Z0].
Qed.

Theorem locations_exact : forall symbols us m, Forall (tidy_unit symbols) us -> get_locations symbols us = Ok m ->
  all_located symbols (unit_trees us) m.
Proof.
  intros symbols us m T H. apply visit_all in H as (D & new & -> & A & B); [|exact T]. rewrite app_nil_r in *.
  specialize (D (NoDup_nil _)). split.
  - intros a l G. apply in_loc_get in G; auto.
  - intros u ts path v I0 J S. destruct (B u ts path v I0 J S) as (a & l & X & Y & Z0). exists a, l.
    split; [exact X|]. split; [now apply in_loc_get|exact Z0].
Qed.
