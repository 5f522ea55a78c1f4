(** Locations for debug information in any order: the module that a statement is given is the namespace entered last before it. *)
From Verif Require Import Base Utf8 DecoderModel EnvFilterModel LogFormatModel LocationModel LocationSpec LocationProofs.

(** ** What is found in the debug information, from the first entry to the last *)

Inductive found := Entered (path : list bytes) | Seen (v : variable).

Fixpoint reading (path : list bytes) (t : die) : list found :=
  let 'Die k ch := t in
  match k with
  | KNamespace (Some n) => Entered (path ++ [n]) :: flat_map (reading (path ++ [n])) ch
  | KVariable v => Seen v :: flat_map (reading path) ch
  | _ => flat_map (reading path) ch
  end.

(** [path] is the namespace entered last, [start] if there is none. *)
Definition entered_last (start : list bytes) (before : list found) (path : list bytes) : Prop :=
  ((forall p, ~ In (Entered p) before) /\ path = start) \/
  exists b1 b2, before = b1 ++ Entered path :: b2 /\ forall p, ~ In (Entered p) b2.

(** The variable [v] is found in the trees [ts], where [path] is the namespace entered last before it. *)
Definition follows (ts : list die) (path : list bytes) (v : variable) : Prop :=
  exists before after, flat_map (reading []) ts = before ++ Seen v :: after /\ entered_last [] before path.

(** Namespaces are in namespaces only. *)
Inductive nested_only : die -> Prop :=
| O_namespace : forall n ch, Forall nested_only ch -> nested_only (Die (KNamespace (Some n)) ch)
| O_other : forall k ch, named k = false -> Forall (fun t => ~ has_namespace t) ch -> nested_only (Die k ch).
Definition nested_unit (u : unit_info) : Prop := forall t, u_root u = Some t -> Forall nested_only (children t).

Definition last_located (symbols : list bytes) (trees : list (unit_info * list die)) (m : list (Z * location)) : Prop :=
  (forall a l, loc_get a m = Some l -> exists u ts path v,
     In (u, ts) trees /\ follows ts path v /\ statement symbols v /\ has_address v a /\ located u path v l) /\
  (forall u ts path v, In (u, ts) trees -> follows ts path v -> statement symbols v ->
     exists a l, has_address v a /\ loc_get a m = Some l /\ located u path v l).

(* ------------------------------------------------------------------ *)
(** ** Proofs *)

Section Unit.
  Context (u : unit_info) (symbols : list bytes).

  Fixpoint collect (l : list found) (s : list bytes) (m : list (Z * location)) : outcome unit (list bytes * list (Z * location)) :=
    match l with
    | [] => Ok (s, m)
    | Entered p :: l' => collect l' p m
    | Seen v :: l' => m <- visit_variable u symbols s v m ;; collect l' s m
    end.

  Lemma collect_app : forall l1 l2 s m, collect (l1 ++ l2) s m = (p <- collect l1 s m ;; collect l2 (fst p) (snd p)).
  Proof.
    induction l1 as [|[p|v] l1 IH]; intros l2 s m; [reflexivity| |]; cbn [app collect]; [apply IH|].
    destruct (visit_variable u symbols s v m); cbn [bind]; auto.
  Qed.

  Lemma collect_plain : forall t d base s m s' m', ~ has_namespace t -> walk u symbols (with_depth d t) s m = Ok (s', m') ->
    collect (reading base t) s m = Ok (s', m') /\ s' = s.
  Proof.
    induction t as [k ch IH] using die_tree. intros d base s m s' m' N H. apply no_namespace_children in N as (Nk & Nc).
    assert (K : forall m1, walk u symbols (flat_map (with_depth (d + 1)) ch) s m1 = Ok (s', m') -> collect (flat_map (reading base) ch) s m1 = Ok (s', m') /\ s' = s).
    { clear H. induction IH as [|t ch IHt IHc IHl]; intros m1 H; [injection H as <- <-; split; reflexivity|]. inversion Nc; subst.
      cbn [flat_map] in *. apply walk_split in H as (s2 & m2 & W1 & W2). apply (IHt _ base) in W1 as (E & ->); [|assumption].
      rewrite collect_app, E. cbn [bind fst snd]. now apply IHl. }
    cbn [with_depth walk] in H. cbn [reading]. destruct k as [[n|]|v|]; [discriminate| | |].
    - cbn [enter_namespace bind] in H. now apply K.
    - cbn [collect]. destruct (visit_variable u symbols s v m) as [m1| | |]; try discriminate. cbn [bind] in *. now apply K.
    - now apply K.
  Qed.

  Lemma firstn_shorter : forall (base : list bytes) n s, firstn (length (base ++ [n])) s = base ++ [n] -> firstn (length base) s = base.
  Proof.
    intros base n s F. rewrite app_length in F. cbn [length] in F. apply (f_equal (firstn (length base))) in F.
    rewrite firstn_firstn in F. rewrite Nat.min_l in F by lia. rewrite F. rewrite firstn_app, firstn_all, Nat.sub_diag. cbn. apply app_nil_r.
  Qed.

  Lemma collect_list : forall ch base s m s' m',
    Forall (fun t => forall base s m s' m', nested_only t -> walk u symbols (with_depth (Z.of_nat (length base) + 1) t) s m = Ok (s', m') ->
      firstn (length base) s = base -> collect (reading base t) s m = Ok (s', m') /\ firstn (length base) s' = base) ch ->
    Forall nested_only ch -> walk u symbols (flat_map (with_depth (Z.of_nat (length base) + 1)) ch) s m = Ok (s', m') ->
    firstn (length base) s = base -> collect (flat_map (reading base) ch) s m = Ok (s', m') /\ firstn (length base) s' = base.
  Proof.
    induction ch as [|t ch IH]; intros base s m s' m' A N H F; [injection H as <- <-; now split|].
    inversion A as [|? ? At Ac]; inversion N as [|? ? Nt Nc]; subst. cbn [flat_map] in *. apply walk_split in H as (s1 & m1 & H1 & H2).
    destruct (At _ _ _ _ _ Nt H1 F) as (E1 & F1). rewrite collect_app, E1. cbn [bind fst snd]. now apply IH.
  Qed.

  Lemma collect_tree : forall t base s m s' m', nested_only t -> walk u symbols (with_depth (Z.of_nat (length base) + 1) t) s m = Ok (s', m') ->
    firstn (length base) s = base -> collect (reading base t) s m = Ok (s', m') /\ firstn (length base) s' = base.
  Proof.
    induction t as [k ch IH] using die_tree. intros base s m s' m' N H F. inversion N as [n ch' Nc|k' ch' Nk Nc]; subst.
    - cbn [with_depth walk] in H. unfold enter_namespace, from_utf8 in H. destruct (utf8_valid n); [|discriminate]. cbn [bind] in H.
      rewrite (pop_to _ _ F) in H.
      replace (Z.of_nat (length base) + 1 + 1) with (Z.of_nat (length (base ++ [n])) + 1) in H by (rewrite app_length; cbn; lia).
      cbn [reading collect]. apply collect_list in H as (E & F'); [|exact IH|exact Nc|apply firstn_all]. split; [exact E|]. now apply firstn_shorter in F'.
    - assert (M : ~ has_namespace (Die k ch)).
      { intros M. inversion M; subst; [congruence|]. rewrite Forall_forall in Nc. eapply Nc; eauto. }
      apply (collect_plain _ _ base) in H as (E & ->); [|exact M]. now split.
  Qed.

  Lemma entered_here : forall s l, entered_last s [] l <-> l = s.
  Proof.
    intros s l. split; [|intros ->; left; split; [intros p []|reflexivity]]. intros [(_ & E)|(b1 & b2 & E & _)]; [exact E|]. now destruct b1.
  Qed.
  Lemma entered_more : forall s p before l, entered_last p before l -> entered_last s (Entered p :: before) l.
  Proof.
    intros s p before l [(N & ->)|(b1 & b2 & -> & N)]; right; [exists [], before; split; [reflexivity|exact N]|].
    exists (Entered p :: b1), b2. split; [reflexivity|exact N].
  Qed.
  Lemma entered_less : forall s p before l, entered_last s (Entered p :: before) l -> entered_last p before l.
  Proof.
    intros s p before l [(N & _)|(b1 & b2 & E & N)]; [destruct (N p); now left|]. destruct b1 as [|x b1]; [injection E as -> ->; left; now split|].
    injection E as _ ->. right. now exists b1, b2.
  Qed.
  Lemma entered_seen : forall s v before l, entered_last s (Seen v :: before) l <-> entered_last s before l.
  Proof.
    intros s v before l. split; intros [(N & E)|(b1 & b2 & E & N)].
    - left. split; [|exact E]. intros p J. apply (N p). now right.
    - destruct b1 as [|x b1]; [discriminate|]. injection E as _ ->. right. now exists b1, b2.
    - left. split; [|exact E]. intros p [J|J]; [discriminate|]. now apply (N p).
    - right. exists (Seen v :: b1), b2. split; [now rewrite E|exact N].
  Qed.

  (** ** What is collected *)
  Lemma collected : forall l s m s' m', collect l s m = Ok (s', m') ->
    (NoDup (map fst m) -> NoDup (map fst m')) /\ exists new, m' = new ++ m /\
    (forall a loc, In (a, loc) new -> exists before after path v, l = before ++ Seen v :: after /\ entered_last s before path /\
       statement symbols v /\ has_address v a /\ located u path v loc) /\
    (forall before after path v, l = before ++ Seen v :: after -> entered_last s before path -> statement symbols v ->
       exists a loc, has_address v a /\ In (a, loc) new /\ located u path v loc).
  Proof.
    induction l as [|[p|v] l IH]; intros s m s' m' H; cbn [collect] in H.
    - injection H as <- <-. split; [auto|]. exists []. split; [reflexivity|]. split; [intros a loc []|]. intros before after path v E. now destruct before.
    - destruct (IH _ _ _ _ H) as (D & new & -> & A & B). split; [exact D|]. exists new. split; [reflexivity|]. split.
      + intros a loc J. destruct (A a loc J) as (before & after & path & v & -> & E & R). exists (Entered p :: before), after, path, v.
        split; [reflexivity|]. split; [now apply entered_more|exact R].
      + intros before after path v E L S. destruct before as [|x before]; [discriminate|]. injection E as <- ->. apply entered_less in L. eapply B; eauto.
    - destruct (visit_variable u symbols s v m) as [m1| | |] eqn:V; try discriminate. cbn [bind] in H. destruct (IH _ _ _ _ H) as (D & new & -> & A & B).
      apply variable_visited in V as (one & -> & A1 & B1 & L1). split.
      { intros ND. apply D. destruct one as [|[a l'] [|? ?]]; [auto| |cbn in L1; lia]. cbn. constructor; [|auto]. apply loc_get_fresh. now apply (A1 a l'); left. }
      exists (new ++ one). split; [apply app_assoc|]. split.
      + intros a loc J. apply in_app_iff in J as [J|J].
        * destruct (A a loc J) as (before & after & path & w & -> & E & R). exists (Seen v :: before), after, path, w.
          split; [reflexivity|]. split; [now apply entered_seen|exact R].
        * destruct (A1 a loc J) as (S & X & Y & _). exists [], l, s, v. split; [reflexivity|]. split; [now apply entered_here|auto].
      + intros before after path w E L S. destruct before as [|x before].
        * injection E as <- ->. apply entered_here in L as ->. destruct (B1 S) as (a & loc & ->). destruct (A1 a loc (or_introl eq_refl)) as (_ & X & Y & _).
          exists a, loc. split; [exact X|]. split; [apply in_app_iff; right; now left|exact Y].
        * injection E as <- ->. apply entered_seen in L. destruct (B before after path w eq_refl L S) as (a & loc & X & Y & Z0).
          exists a, loc. split; [exact X|]. split; [apply in_app_iff; now left|exact Z0].
  Qed.

  Theorem unit_any : forall t m m', u_root u = Some t -> nested_unit u -> visit u symbols (cursor t) 0 [] m = Ok m' ->
    (NoDup (map fst m) -> NoDup (map fst m')) /\ exists new, m' = new ++ m /\
    (forall a l, In (a, l) new -> exists path v, follows (children t) path v /\ statement symbols v /\ has_address v a /\ located u path v l) /\
    (forall path v, follows (children t) path v -> statement symbols v -> exists a l, has_address v a /\ In (a, l) new /\ located u path v l).
  Proof.
    intros [k ch] m m' R T H. cbn [cursor] in H. rewrite visit_walk in H.
    destruct (walk u symbols (flat_map (with_depth 1) ch) [] m) as [[s' m1]| | |] eqn:W; try discriminate. injection H as <-.
    apply (collect_list ch []) in W as (C & _); [|apply Forall_forall; intros; now apply collect_tree|exact (T _ R)|reflexivity].
    apply collected in C as (D & new & E & A & B). cbn [children snd]. split; [exact D|]. exists new. split; [exact E|]. split.
    - intros a l J. destruct (A a l J) as (before & after & path & v & X & Y & Z0). exists path, v. split; [now exists before, after|exact Z0].
    - intros path v (before & after & X & Y) S. eapply B; eauto.
  Qed.
End Unit.

Lemma units_any : forall symbols us m m', Forall nested_unit us -> visit_units symbols us m = Ok m' ->
  (NoDup (map fst m) -> NoDup (map fst m')) /\ exists new, m' = new ++ m /\
  (forall a l, In (a, l) new -> exists u ts path v,
     In (u, ts) (unit_trees us) /\ follows ts path v /\ statement symbols v /\ has_address v a /\ located u path v l) /\
  (forall u ts path v, In (u, ts) (unit_trees us) -> follows ts path v -> statement symbols v ->
     exists a l, has_address v a /\ In (a, l) new /\ located u path v l).
Proof.
  intros symbols us. induction us as [|u us IH]; intros m m' T H.
  - injection H as <-. split; [auto|]. exists []. split; [reflexivity|]. split; [intros a l []|intros u ts path v []].
  - cbn [visit_units] in H. destruct (u_root u) as [t|] eqn:R; [|discriminate].
    destruct (visit u symbols (cursor t) 0 [] m) as [m1| | |] eqn:V; try discriminate. cbn [bind] in H.
    inversion T as [|? ? Tu Tus]; subst. apply unit_any in V as (D1 & n1 & -> & A1 & B1); [|exact R|exact Tu].
    destruct (IH _ _ Tus H) as (D2 & n2 & -> & A2 & B2). split; [auto|].
    exists (n2 ++ n1). split; [apply app_assoc|]. unfold unit_trees. cbn [flat_map]. rewrite R. fold (unit_trees us). split.
    + intros a l J. apply in_app_iff in J as [J|J].
      * destruct (A2 a l J) as (w & ts & path & v & X & Y). exists w, ts, path, v. split; [now right|exact Y].
      * destruct (A1 a l J) as (path & v & Y). exists u, (children t), path, v. split; [now left|exact Y].
    + intros w ts path v [J|J] I0 S.
      * injection J as <- <-. destruct (B1 path v I0 S) as (a & l & X & Y & Z0). exists a, l.
        split; [exact X|]. split; [apply in_app_iff; now right|exact Z0].
      * destruct (B2 w ts path v J I0 S) as (a & l & X & Y & Z0). exists a, l.
        split; [exact X|]. split; [apply in_app_iff; now left|exact Z0].
Qed.

Theorem locations_any : forall symbols us m, Forall nested_unit us -> get_locations symbols us = Ok m ->
  last_located symbols (unit_trees us) m.
Proof.
  intros symbols us m T H. apply units_any in H as (D & new & -> & A & B); [|exact T]. rewrite app_nil_r in *.
  specialize (D (NoDup_nil _)). split.
  - intros a l G. apply in_loc_get in G; auto.
  - intros u ts path v I0 J S. destruct (B u ts path v I0 J S) as (a & l & X & Y & Z0). exists a, l.
    split; [exact X|]. split; [now apply in_loc_get|exact Z0].
Qed.
