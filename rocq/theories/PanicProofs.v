From Verif Require Import Base ParserModel ParserProofs EncodeModel DeriveProofs PanicModel PanicSpec.

(* ------------------------------------------------------------------ *)
(** * Lists *)

Lemma seq_none : forall x y, seq x y = None <-> x = None \/ y = None.
Proof.
  unfold seq, obind. intros [a|] [b|]; split; intros H; auto; try discriminate.
  destruct H; discriminate.
Qed.

Lemma seqs_none : forall l, seqs l = None <-> In None l.
Proof.
  induction l as [|x l IH]; cbn [seqs In]; [split; [discriminate|intros []]|].
  rewrite seq_none, IH. split; intros [H|H]; auto.
Qed.

Lemma seq_some : forall x y b, seq x y = Some b -> exists a c, x = Some a /\ y = Some c /\ b = a ++ c.
Proof.
  unfold seq, obind. intros [a|] [c|] b H; try discriminate. exists a, c. repeat split; congruence.
Qed.

Lemma in_map2 : forall {A B C} (f : A -> B -> C) l m x,
  In x (map2 f l m) <-> exists n a b, nth_error l n = Some a /\ nth_error m n = Some b /\ f a b = x.
Proof.
  intros A B C f l m. revert l. induction m as [|b m IH]; intros l x.
  - destruct l; cbn [map2 In]; (split; [intros []|intros (n & a' & b' & H1 & H2 & H3); destruct n; discriminate]).
  - destruct l as [|a l]; cbn [map2 In].
    + split; [intros []|intros (n & a' & b' & H1 & H2 & H3); destruct n; discriminate].
    + rewrite IH. split.
      * intros [H|(n & a' & b' & H1 & H2 & H3)]; [exists 0%nat, a, b; auto|exists (S n), a', b'; auto].
      * intros ([|n] & a' & b' & H1 & H2 & H3); cbn [nth_error] in *.
        -- left. congruence.
        -- right. exists n, a', b'. auto.
Qed.

Lemma in_mapi : forall {B C} (g : Z -> B -> C) m i x,
  In x (mapi g i m) <-> exists n b, nth_error m n = Some b /\ g (i + Z.of_nat n) b = x.
Proof.
  intros B C g m. induction m as [|b m IH]; intros i x; cbn [mapi In].
  - split; [intros []|intros (n & b & H1 & _); destruct n; discriminate].
  - rewrite IH. split.
    + intros [H|(n & b' & H1 & H2)].
      * exists 0%nat, b. split; auto. rewrite Z.add_0_r. auto.
      * exists (S n), b'. split; auto. rewrite <- H2. f_equal. lia.
    + intros ([|n] & b' & H1 & H2); cbn [nth_error] in *.
      * left. rewrite Z.add_0_r in H2. congruence.
      * right. exists n, b'. split; auto. rewrite <- H2. f_equal. lia.
Qed.

Lemma in_map_none : forall {A} (f : A -> option bytes) l, In None (map f l) <-> exists x, In x l /\ f x = None.
Proof. intros A f l. rewrite in_map_iff. split; intros (x & H1 & H2); exists x; auto. Qed.

(* ------------------------------------------------------------------ *)
(** * Induction *)

Section Ind.
  Context (P : rval -> Prop) (Q : wcall -> Prop) (R : aval -> Prop).
  Context (HNum : forall x, P (VNum x)) (HText : forall s, P (VText s))
    (HList : forall vs, Forall P vs -> P (VList vs))
    (HVar : forall k vs, Forall P vs -> P (VVar k vs))
    (HWrites : forall ws, Forall Q ws -> P (VWrites ws))
    (HWrite : forall s args, Forall R args -> Q (SWrite s args))
    (HDel : forall t v, P v -> Q (SDelegate t v))
    (HPrim : forall v, R (AvPrim v))
    (HFmt : forall t v, P v -> R (AvFmt t v))
    (HSlice : forall t vs, Forall P vs -> R (AvSlice t vs))
    (HTxt : forall s, R (AvText s)) (HBytes : forall s, R (AvBytes s))
    (HBits : forall w x, R (AvBits w x)).

  Fixpoint rval_rec' (v : rval) : P v :=
    match v with
    | VNum x => HNum x
    | VText s => HText s
    | VList vs => HList vs
        ((fix go l : Forall P l := match l with [] => Forall_nil _ | x :: l' => Forall_cons _ (rval_rec' x) (go l') end) vs)
    | VVar k vs => HVar k vs
        ((fix go l : Forall P l := match l with [] => Forall_nil _ | x :: l' => Forall_cons _ (rval_rec' x) (go l') end) vs)
    | VWrites ws => HWrites ws
        ((fix go l : Forall Q l := match l with [] => Forall_nil _ | x :: l' => Forall_cons _ (wcall_rec' x) (go l') end) ws)
    end
  with wcall_rec' (w : wcall) : Q w :=
    match w with
    | SWrite s args => HWrite s args
        ((fix go l : Forall R l := match l with [] => Forall_nil _ | x :: l' => Forall_cons _ (aval_rec' x) (go l') end) args)
    | SDelegate t v => HDel t v (rval_rec' v)
    end
  with aval_rec' (a : aval) : R a :=
    match a with
    | AvPrim v => HPrim v
    | AvFmt t v => HFmt t v (rval_rec' v)
    | AvSlice t vs => HSlice t vs
        ((fix go l : Forall P l := match l with [] => Forall_nil _ | x :: l' => Forall_cons _ (rval_rec' x) (go l') end) vs)
    | AvText s => HTxt s
    | AvBytes s => HBytes s
    | AvBits w x => HBits w x
    end.

  Lemma values_ind : (forall v, P v) /\ (forall w, Q w) /\ (forall a, R a).
  Proof using HBits HBytes HDel HFmt HList HNum HPrim HSlice HText HTxt HVar HWrite HWrites.
    exact (conj rval_rec' (conj wcall_rec' aval_rec')).
  Qed.
End Ind.

(* ------------------------------------------------------------------ *)
(** * Types *)

Lemma never_iff : forall t, never t <-> strip t = RLibEnum [].
Proof.
  intros t. split.
  - induction 1; cbn [strip]; auto.
  - induction t; cbn [strip]; intros H; try discriminate; try (constructor; auto; fail).
    rewrite H. constructor.
Qed.

Lemma derived_iff : forall t, derived t <-> delegate_panics t = true.
Proof.
  intros t. unfold delegate_panics. split.
  - induction 1; cbn [strip]; auto.
  - induction t; cbn [strip]; intros H; try discriminate; try (constructor; auto; fail).
Qed.

Lemma in_data_strip : forall t v i, in_data (strip t) v i -> in_data t v i.
Proof. induction t; cbn [strip]; intros v i H; auto; constructor; auto. Qed.

Lemma arg_is_iff : forall s frags n x, parse s Strict = Ok frags -> is_bitfield x = false ->
  (arg_is s n x <-> first_ty (frag_parameters frags) (Z.of_nat n) = Some x).
Proof.
  intros s frags n x H B.
  assert (IN : forall p, In p (frag_parameters frags) <-> In (FParam p) frags).
  { intros p. unfold frag_parameters. rewrite in_flat_map. split.
    - intros (f & H1 & H2). destruct f; cbn [In] in H2; [contradiction || (destruct H2 as [<-|[]]; auto)|contradiction || (destruct H2 as [<-|[]]; auto)].
    - intros H1. exists (FParam p). split; auto. left. reflexivity. }
  assert (FI : forall ps i y, first_ty ps i = Some y -> exists p, In p ps /\ p_index p = i /\ p_ty p = y).
  { induction ps as [|q ps IH]; intros i y E; cbn [first_ty] in E; [discriminate|].
    destruct (Z.eqb_spec (p_index q) i).
    - exists q. split; [left; auto|]. split; congruence.
    - destruct (IH _ _ E) as (p & A1 & A2 & A3). exists p. split; [right|]; auto. }
  assert (FE : forall ps i p, In p ps -> p_index p = i -> first_ty ps i <> None).
  { induction ps as [|q ps IH]; intros i p A E; [destruct A|].
    cbn [first_ty]. destruct (Z.eqb_spec (p_index q) i); [congruence|].
    destruct A as [->|A]; [congruence|]. eauto. }
  destruct (parse_parsed_ok _ _ _ H) as (k & PO). rewrite <- frag_parameters_frag in PO.
  split.
  - intros (frags' & p & E & I & X & T). rewrite H in E. injection E as <-.
    destruct (first_ty (frag_parameters frags) (Z.of_nat n)) as [y|] eqn:F.
    + destruct (FI _ _ _ F) as (q & Q1 & Q2 & Q3).
      assert (C : compatible (p_ty p) (p_ty q)).
      { apply (po_types _ _ PO).
        - apply IN; exact I.
        - exact Q1.
        - congruence. }
      destruct C as [C|[C _]]; [congruence|]. rewrite T in C. congruence.
    + exfalso. apply (FE _ _ _ (proj2 (IN p) I) X F).
  - intros F. destruct (FI _ _ _ F) as (p & Q1 & Q2 & Q3). exists frags, p.
    repeat split; auto. apply IN; auto.
Qed.

Section Device.
  Context (addr : bytes -> Z).

  Lemma run_tag_none : forall t, run_tag addr t = None <-> never t.
  Proof.
    intros t. rewrite never_iff. unfold run_tag. destruct (strip t); split; intros H; try discriminate.
    - destruct alts; congruence.
    - injection H as ->. reflexivity.
  Qed.

  Definition hits (f : item -> Prop) : Prop := exists i, f i /\ bad i.

  Definition P v := forall t, run_data addr t v = None -> hits (in_data t v).
  Definition Q w := run_call addr w = None -> hits (in_call w).
  Definition R a := forall s frags n, parse s Strict = Ok frags ->
    run_arg addr (frag_parameters frags) (Z.of_nat n) a = None -> hits (in_arg s n a).

  Lemma value_hits : forall t v, P v -> seq (run_tag addr t) (run_data addr t v) = None -> hits (in_value t v).
  Proof.
    intros t v H E. apply seq_none in E as [E|E].
    - apply run_tag_none in E. exists (ITag t). split; constructor; auto.
    - destruct (H _ E) as (i & A & B). exists i. split; auto. constructor. auto.
  Qed.

  Lemma elements_hit : forall t vs, Forall P vs ->
    seq (run_tag addr t) (seqs (map (run_data addr t) vs)) = None -> hits (in_elements t vs).
  Proof.
    intros t vs H E. apply seq_none in E as [E|E].
    - apply run_tag_none in E. exists (ITag t). split; constructor; auto.
    - apply seqs_none, in_map_none in E as (v & I & E).
      rewrite Forall_forall in H. destruct (H v I _ E) as (i & A & B). exists i. split; auto.
      econstructor; eauto.
  Qed.

  Lemma nth_forall : forall {A} (X : A -> Prop) l n x, Forall X l -> nth_error l n = Some x -> X x.
  Proof. intros A X l n x H E. rewrite Forall_forall in H. apply H. eapply nth_error_In; eauto. Qed.

  Definition run_field (f : field) (v' : rval) : option bytes :=
    let '(_, a, t') := f in
    match a with
    | Some ADebug2 => seq (Some (put_istr addr debug_tag)) (run_data addr RDebug v')
    | Some ADisplay2 => seq (Some (put_istr addr display_tag)) (run_data addr RDisplay v')
    | None =>
        match as_native t' with
        | Some p => Some (put_prim addr p v')
        | None => seq (run_tag addr t') (run_data addr t' v')
        end
    end.

  Lemma text_ok : forall v, run_data addr RDebug v <> None /\ run_data addr RDisplay v <> None.
  Proof. intros []; split; discriminate. Qed.

  Lemma field_hits : forall x a t v, P v -> run_field (x, a, t) v = None ->
    a = None /\ as_native t = None /\ hits (in_value t v).
  Proof.
    intros x a t v H E. unfold run_field in E. destruct (text_ok v) as [D1 D2].
    destruct a as [[]|].
    - apply seq_none in E as [E|E]; [discriminate|contradiction].
    - apply seq_none in E as [E|E]; [discriminate|contradiction].
    - destruct (as_native t); [discriminate|]. repeat split. apply value_hits; auto.
  Qed.

  Lemma fields_hit : forall fs vs, Forall P vs -> seqs (map2 run_field fs vs) = None ->
    exists n x t v, nth_error fs n = Some (x, None, t) /\ nth_error vs n = Some v /\
      as_native t = None /\ hits (in_value t v).
  Proof.
    intros fs vs H E. apply seqs_none, in_map2 in E as (n & [[x a] t] & v & E1 & E2 & E3).
    apply field_hits in E3 as (-> & E4 & E5); [|eapply nth_forall; eauto].
    exists n, x, t, v. auto.
  Qed.

  Lemma hits_lift : forall (f g : item -> Prop), (forall i, f i -> g i) -> hits f -> hits g.
  Proof. intros f g H (i & A & B). exists i. auto. Qed.

  Lemma run_list : forall t vs, Forall P vs -> run_data addr t (VList vs) = None -> hits (in_data t (VList vs)).
  Proof.
    intros t vs H E. apply (hits_lift _ _ (in_data_strip t (VList vs))).
    cbn [run_data] in E. destruct (strip t) eqn:S; try discriminate.
    - apply seq_none in E as [E|E]; [discriminate|].
      apply elements_hit in E; auto. apply (hits_lift _ _ (ID_slice _ _) E).
    - apply (hits_lift _ _ (ID_array _ _ _)). apply elements_hit; auto.
      destruct (listed_length n); auto. apply seq_none in E as [E|E]; [discriminate|auto].
    - apply seqs_none, in_map2 in E as (n & t' & v & E1 & E2 & E3).
      apply value_hits in E3; [|eapply nth_forall; eauto].
      eapply hits_lift; [|exact E3]. intros i Hi. econstructor; eauto.
    - apply (fields_hit _ _ H) in E as (n & x & t' & v & E1 & E2 & E3 & E4).
      eapply hits_lift; [|exact E4]. intros i Hi. econstructor; eauto.
  Qed.

  Lemma run_var : forall t k vs, Forall P vs -> run_data addr t (VVar k vs) = None -> hits (in_data t (VVar k vs)).
  Proof.
    intros t k vs H E. apply (hits_lift _ _ (in_data_strip t (VVar k vs))).
    cbn [run_data] in E. destruct (strip t) eqn:S; try discriminate.
    - apply seq_none in E as [E|E]; [discriminate|].
      apply seqs_none, in_map2 in E as (n & t' & v & E1 & E2 & E3).
      destruct (nth_error alts k) as [[s ts]|] eqn:K; [|destruct n; discriminate].
      apply value_hits in E3; [|eapply nth_forall; eauto].
      eapply hits_lift; [|exact E3]. intros i Hi. econstructor; eauto.
    - apply seq_none in E as [E|E]; [discriminate|].
      apply (fields_hit _ _ H) in E as (n & x & t' & v & E1 & E2 & E3 & E4).
      destruct (nth_error vs0 k) as [[[nm kd] fs]|] eqn:K; [|destruct n; discriminate].
      eapply hits_lift; [|exact E4]. intros i Hi. econstructor; eauto.
  Qed.

  Lemma calls_hit : forall ws, Forall Q ws -> seqs (map (run_call addr) ws) = None ->
    exists w, In w ws /\ hits (in_call w).
  Proof.
    intros ws H E. apply seqs_none, in_map_none in E as (w & I & E).
    rewrite Forall_forall in H. exists w. split; auto. apply (H w I E).
  Qed.

  Lemma args_hit : forall s frags args, parse s Strict = Ok frags -> Forall R args ->
    seqs (mapi (run_arg addr (frag_parameters frags)) 0 args) = None ->
    exists n a, nth_error args n = Some a /\ hits (in_arg s n a).
  Proof.
    intros s frags args PS H E. apply seqs_none, in_mapi in E as (n & a & E1 & E2).
    exists n, a. split; auto. rewrite Z.add_0_l in E2. eapply (nth_forall R); eauto.
  Qed.

  Lemma panic_hits : (forall v, P v) /\ (forall w, Q w) /\ (forall a, R a).
  Proof.
    apply values_ind; unfold P, Q, R.
    - intros x t E. exfalso. cbn [run_data] in E. destruct (strip t); discriminate.
    - intros x t E. exfalso. cbn [run_data] in E. destruct (strip t); discriminate.
    - intros vs H t E. apply run_list; auto.
    - intros k vs H t E. apply run_var; auto.
    - intros ws H t E. apply (hits_lift _ _ (in_data_strip t (VWrites ws))).
      cbn [run_data] in E. destruct (strip t) eqn:S; try discriminate.
      + apply seq_none in E as [E|E]; [|discriminate].
        destruct (calls_hit ws H E) as (w & I & J). eapply hits_lift; [|exact J].
        intros i Hi. econstructor; eauto.
    - intros s args H E. cbn [run_call] in E. destruct (parse s Strict) as [frags| | |] eqn:PS; try discriminate.
      apply seq_none in E as [E|E]; [discriminate|].
      destruct (args_hit s frags args PS H E) as (n & a & A1 & A2).
      eapply hits_lift; [|exact A2]. intros i Hi. econstructor; eauto.
    - intros t v H E.
      assert (W : strip t <> RManual -> hits (in_call (SDelegate t v))).
      { intros M.
        assert (E' : (if delegate_panics t then None else seq (run_tag addr t) (run_data addr t v)) = None).
        { cbn [run_call] in E. destruct (strip t); try contradiction; exact E. }
        clear E. destruct (delegate_panics t) eqn:D.
        - apply derived_iff in D. exists (ICall t). split; constructor; auto.
        - apply value_hits in E'; auto. eapply hits_lift; [|exact E']. intros i Hi. apply IC_value; auto. }
      destruct (strip t) eqn:M; try (apply W; discriminate).
      cbn [run_call] in E. rewrite M in E.
      assert (D : delegate_panics t = false) by (unfold delegate_panics; rewrite M; reflexivity).
      assert (T : run_tag addr t = Some (put_istr addr (format_tag t))) by (unfold run_tag; rewrite M; reflexivity).
      destruct v; try (exfalso; rewrite D, T in E; cbn [run_data] in E; rewrite M in E; discriminate).
      assert (E' : run_data addr RManual (VWrites ws) = None).
      { change (seq (seqs (map (run_call addr) ws)) (Some (le_bytes 2 0)) = None). apply seq_none. left. exact E. }
      destruct (H RManual E') as (i & A & B). inversion A; subst.
      exists i. split; auto. econstructor; eauto.
    - intros v s frags n _ E. exfalso. cbn [run_arg] in E.
      destruct (first_ty _ _) as [[]|]; discriminate.
    - intros t v H s frags n PS E. cbn [run_arg] in E.
      destruct (first_ty _ _) as [[]|] eqn:F; try discriminate.
      apply value_hits in E; auto. eapply hits_lift; [|exact E]. intros i Hi. constructor; auto.
      apply (arg_is_iff s frags n TFormat PS); auto.
    - intros t vs H s frags n PS E. cbn [run_arg] in E.
      destruct (first_ty _ _) as [[]|] eqn:F; try discriminate.
      + apply elements_hit in E; auto. eapply hits_lift; [|exact E]. intros i Hi. eapply IA_array; eauto.
        apply (arg_is_iff s frags n (TFormatArray len) PS); auto.
      + apply seq_none in E as [E|E]; [discriminate|].
        apply elements_hit in E; auto. eapply hits_lift; [|exact E]. intros i Hi. apply IA_slice; auto.
        apply (arg_is_iff s frags n TFormatSlice PS); auto.
    - intros t s frags n _ E. exfalso. cbn [run_arg] in E.
      destruct (first_ty _ _) as [[]|]; discriminate.
    - intros t s frags n _ E. exfalso. cbn [run_arg] in E.
      destruct (first_ty _ _) as [[]|]; discriminate.
    - intros w x s frags n _ E. exfalso. cbn [run_arg] in E.
      destruct (first_ty _ _) as [[]|]; try discriminate.
      destruct (get_max_bitfield_range _) as [[[]|]|]; discriminate.
  Qed.

  (* ---------------------------------------------------------------- *)
  (** The converse. *)

  Scheme in_data_i := Minimality for in_data Sort Prop
    with in_value_i := Minimality for in_value Sort Prop
    with in_elements_i := Minimality for in_elements Sort Prop
    with in_call_i := Minimality for in_call Sort Prop
    with in_arg_i := Minimality for in_arg Sort Prop.
  Combined Scheme in_all_i from in_data_i, in_value_i, in_elements_i, in_call_i, in_arg_i.

  Lemma run_ref : forall t v, run_data addr (RRef t) v = run_data addr t v.
  Proof. intros t []; reflexivity. Qed.

  Lemma run_opaque : forall t v, run_data addr (ROpaque t) v = run_data addr t v.
  Proof. intros t []; reflexivity. Qed.

  Lemma seqs_nth : forall {A B} (f : A -> B -> option bytes) l m n a b,
    nth_error l n = Some a -> nth_error m n = Some b -> f a b = None -> seqs (map2 f l m) = None.
  Proof. intros. apply seqs_none, in_map2. eauto 6. Qed.

  Lemma hits_panic :
    (forall t v i, in_data t v i -> bad i -> run_data addr t v = None) /\
    (forall t v i, in_value t v i -> bad i -> seq (run_tag addr t) (run_data addr t v) = None) /\
    (forall t vs i, in_elements t vs i -> bad i -> seq (run_tag addr t) (seqs (map (run_data addr t) vs)) = None) /\
    (forall w i, in_call w i -> bad i -> run_call addr w = None) /\
    (forall s n a i, in_arg s n a i -> bad i -> exists frags, parse s Strict = Ok frags /\
       run_arg addr (frag_parameters frags) (Z.of_nat n) a = None).
  Proof.
    apply in_all_i.
    - intros t v i _ IH B. rewrite run_ref. auto.
    - intros t v i _ IH B. rewrite run_opaque. auto.
    - intros t vs i _ IH B. cbn [run_data strip]. apply seq_none. auto.
    - intros n t vs i _ IH B. cbn [run_data strip]. destruct (listed_length n); auto. apply seq_none. auto.
    - intros s ts vs n t v i E1 E2 _ IH B. cbn [run_data strip]. eapply seqs_nth; eauto.
    - intros alts k s ts vs n t v i E0 E1 E2 _ IH B. cbn [run_data strip]. rewrite E0.
      apply seq_none. right. eapply seqs_nth; eauto.
    - intros ws w i I _ IH B. cbn [run_data strip]. apply seq_none. left. apply seqs_none, in_map_none. eauto.
    - intros name k fs vs n x t v i E1 E2 E3 _ IH B. cbn [run_data strip]. eapply seqs_nth; eauto.
      cbv beta iota. rewrite E3. auto.
    - intros variants j name k fs vs n x t v i E0 E1 E2 E3 _ IH B. cbn [run_data strip]. rewrite E0.
      apply seq_none. right. eapply seqs_nth; eauto. cbv beta iota. rewrite E3. auto.
    - intros t v B. inversion B; subst. apply seq_none. left. apply run_tag_none. auto.
    - intros t v i _ IH B. apply seq_none. auto.
    - intros t vs B. inversion B; subst. apply seq_none. left. apply run_tag_none. auto.
    - intros t vs v i I _ IH B. apply seq_none. right. apply seqs_none, in_map_none. eauto.
    - intros s args n a i E1 _ IH B. destruct (IH B) as (frags & F1 & F2). cbn [run_call]. rewrite F1.
      apply seq_none. right. apply seqs_none, in_mapi. exists n, a. split; auto.
    - intros t v B. inversion B; subst. apply derived_iff in H0. cbn [run_call]. rewrite H0.
      unfold delegate_panics in H0. destruct (strip t); try discriminate; reflexivity.
    - intros t ws w i M I _ IH B. cbn [run_call]. rewrite M. apply seqs_none, in_map_none. eauto.
    - intros t v i M _ IH B. specialize (IH B).
      change (match strip t, v with
        | RManual, VWrites ws => seqs (map (run_call addr) ws)
        | _, _ => if delegate_panics t then None else seq (run_tag addr t) (run_data addr t v) end = None).
      rewrite IH. destruct (strip t); try contradiction; destruct (delegate_panics t); reflexivity.
    - intros s n t v i A _ IH B. pose proof A as (frags & p & F & _). exists frags. split; auto.
      apply (arg_is_iff s frags n TFormat F) in A; auto. cbn [run_arg]. rewrite A. auto.
    - intros s n t vs i A _ IH B. pose proof A as (frags & p & F & _). exists frags. split; auto.
      apply (arg_is_iff s frags n TFormatSlice F) in A; auto. cbn [run_arg]. rewrite A. apply seq_none. auto.
    - intros s n m t vs i A _ IH B. pose proof A as (frags & p & F & _). exists frags. split; auto.
      apply (arg_is_iff s frags n (TFormatArray m) F) in A; auto. cbn [run_arg]. rewrite A. auto.
  Qed.

  Lemma args_panic : forall s args, run_args addr s args = None <->
    exists n a i, nth_error args n = Some a /\ in_arg s n a i /\ bad i.
  Proof.
    intros s args. unfold run_args. split.
    - intros E. destruct (parse s Strict) as [frags| | |] eqn:PS; try discriminate.
      destruct (args_hit s frags args PS) as (n & a & A & i & B & C); auto.
      + rewrite Forall_forall. intros a _. apply panic_hits.
      + exists n, a, i. auto.
    - intros (n & a & i & A & B & C).
      destruct (proj2 (proj2 (proj2 (proj2 hits_panic))) s n a i B C) as (frags & F1 & F2).
      rewrite F1. apply seqs_none, in_mapi. exists n, a. auto.
  Qed.

  Lemma frame_panic : forall index ts ts_args s args,
    run_frame addr index ts ts_args s args = None <->
    exists i, in_frame ts ts_args s args i /\ bad i.
  Proof.
    intros index ts ts_args s args. unfold run_frame. rewrite !seq_none. split.
    - intros [E|[E|E]]; [discriminate| |].
      + destruct ts as [s'|]; [|discriminate]. apply args_panic in E as (n & a & i & A & B & C).
        exists i. split; auto. eapply IF_ts; eauto.
      + apply args_panic in E as (n & a & i & A & B & C). exists i. split; auto. eapply IF_arg; eauto.
    - intros (i & [n a A B|s' n a -> A B] & C); right.
      + right. apply args_panic. eauto 6.
      + left. apply args_panic. eauto 6.
  Qed.

  (* ---------------------------------------------------------------- *)
  (** Without a panic the bytes are those of [EncodeModel]. *)

  Lemma seqs_some : forall {A} (f : A -> option bytes) (g : A -> bytes) l b,
    (forall x, In x l -> forall c, f x = Some c -> c = g x) ->
    seqs (map f l) = Some b -> b = concat (map g l).
  Proof.
    intros A f g l. induction l as [|x l IH]; intros b H E; cbn [map seqs concat] in *; [congruence|].
    apply seq_some in E as (a & c & E1 & E2 & ->). f_equal.
    - apply (H x); [left; auto|auto].
    - apply IH; auto. intros y I. apply H. right. auto.
  Qed.

  Lemma seqs_some2 : forall {A B} (f : A -> B -> option bytes) (g : A -> B -> bytes) m l b,
    (forall x y, In y m -> forall c, f x y = Some c -> c = g x y) ->
    seqs (map2 f l m) = Some b -> b = concat (map2 g l m).
  Proof.
    intros A B f g m. induction m as [|y m IH]; intros l b H E; destruct l as [|x l]; cbn [map2 seqs concat] in *;
      try congruence.
    apply seq_some in E as (a & c & E1 & E2 & ->). f_equal.
    - apply (H x y); [left; auto|auto].
    - apply IH; auto. intros x' y' I. apply H. right. auto.
  Qed.

  Lemma seqs_somei : forall {B} (f : Z -> B -> option bytes) (g : Z -> B -> bytes) m i b,
    (forall j y, In y m -> forall c, f j y = Some c -> c = g j y) ->
    seqs (mapi f i m) = Some b -> b = concat (mapi g i m).
  Proof.
    intros B f g m. induction m as [|y m IH]; intros i b H E; cbn [mapi seqs concat] in *; try congruence.
    apply seq_some in E as (a & c & E1 & E2 & ->). f_equal.
    - apply (H i y); [left; auto|auto].
    - apply IH; auto. intros j' y' I. apply H. right. auto.
  Qed.

  Lemma run_tag_some : forall t b, run_tag addr t = Some b -> b = put_istr addr (format_tag t).
  Proof. unfold run_tag. intros t b H. destruct (strip t); try congruence. destruct alts; congruence. Qed.

  Lemma value_some : forall t v b, (forall c, run_data addr t v = Some c -> c = format_data addr t v) ->
    seq (run_tag addr t) (run_data addr t v) = Some b -> b = put_istr addr (format_tag t) ++ format_data addr t v.
  Proof.
    intros t v b H E. apply seq_some in E as (a & c & E1 & E2 & ->).
    apply run_tag_some in E1. apply H in E2. congruence.
  Qed.

  Lemma elements_some : forall t vs b, (forall v, In v vs -> forall c, run_data addr t v = Some c -> c = format_data addr t v) ->
    seq (run_tag addr t) (seqs (map (run_data addr t) vs)) = Some b ->
    b = put_istr addr (format_tag t) ++ concat (map (format_data addr t) vs).
  Proof.
    intros t vs b H E. apply seq_some in E as (a & c & E1 & E2 & ->).
    apply run_tag_some in E1. apply (seqs_some _ (format_data addr t)) in E2; auto. congruence.
  Qed.

  Lemma seq_some_l : forall a y b, seq (Some a) y = Some b -> exists c, y = Some c /\ b = a ++ c.
  Proof. intros a y b H. apply seq_some in H as (x & c & E1 & E2 & ->). injection E1 as <-. eauto. Qed.

  Definition put_field (f : field) (v' : rval) : bytes :=
    let '(_, a, t') := f in
    match a with
    | Some ADebug2 => put_istr addr debug_tag ++ format_data addr RDebug v'
    | Some ADisplay2 => put_istr addr display_tag ++ format_data addr RDisplay v'
    | None =>
        match as_native t' with
        | Some p => put_prim addr p v'
        | None => put_istr addr (format_tag t') ++ format_data addr t' v'
        end
    end.

  Definition P' v := forall t b, run_data addr t v = Some b -> b = format_data addr t v.
  Definition Q' w := forall b, run_call addr w = Some b -> b = write_call addr w.
  Definition R' a := forall ps i b, run_arg addr ps i a = Some b -> b = encode_arg addr ps i a.

  Lemma text_some : forall v b, (run_data addr RDebug v = Some b -> b = format_data addr RDebug v) /\
    (run_data addr RDisplay v = Some b -> b = format_data addr RDisplay v).
  Proof. intros [] b; split; cbn [run_data format_data strip]; congruence. Qed.

  Lemma field_some : forall f v b, P' v -> run_field f v = Some b -> b = put_field f v.
  Proof.
    intros [[x a] t] v b H E. unfold run_field, put_field in *. destruct a as [[]|].
    - apply seq_some_l in E as (c & E & ->). f_equal. apply (text_some v c). auto.
    - apply seq_some_l in E as (c & E & ->). f_equal. apply (text_some v c). auto.
    - destruct (as_native t); [congruence|]. apply value_some in E; auto. 
  Qed.

  Lemma fields_some : forall fs vs b, Forall P' vs -> seqs (map2 run_field fs vs) = Some b ->
    b = concat (map2 put_field fs vs).
  Proof.
    intros fs vs b H E. eapply seqs_some2; [|exact E]. intros f v I c. apply field_some.
    rewrite Forall_forall in H. auto.
  Qed.

  Lemma run_delegate : forall t v, strip t <> RManual ->
    run_call addr (SDelegate t v) = (if delegate_panics t then None else seq (run_tag addr t) (run_data addr t v)) /\
    write_call addr (SDelegate t v) = put_istr addr (format_tag t) ++ format_data addr t v.
  Proof.
    intros t v M. split.
    - change (run_call addr (SDelegate t v)) with (match strip t, v with
        | RManual, VWrites ws => seqs (map (run_call addr) ws)
        | _, _ => if delegate_panics t then None else seq (run_tag addr t) (run_data addr t v) end).
      destruct (strip t); try reflexivity. contradiction.
    - change (write_call addr (SDelegate t v)) with (match strip t, v with
        | RManual, VWrites ws => concat (map (write_call addr) ws)
        | _, _ => put_istr addr (format_tag t) ++ format_data addr t v end).
      destruct (strip t); try reflexivity. contradiction.
  Qed.

  Lemma some_bytes : (forall v, P' v) /\ (forall w, Q' w) /\ (forall a, R' a).
  Proof.
    apply values_ind; unfold P', Q', R'.
    - intros x t b E. cbn [run_data format_data] in *. destruct (strip t); congruence.
    - intros x t b E. cbn [run_data format_data] in *. destruct (strip t); congruence.
    - intros vs H t b E. cbn [run_data format_data] in *. destruct (strip t); try congruence.
      + apply seq_some_l in E as (c & E & ->). f_equal. apply elements_some in E; auto.
        rewrite Forall_forall in H. intros v I. apply (H v I).
      + rewrite Forall_forall in H. destruct (listed_length n).
        * apply elements_some in E; auto. all: intros v I; apply (H v I).
        * apply seq_some_l in E as (c & E & ->). f_equal. apply elements_some in E; auto.
      + eapply seqs_some2; [|exact E]. cbv beta. intros t' v I c. apply value_some.
        rewrite Forall_forall in H. apply (H v I).
      + apply (fields_some _ _ _ H E).
    - intros k vs H t b E. cbn [run_data format_data] in *. destruct (strip t); try congruence.
      + apply seq_some_l in E as (c & E & ->). f_equal.
        eapply seqs_some2; [|exact E]. cbv beta. intros t' v I c'. apply value_some.
        rewrite Forall_forall in H. apply (H v I).
      + apply seq_some_l in E as (c & E & ->). f_equal. apply (fields_some _ _ _ H E).
    - intros ws H t b E. cbn [run_data format_data] in *. destruct (strip t); try congruence.
      apply seq_some in E as (a & c & E & E2 & ->). injection E2 as <-. f_equal.
      eapply seqs_some; [|exact E]. rewrite Forall_forall in H. auto.
    - intros s args H b E. cbn [run_call write_call] in *. destruct (parse s Strict); try congruence.
      apply seq_some_l in E as (c & E & ->). f_equal. eapply seqs_somei; [|exact E].
      rewrite Forall_forall in H. intros j y I c'. apply (H y I).
    - intros t v H b E.
      assert (W : strip t <> RManual -> b = write_call addr (SDelegate t v)).
      { intros M.
        destruct (run_delegate t v M) as [D1 D2]. rewrite D1 in E. rewrite D2.
        destruct (delegate_panics t); [discriminate|]. apply value_some in E; auto. }
      destruct (strip t) eqn:M; try (apply W; discriminate).
      assert (D : delegate_panics t = false) by (unfold delegate_panics; rewrite M; reflexivity).
      change (match strip t, v with
        | RManual, VWrites ws => seqs (map (run_call addr) ws)
        | _, _ => if delegate_panics t then None else seq (run_tag addr t) (run_data addr t v) end = Some b) in E.
      change (b = match strip t, v with
        | RManual, VWrites ws => concat (map (write_call addr) ws)
        | _, _ => put_istr addr (format_tag t) ++ format_data addr t v end).
      rewrite M, D in *. specialize (fun c => value_some t v c (H t)). intros VS.
      destruct v; try (apply VS; exact E).
      assert (X : run_data addr RManual (VWrites ws) = Some (b ++ le_bytes 2 0)).
      { change (seq (seqs (map (run_call addr) ws)) (Some (le_bytes 2 0)) = Some (b ++ le_bytes 2 0)).
        rewrite E. reflexivity. }
      apply H in X. change (b ++ le_bytes 2 0 = concat (map (write_call addr) ws) ++ le_bytes 2 0) in X.
      apply app_inv_tail in X. exact X.
    - intros v ps i b E. cbn [run_arg encode_arg] in *.
      destruct (first_ty ps i) as [[]|]; cbn [prim_of_ty] in *; congruence.
    - intros t v H ps i b E. cbn [run_arg encode_arg] in *.
      destruct (first_ty ps i) as [[]|]; try congruence. apply value_some in E; auto.
    - intros t vs H ps i b E. cbn [run_arg encode_arg] in *. rewrite Forall_forall in H.
      destruct (first_ty ps i) as [[]|]; try congruence.
      + apply elements_some in E; auto.
      + apply seq_some_l in E as (c & E & ->). f_equal. apply elements_some in E; auto.
    - intros s ps i b E. cbn [run_arg encode_arg] in *. destruct (first_ty ps i) as [[]|]; congruence.
    - intros s ps i b E. cbn [run_arg encode_arg] in *. destruct (first_ty ps i) as [[]|]; congruence.
    - intros w x ps i b E. cbn [run_arg encode_arg] in *. destruct (first_ty ps i) as [[]|]; try congruence.
      destruct (get_max_bitfield_range _) as [[[]|]|]; congruence.
  Qed.

  Lemma args_some : forall s args b, run_args addr s args = Some b -> b = macro_args addr s args.
  Proof.
    intros s args b E. unfold run_args, macro_args, encode_args in *.
    destruct (parse s Strict); try congruence.
    eapply seqs_somei; [|exact E]. intros j y I c. apply some_bytes.
  Qed.

  Lemma frame_some : forall index ts ts_args s args b,
    run_frame addr index ts ts_args s args = Some b -> b = encode_frame addr index ts ts_args s args.
  Proof.
    intros index ts ts_args s args b E. unfold run_frame, encode_frame in *.
    apply seq_some_l in E as (c & E & ->). apply seq_some in E as (a & d & E1 & E2 & ->).
    apply args_some in E2. f_equal. f_equal; auto.
    destruct ts; [apply args_some; auto|congruence].
  Qed.

  Lemma frame_quiet : forall index ts ts_args s args,
    (forall i, in_frame ts ts_args s args i -> ~ bad i) ->
    run_frame addr index ts ts_args s args = Some (encode_frame addr index ts ts_args s args).
  Proof.
    intros index ts ts_args s args H.
    destruct (run_frame addr index ts ts_args s args) eqn:E.
    - apply frame_some in E. congruence.
    - apply frame_panic in E as (i & A & B). destruct (H i A B).
  Qed.
End Device.
