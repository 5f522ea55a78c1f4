(** The host shows exactly the text described in [TextSpec.v] (C50). *)
From Verif Require Import Base Utf8 ParserModel ParserProofs ParserMore FormatSpec RenderProofs DecoderModel
  DecoderProofs PrepareProofs Numerals EncodeModel EncodeSpec EncodeProofs DeriveProofs EncodeMain EncodeTop
  DisplayModel DisplayProofs DisplayTotal TextSpec.

(* ------------------------------------------------------------------ *)
(** * Lists of texts *)

Lemma join_texts_some : forall l s, join_texts l = Some s <->
  exists ss, l = map Some ss /\ s = join_text (lit ", ") ss.
Proof.
  induction l as [|t l IH]; intros s.
  - cbn [join_texts]. split; [intros H; injection H as <-; exists []; auto|].
    intros ([|? ?] & E & ->); [reflexivity|discriminate].
  - destruct l as [|u l].
    + cbn [join_texts]. split.
      * intros ->. exists [s]. auto.
      * intros ([|a [|b ss]] & E & ->); try discriminate. injection E as ->. reflexivity.
    + change (join_texts (t :: u :: l)) with
        (match t, join_texts (u :: l) with Some a, Some b => Some (a ++ lit ", " ++ b) | _, _ => None end).
      split.
      * intros H. destruct t as [a|]; [|discriminate]. destruct (join_texts (u :: l)) as [b|] eqn:J; [|discriminate].
        destruct (proj1 (IH b) eq_refl) as (ss & E & ->). injection H as <-. exists (a :: ss). rewrite E. split; [reflexivity|].
        destruct ss; [discriminate|]. reflexivity.
      * intros ([|a [|b ss]] & E & ->); try discriminate. injection E as -> -> E.
        rewrite (proj2 (IH (join_text (lit ", ") (b :: ss)))); [reflexivity|].
        exists (b :: ss). rewrite E. auto.
Qed.

Lemma concat_one : forall t, concat_text [t] = t.
Proof. intros [s|]; cbn; [now rewrite app_nil_r|reflexivity]. Qed.

Lemma map2_length : forall A B C (f : A -> B -> C) l m, length l = length m -> length (map2 f l m) = length m.
Proof. intros A B C f l m. revert l. induction m as [|b m IH]; intros [|a l] H; cbn in *; auto; discriminate. Qed.

(* ------------------------------------------------------------------ *)
(** * Wire types and parameters *)

(** Parameter type [y] belongs to an argument of wire type [x]. *)
Definition compat (x y : ty) : Prop :=
  (is_bitfield x = false /\ y = x) \/
  exists lo hi a b, x = TBitField lo hi /\ y = TBitField a b /\ lo <= a /\ a < b /\ b <= hi.

Lemma compat_params : forall f m tys frags p, arg_types f m tys -> parse f m = Ok frags -> In (FParam p) frags ->
  exists t, nth_error tys (Z.to_nat (p_index p)) = Some t /\ compat t (p_ty p).
Proof.
  intros f m tys frags p (frags' & E' & R & W) E I. rewrite E in E'. injection E' as <-.
  assert (Hp : In p (frag_parameters frags)).
  { rewrite frag_parameters_frag, <- params_of_frag. now apply params_of_in. }
  destruct (parse_parsed_ok _ _ _ E) as (n & PO). rewrite <- frag_parameters_frag in PO.
  pose proof (po_range _ _ PO p Hp) as Ri. specialize (R p Hp).
  destruct (nth_error tys (Z.to_nat (p_index p))) as [t|] eqn:N; [|apply nth_error_None in N; lia].
  exists t. split; auto. specialize (W _ _ N). rewrite Z2Nat.id in W by lia.
  destruct W as [(B & q & Hq & Ei & Et)|(lo & hi & -> & C1 & C2 & C)].
  - left. split; auto.
    destruct (po_types _ _ PO p q Hp Hq (eq_sym Ei)) as [TT|[_ TT]]; congruence.
  - destruct C1 as (q & hi' & Hq & Ei & Et).
    assert (Bp : exists a b, p_ty p = TBitField a b).
    { destruct (po_types _ _ PO p q Hp Hq (eq_sym Ei)) as [TT|[TT _]]; [rewrite TT; eauto|].
      destruct (p_ty p); try discriminate. eauto. }
    destruct Bp as (a & b & Ep). right. exists lo, hi, a, b.
    destruct (C p a b Hp eq_refl Ep). pose proof (po_valid _ _ PO p Hp) as V. rewrite Ep in V. cbn in V.
    repeat split; auto; lia.
Qed.

Lemma implicit_parse : forall m l tys, items_ok m l -> implicit_items l tys ->
  Z.of_nat (length tys) <= usize_max -> parse (show_items l) m = Ok (meaning 0 l).
Proof.
  intros m l tys W I L.
  assert (R : forall p, In p (frag_params (meaning 0 l)) -> exists k x, nth_error tys k = Some x /\
    p_index p = Z.of_nat k /\ p_ty p = x).
  { intros p Hp. apply (implicit_meaning _ _ I) in Hp as (k & h & x & N & -> & _). exists k, x. auto. }
  apply parse_show_items; auto.
  - exists (Z.of_nat (length tys)). split; [lia|]. split; [|split].
    + intros p Hp. destruct (R p Hp) as (k & x & N & -> & _).
      assert (k < length tys)%nat by (apply nth_error_Some; congruence). lia.
    + intros i Hi. destruct (nth_error tys (Z.to_nat i)) as [x|] eqn:E.
      * destruct (implicit_covers _ _ I 0 _ _ E) as [h Hh]. eexists. split; [exact Hh|]. cbn [p_index]. lia.
      * apply nth_error_None in E. lia.
    + intros p q Hp Hq E. left. destruct (R p Hp) as (k & x & N & E1 & ->). destruct (R q Hq) as (k' & x' & N' & E1' & ->).
      assert (k = k') by lia. congruence.
  - intros p Hp. destruct (R p Hp) as (k & x & N & -> & _).
    assert (k < length tys)%nat by (apply nth_error_Some; congruence). lia.
Qed.

Lemma show_single : forall x g h, show_ty_ok x -> is_bitfield x = false ->
  show_format (lit "{=" ++ show_ty x ++ lit "}") [g] h = g (MkParameter 0 x None) h.
Proof.
  intros x g h H B.
  assert (E : parse (lit "{=" ++ show_ty x ++ lit "}") ForwardsCompatible = Ok [FParam (MkParameter 0 x None)]).
  { replace (lit "{=" ++ show_ty x ++ lit "}") with (show_items [IParam None (Some x) None]).
    - apply (implicit_parse ForwardsCompatible [IParam None (Some x) None] [x]); cbn; auto using II_param, II_nil.
      unfold usize_max. lia.
    - unfold show_items, show_item, show_param. cbn [map concat]. rewrite !app_nil_r.
      change (lit "{=") with (lit "{" ++ lit "="). rewrite <- !app_assoc. reflexivity. }
  unfold show_format. rewrite E. cbn [map]. rewrite concat_one. reflexivity.
Qed.

(* ------------------------------------------------------------------ *)
(** * Derived strings *)

Section Fields.
  Context (X : externals) (tbl : table).

  (** The texts of the fields from number [i] on. *)
  Fixpoint fields_shown (k : fkind) (i : Z) (h : option hint) (fs : list field) (args : list arg) : list text :=
    match fs, args with
    | f :: fs', a :: args' =>
        show_arg X tbl a (MkParameter i (field_type f) (field_hint k)) h :: fields_shown k (i + 1) h fs' args'
    | _, _ => []
    end.

  Definition labelled (k : fkind) (fs : list field) (ss : list bytes) : list bytes :=
    map2 (fun f s => label k f ++ s) fs ss.

  Lemma fields_shown_some : forall k fs args before pre h s, length args = length fs -> fs <> [] ->
    (concat_text (map (show_fragment (map (show_arg X tbl) (before ++ args)) h)
       (meaning (Z.of_nat (length before)) (fields_items k pre fs))) = Some s <->
     exists ss, fields_shown k (Z.of_nat (length before)) h fs args = map Some ss /\
       s = pre ++ join_text (lit ", ") (labelled k fs ss) ++ field_close k).
  Proof.
    induction fs as [|f fs IH]; intros args before pre h s L Hne; [congruence|].
    destruct args as [|a args]; [discriminate|]. cbn [length] in L.
    cbn [fields_items meaning map concat_text show_fragment fields_shown p_index].
    assert (Ea : nth_error (A := shower) (map (show_arg X tbl) (before ++ a :: args)) (Z.to_nat (Z.of_nat (length before))) =
      Some (show_arg X tbl a)).
    { rewrite map_app, Nat2Z.id, nth_error_app2 by (rewrite map_length; lia). rewrite map_length, Nat.sub_diag. reflexivity. }
    rewrite Ea. clear Ea.
    destruct fs as [|g fs].
    - cbn [meaning map concat_text show_fragment].
      destruct (show_arg X tbl a _ h) as [t|].
      2: { split; [discriminate|]. intros ([|? ?] & E & _); discriminate. }
      destruct args; [|discriminate]. split.
      + intros E. injection E as <-. exists [t]. split; [reflexivity|]. cbn. rewrite app_nil_r, <- !app_assoc. reflexivity.
      + intros ([|u [|? ?]] & E & ->); try discriminate. injection E as ->. cbn. rewrite app_nil_r, <- !app_assoc. reflexivity.
    - assert (L' : length args = length (g :: fs)) by (cbn [length] in *; lia).
      specialize (IH args (before ++ [a]) (lit ", ") h).
      rewrite <- app_assoc in IH. cbn [app] in IH.
      rewrite app_length, Nat2Z.inj_add in IH. cbn [length Z.of_nat Pos.of_succ_nat] in IH.
      destruct (show_arg X tbl a _ h) as [t|].
      2: { split; [discriminate|]. intros ([|? ?] & E & _); discriminate. }
      set (r := concat_text _) in *. split.
      + intros E. destruct r as [r'|]; [|discriminate]. injection E as <-.
        destruct (proj1 (IH r' L' ltac:(discriminate)) eq_refl) as (ss & E & ->).
        exists (t :: ss). split; [cbn [map]; f_equal; exact E|].
        destruct args as [|b args]; [discriminate|]. destruct ss as [|u ss]; [discriminate|].
        unfold labelled. cbn [map2 join_text]. rewrite <- !app_assoc. reflexivity.
      + intros ([|u ss] & E & ->); [discriminate|]. injection E as -> E.
        rewrite (proj2 (IH _ L' ltac:(discriminate)) (ex_intro _ ss (conj E eq_refl))).
        destruct args as [|b args]; [discriminate|]. destruct ss as [|u' ss]; [discriminate|].
        unfold labelled. cbn [map2 join_text]. rewrite <- !app_assoc. reflexivity.
  Qed.

  Lemma labelled_named : forall fs ss,
    labelled KNamed fs ss = map2 (fun n s => n ++ lit ": " ++ s) (map (fun f : field => fst (fst f)) fs) ss.
  Proof.
    intros fs ss. revert fs. induction ss as [|s ss IH]; intros [|f fs]; auto. unfold labelled in *. cbn [map2 map label].
    rewrite IH, <- app_assoc. reflexivity.
  Qed.

  Lemma labelled_unnamed : forall fs ss, length ss = length fs -> labelled KUnnamed fs ss = ss.
  Proof.
    intros fs ss. revert fs. induction ss as [|s ss IH]; intros [|f fs] L; try discriminate; auto. unfold labelled in *.
    cbn [map2 label app]. rewrite IH; auto.
  Qed.

  Lemma fields_shown_length : forall k h fs args i, length args = length fs ->
    length (fields_shown k i h fs args) = length fs.
  Proof. induction fs as [|f fs IH]; intros [|a args] i L; try discriminate; cbn; auto. Qed.

  Lemma variant_shown : forall name k fs args h s, variant_ok (name, k, fs) -> Z.of_nat (length fs) < usize_max ->
    length args = length fs ->
    (show_format (name ++ fields_str k fs) (map (show_arg X tbl) args) h = Some s <->
     exists ss, fields_shown k 0 h fs args = map Some ss /\
       s = name ++ fields_text k (map (fun f : field => fst (fst f)) fs) ss).
  Proof.
    intros name k fs args h s V L La. pose proof V as (N & _ & F & U).
    assert (E : parse (name ++ fields_str k fs) ForwardsCompatible = Ok (meaning 0 (variant_items name k fs))).
    { rewrite <- variant_items_show by auto. unfold variant_items.
      assert (L1 : parse (show_items [ILit name]) ForwardsCompatible = Ok (meaning 0 [ILit name])).
      { apply (implicit_parse _ _ []); cbn; auto using II_lit, II_nil. unfold usize_max; lia. }
      assert (L2 : parse (show_items (fields_items k (name ++ field_open k) fs)) ForwardsCompatible =
        Ok (meaning 0 (fields_items k (name ++ field_open k) fs))).
      { apply (implicit_parse _ _ (map field_type fs)); [apply fields_items_ok|apply fields_items_implicit|rewrite map_length; lia].
        destruct name; [congruence|discriminate]. }
      destruct k; auto; destruct fs; auto. }
    unfold show_format. rewrite E.
    assert (Plain : concat_text (map (show_fragment (map (show_arg X tbl) args) h) (meaning 0 [ILit name])) = Some s <->
      s = name).
    { cbn. rewrite app_nil_r. split; [intros Q; injection Q; auto|intros ->; reflexivity]. }
    assert (Empty : forall t, (exists ss, ([] : list text) = map Some ss /\
      s = name ++ fields_text k t ss) <-> s = name).
    { intros t. split; [intros ([|? ?] & Q & ->); [|discriminate]|intros ->; exists []; split; [reflexivity|]];
        destruct k; cbn; now rewrite app_nil_r. }
    assert (Full : fs <> [] -> k <> KUnit ->
      (concat_text (map (show_fragment (map (show_arg X tbl) args) h) (meaning 0 (fields_items k (name ++ field_open k) fs))) =
         Some s <->
       exists ss, fields_shown k 0 h fs args = map Some ss /\
         s = name ++ fields_text k (map (fun f : field => fst (fst f)) fs) ss)).
    { intros Hne Hk. pose proof (fields_shown_some k fs args [] (name ++ field_open k) h s La Hne) as Q.
      cbn [app length Z.of_nat] in Q. rewrite Q.
      split; intros (ss & Y & ->); exists ss; (split; [exact Y|]); rewrite <- app_assoc; f_equal;
        pose proof (fields_shown_length k h fs args 0 La) as Ls; rewrite Y, map_length in Ls;
        (destruct ss as [|u ss]; [destruct fs; [congruence|discriminate]|]); unfold fields_text, listing;
        destruct k; try congruence; rewrite ?labelled_named, ?labelled_unnamed by auto; reflexivity. }
    unfold variant_items. destruct k.
    - rewrite (U eq_refl) in *. rewrite Plain. cbn [fields_shown]. rewrite Empty. tauto.
    - destruct fs as [|f fs]; [rewrite Plain; cbn [fields_shown]; rewrite Empty; tauto|]. apply Full; discriminate.
    - destruct fs as [|f fs]; [rewrite Plain; cbn [fields_shown]; rewrite Empty; tauto|]. apply Full; discriminate.
  Qed.
End Fields.

(* ------------------------------------------------------------------ *)
(** * Values *)

Lemma format_str_text : forall X s h, format_str X s h = if is_debug_hint h then x_debug_str X s else s.
Proof. intros X s [[]|]; reflexivity. Qed.

Lemma ty_of_prim_unique : forall x p, prim_of_ty x = Some p -> x = ty_of_prim p.
Proof. intros x p H. destruct x; try discriminate; injection H as <-; reflexivity. Qed.

Lemma leaf_shown : forall X addr tbl p v a i own h, prim_means addr tbl p v a ->
  show_arg X tbl a (MkParameter i (ty_of_prim p) own) h = leaf_text X tbl own h p v.
Proof.
  intros X addr tbl p v a i own h H. destruct H; cbn [show_arg p_hint p_ty ty_of_prim leaf_text]; try reflexivity.
  - destruct b; reflexivity.
  - now rewrite format_str_text.
  - now rewrite format_str_text.
Qed.

Lemma strip_idem : forall t, strip (strip t) = strip t.
Proof. induction t; cbn [strip]; auto. Qed.

Lemma means_strip : forall addr tbl t v f a, means addr tbl t v f a -> means addr tbl (strip t) v f a.
Proof. intros addr tbl t. induction t; intros v f a H; cbn [strip]; auto; inversion H; subst; auto. Qed.

Ltac not_list :=
  match goal with H : is_list_of _ _ |- _ => exfalso; destruct H as [?|[? ?]]; discriminate end.

Lemma says_ref : forall X tbl t h v str, says X tbl h (RRef t) v str <-> says X tbl h t v str.
Proof. intros. split; intros H; [inversion H; subst; auto; not_list|now constructor]. Qed.
Lemma says_opaque : forall X tbl t h v str, says X tbl h (ROpaque t) v str <-> says X tbl h t v str.
Proof. intros. split; intros H; [inversion H; subst; auto; not_list|now constructor]. Qed.

Lemma says_strip : forall X tbl t h v str, says X tbl h t v str <-> says X tbl h (strip t) v str.
Proof.
  intros X tbl t. induction t; intros h v str; cbn [strip]; try tauto.
  - rewrite <- IHt. apply says_ref.
  - rewrite <- IHt. apply says_opaque.
Qed.

(** Elements of byte lists are bytes, other elements do not look like bytes. *)
Lemma u8_element : forall addr tbl t v f a, is_u8 t -> means addr tbl t v f a ->
  f = lit "{=u8}" /\ exists x, v = VNum x /\ a = [AUxx x] /\ 0 <= x < 256.
Proof.
  intros addr tbl t v f a U M. apply means_strip in M. unfold is_u8 in U. rewrite U in M. inversion M; subst.
  match goal with H : prim_means _ _ _ _ _ |- _ => inversion H; subst end.
  split; [reflexivity|]. exists x. repeat split; auto; cbn in *; lia.
Qed.

Lemma other_element : forall addr tbl t v f a, ~ is_u8 t -> means addr tbl t v f a -> f <> lit "{=u8}".
Proof.
  intros addr tbl t v f a U M. apply means_strip in M. unfold is_u8 in U. pose proof (strip_idem t) as Si.
  set (t' := strip t) in *. clearbody t'. clear t.
  assert (Ar : forall n, ~ arg_types (lit "{=u8}") ForwardsCompatible (repeat TFormat n)).
  { intros n A. assert (B : arg_types (lit "{=u8}") ForwardsCompatible [TU W8]) by (apply (single_arg_types _ (TU W8)); cbn; auto).
    pose proof (arg_types_unique _ _ _ _ A B) as Q. destruct n as [|n]; discriminate. }
  assert (Nm : forall name k fs, variant_ok (name, k, fs) -> name ++ fields_str k fs <> lit "{=u8}").
  { intros name k fs (N & (B & _) & _) Q. destruct name as [|c name]; [congruence|]. injection Q as -> _.
    apply B. left. reflexivity. }
  inversion M; subst; try discriminate; try (intros ->; eapply Ar; eassumption); auto.
  - match goal with H : prim_means _ _ _ _ _ |- _ => inversion H; subst; try discriminate; destruct w; try discriminate end.
    congruence.
  - cbn [strip] in Si. exfalso. revert Si. clear. intros Si. assert (S : forall u, strip u <> RRef t) by (intros u; clear; revert t; induction u; intros; cbn [strip]; try discriminate; auto). exact (S _ Si).
  - cbn [strip] in Si. exfalso. revert Si. clear. intros Si. assert (S : forall u, strip u <> ROpaque t) by (intros u; clear; revert t; induction u; intros; cbn [strip]; try discriminate; auto). exact (S _ Si).
  - destruct (listed_length _); [|discriminate]. intros Q. discriminate Q.
  - apply Nm. rewrite Forall_forall in *. eapply H0, nth_error_In; eauto.
  - destruct w; discriminate.
Qed.

Lemma u8_dec : forall t, is_u8 t \/ ~ is_u8 t.
Proof.
  intros t. unfold is_u8. destruct (strip t) as [[| |[]| | | | | | |]| | | | | | | | | | | |];
    try (right; discriminate). left. reflexivity.
Qed.

(** Flags. *)
Lemma show_flags : forall w n p d c g h, Forall flags_name_ok [n; p; d; c] ->
  show_format (flags_str w n p d c) [g] h = g (MkParameter 0 (TU w) (Some (HBitflags n p d (Some c)))) h.
Proof.
  intros w n p d c g h H. unfold show_format.
  assert (E : parse (flags_str w n p d c) ForwardsCompatible =
    Ok [FParam (MkParameter 0 (TU w) (Some (HBitflags n p d (Some c))))]).
  { destruct (flags_items_ok w n p d c ForwardsCompatible H) as [I <-].
    apply (implicit_parse ForwardsCompatible (flags_items w n p d c) [TU w] I); [apply II_param; [reflexivity|apply II_nil]|].
    cbn. unfold usize_max. lia. }
  rewrite E. cbn [map]. rewrite concat_one. reflexivity.
Qed.

Definition flag_names (x : Z) (fs : list (bytes * Z)) : list bytes :=
  map fst (filter (fun f => if (snd f =? 0) && negb (x =? 0) then false else Z.land x (snd f) =? snd f) fs).

Lemma has_flag : forall x v, (if (v =? 0) && negb (x =? 0) then false else Z.land x v =? v) = true <-> contained x v.
Proof.
  intros x v. unfold contained.
  destruct (Z.eqb_spec v 0) as [E|E], (Z.eqb_spec x 0) as [Ex|Ex]; cbn [andb negb]; rewrite ?land_contained; try tauto.
  split; [discriminate|]. intros [A _]. tauto.
Qed.

Lemma flags_of_named : forall x fs, flags_of x fs (flag_names x fs).
Proof.
  intros x. unfold flag_names. induction fs as [|[n v] fs IH]; cbn [filter map]; [constructor|]. cbn [snd].
  destruct (if (v =? 0) && negb (x =? 0) then false else Z.land x v =? v) eqn:E.
  - apply has_flag in E. cbn [map fst]. constructor; auto.
  - constructor; auto. intros C. apply has_flag in C. congruence.
Qed.

Lemma flags_of_unique : forall x fs names, flags_of x fs names -> names = flag_names x fs.
Proof.
  intros x fs names H. unfold flag_names. induction H as [|n v fs names C _ IH|n v fs names C _ IH]; auto; cbn [filter snd].
  - apply has_flag in C. rewrite C. cbn [map fst]. now f_equal.
  - destruct (if (v =? 0) && negb (x =? 0) then false else Z.land x v =? v) eqn:E; auto. apply has_flag in E. contradiction.
Qed.

Lemma format_flags_text : forall fs x, format_flags fs x = flags_text (flag_names x fs).
Proof. intros. unfold format_flags, flags_text, flag_names. destruct (map fst _); reflexivity. Qed.

Section Main.
  Context (X : externals) (addr : bytes -> Z) (tbl : table).

  (** The argument [a] is shown as the logged [av] reads. *)
  Definition shown_as (x : ty) (av : aval) (a : arg) : Prop :=
    forall p h s, compat x (p_ty p) -> (show_arg X tbl a p h = Some s <-> says_arg X tbl p h av s).

  Definition all_shown (tys : list ty) (avs : list aval) (args : list arg) : Prop :=
    forall i t, nth_error tys i = Some t -> exists av a,
      nth_error avs i = Some av /\ nth_error args i = Some a /\ shown_as t av a.

  Lemma all_shown_nil : all_shown [] [] [].
  Proof. intros [|i] t H; discriminate. Qed.

  Lemma all_shown_cons : forall x tys av avs a args, shown_as x av a -> all_shown tys avs args ->
    all_shown (x :: tys) (av :: avs) (a :: args).
  Proof.
    intros x tys av avs a args H A [|i] t N; cbn [nth_error] in *.
    - injection N as <-. exists av, a. auto.
    - exact (A i t N).
  Qed.

  Lemma line_shown : forall f m tys frags avs args h s, arg_types f m tys -> parse f m = Ok frags ->
    all_shown tys avs args ->
    (concat_text (map (show_fragment (map (show_arg X tbl) args) h) frags) = Some s <->
     says_line X tbl h frags avs s).
  Proof.
    intros f m tys frags avs args h s A E S.
    assert (Hp : forall p, In (FParam p) frags -> exists av a,
      nth_error avs (Z.to_nat (p_index p)) = Some av /\ nth_error args (Z.to_nat (p_index p)) = Some a /\
      forall s, show_arg X tbl a p h = Some s <-> says_arg X tbl p h av s).
    { intros p I. destruct (compat_params _ _ _ _ _ A E I) as (t & N & C). destruct (S _ _ N) as (av & a & N1 & N2 & R).
      exists av, a. repeat split; auto; apply R; auto. }
    clear A E S. revert s. induction frags as [|[l|p] frags IH]; intros s; cbn [map concat_text show_fragment].
    - split; [intros Q; injection Q as <-; constructor|intros Q; inversion Q; subst; reflexivity].
    - specialize (IH (fun p I => Hp p (or_intror I))). split; intros Q.
      + destruct (concat_text _) as [r|]; [|discriminate]. injection Q as <-. constructor. now apply IH.
      + inversion Q; subst. match goal with H : says_line _ _ _ frags _ _ |- _ => rewrite (proj2 (IH _) H) end. reflexivity.
    - destruct (Hp p (or_introl eq_refl)) as (av & a & N1 & N2 & R).
      specialize (IH (fun p I => Hp p (or_intror I))).
      assert (N3 : nth_error (A := shower) (map (show_arg X tbl) args) (Z.to_nat (p_index p)) = Some (show_arg X tbl a))
        by exact (map_nth_error _ _ _ N2).
      rewrite N3. clear N3. split; intros Q.
      + destruct (show_arg X tbl a p h) as [t|] eqn:Et; [|discriminate].
        destruct (concat_text _) as [r|]; [|discriminate]. injection Q as <-.
        econstructor; [exact N1|now apply R|now apply IH].
      + inversion Q; subst. rewrite N1 in *. match goal with H : Some _ = Some _ |- _ => injection H as <- end.
        match goal with H : says_arg _ _ _ _ _ _ |- _ => rewrite (proj2 (R _) H) end.
        match goal with H : says_line _ _ _ frags _ _ |- _ => rewrite (proj2 (IH _) H) end. reflexivity.
  Qed.

  Lemma shown_format : forall t v f a, (forall h s, show_format f (map (show_arg X tbl) a) h = Some s <-> says X tbl h t v s) ->
    shown_as TFormat (AvFmt t v) (AFormat f a).
  Proof.
    intros t v f a IH p h s C. destruct C as [[_ C]|(lo & hi & q & r & C & _)]; [|discriminate].
    change (show_format f (map (show_arg X tbl) a) (inner_hint (p_hint p) h) = Some s <-> says_arg X tbl p h (AvFmt t v) s).
    rewrite IH. split; intros Q; [constructor; auto|inversion Q; subst; auto].
  Qed.

  Lemma says_list : forall h t u vs s, is_list_of t u ->
    (says X tbl h t (VList vs) s <->
     ((h <> Some HAscii \/ ~ is_u8 u) /\ exists ss, says_all X tbl h u vs ss /\ s = listing (lit "[") (lit "]") ss) \/
     (h = Some HAscii /\ is_u8 u /\
      ((exists x xs, vs = map VNum (x :: xs) /\ s = byte_string (x :: xs)) \/ (vs = [] /\ s = lit "[]")))).
  Proof.
    intros h t u vs s T.
    assert (Tu : forall u', is_list_of t u' -> u' = u).
    { intros u' T'. destruct T as [->|[n ->]], T' as [E|[n' E]]; congruence. }
    split.
    - intros Q. inversion Q; subst; try (exfalso; destruct T as [T|[? T]]; discriminate);
        match goal with H : is_list_of _ _ |- _ => apply Tu in H; subst end.
      + left. eauto.
      + right. split; [reflexivity|]. split; [assumption|]. left. exists x, xs. auto.
      + right. split; [reflexivity|]. split; [assumption|]. right. auto.
    - intros [(G & ss & A & ->)|(-> & U & [(x & xs & -> & ->)|(-> & ->)])]; econstructor; eauto.
  Qed.

  Lemma list_shown : forall t u vs es p h s, is_list_of t u -> means_elements addr tbl u vs es ->
    (forall h ss, map (fun e => show_format (fst e) (map (show_arg X tbl) (snd e)) h) es = map Some ss <->
       says_all X tbl h u vs ss) ->
    (show_arg X tbl (AFormatSlice es) p h = Some s <-> says X tbl (or_hint (p_hint p) h) t (VList vs) s).
  Proof.
    intros t u vs es p h s T M IH. cbn [show_arg]. set (h' := or_hint (p_hint p) h). clearbody h'. clear h p.
    assert (Plain : (match join_texts (map (fun e => show_format (fst e) (map (show_arg X tbl) (snd e)) h') es) with
        | Some s => Some (lit "[" ++ s ++ lit "]") | None => None end) = Some s <->
        exists ss, says_all X tbl h' u vs ss /\ s = listing (lit "[") (lit "]") ss).
    { split.
      - intros Q. destruct (join_texts _) as [r|] eqn:J; [|discriminate]. injection Q as <-.
        apply join_texts_some in J as (ss & J & ->). exists ss. split; [now apply IH|reflexivity].
      - intros (ss & A & ->). apply IH in A. rewrite A.
        rewrite (proj2 (join_texts_some (map Some ss) _) (ex_intro _ ss (conj eq_refl eq_refl))). reflexivity. }
    destruct (is_ascii_hint h' && existsb (fun e => beq (fst e) (lit "{=u8}")) es) eqn:G.
    - apply andb_true_iff in G as [G1 G2].
      assert (h' = Some HAscii) as -> by (destruct h' as [[]|]; try discriminate; reflexivity).
      apply existsb_exists in G2 as ([f a] & I & B). apply beq_true in B. cbn [fst] in B. subst f.
      assert (U : is_u8 u).
      { destruct (u8_dec u) as [U|NU]; [exact U|exfalso].
        assert (O : forall f a, In (f, a) es -> f <> lit "{=u8}").
        { clear - M NU. induction M as [|t v vs f a es M1 M2 IH]; [contradiction|].
          intros f' a' [Q|Q]; [injection Q as <- <-; exact (other_element _ _ _ _ _ _ NU M1)|exact (IH NU f' a' Q)]. }
        exact (O _ _ I eq_refl). }
      assert (Es : exists xs, vs = map VNum xs /\ element_bytes es = Some xs /\ length xs = length es).
      { clear - M U. induction M as [|t v vs f a es M1 M2 IH]; [exists []; auto|].
        destruct (IH U) as (xs & -> & E & L). destruct (u8_element _ _ _ _ _ _ U M1) as (-> & x & -> & -> & R).
        exists (x :: xs). split; [reflexivity|]. cbn [element_bytes length]. rewrite E.
        replace ((0 <=? x) && (x <? 256)) with true by lia. auto. }
      destruct Es as (xs & -> & -> & L). destruct es as [|e es]; [contradiction|]. destruct xs as [|x xs]; [discriminate|].
      cbn [format_bytes]. rewrite (says_list _ _ _ _ _ T). split.
      + intros Q. injection Q as <-. right. repeat split; auto. left. exists x, xs. auto.
      + intros [([Q|Q] & _)|(_ & _ & [(y & ys & Q & ->)|(Q & _)])]; [congruence|contradiction| |discriminate].
        cbn [map] in Q. injection Q as <- Q.
        assert (V : forall a b, map VNum a = map VNum b -> a = b).
        { clear. induction a as [|c a IH]; intros [|d b] H; try discriminate; auto. cbn [map] in H. injection H as <- H. f_equal. auto. }
        rewrite (V _ _ Q). reflexivity.
    - rewrite Plain, (says_list _ _ _ _ _ T).
      assert (El : forall f a, In (f, a) es -> h' = Some HAscii -> f <> lit "{=u8}").
      { intros f a I -> ->. cbn [is_ascii_hint andb] in G.
        assert (existsb (fun e => beq (fst e) (lit "{=u8}")) es = true); [|congruence].
        apply existsb_exists. eexists. split; [exact I|]. reflexivity. }
      split.
      + intros (ss & A & ->). destruct (is_ascii_hint h') eqn:Ha.
        * assert (h' = Some HAscii) as -> by (destruct h' as [[]|]; try discriminate; reflexivity).
          inversion M; subst.
          -- inversion A; subst. destruct (u8_dec u) as [U|U]; [right|left; split; eauto]. repeat split; auto.
          -- left. split; eauto. right. intros U.
             match goal with H : means _ _ _ _ _ _ |- _ => destruct (u8_element _ _ _ _ _ _ U H) as (-> & _) end.
             exact (El _ _ (or_introl eq_refl) eq_refl eq_refl).
        * left. split; eauto. left. intros ->. discriminate.
      + intros [(_ & ss & A & ->)|(-> & U & [(x & xs & -> & ->)|(-> & ->)])]; eauto.
        * cbn [map] in M. inversion M; subst.
          match goal with H : means _ _ _ _ _ _ |- _ => destruct (u8_element _ _ _ _ _ _ U H) as (-> & _) end.
          exfalso. exact (El _ _ (or_introl eq_refl) eq_refl eq_refl).
        * exists []. split; [constructor|reflexivity].
  Qed.

  Lemma show_prim_string : forall p g h,
    show_format (lit "{=" ++ prim_name p ++ lit "}") [g] h = g (MkParameter 0 (ty_of_prim p) None) h.
  Proof. intros p g h. rewrite <- show_prim. apply show_single; [apply prim_ty_ok|apply prim_not_bitfield]. Qed.

  Lemma text_string : forall x g h, x = TDebug \/ x = TDisplay ->
    show_format (lit "{=" ++ show_ty x ++ lit "}") [g] h = g (MkParameter 0 x None) h.
  Proof. intros x g h [->| ->]; apply show_single; cbn; auto. Qed.

  Lemma sequence_shown : forall a h, show_format (lit "{=?}") [show_arg X tbl a] h = show_arg X tbl a (MkParameter 0 TFormat None) h.
  Proof. intros a h. apply (show_single TFormat); cbn; auto. Qed.

  Lemma inner_none : forall h, inner_hint None h = h.
  Proof. intros [[]|]; reflexivity. Qed.

  Lemma map2_fmt : forall ts vs args, means_components addr tbl ts vs args -> length vs = length ts.
  Proof. intros ts vs args H. induction H; cbn; auto. Qed.

  Theorem values_shown :
    (forall t v f a, means addr tbl t v f a -> forall h s,
       show_format f (map (show_arg X tbl) a) h = Some s <-> says X tbl h t v s) /\
    (forall t vs es, means_elements addr tbl t vs es -> forall h ss,
       map (fun e => show_format (fst e) (map (show_arg X tbl) (snd e)) h) es = map Some ss <-> says_all X tbl h t vs ss) /\
    (forall ts vs args, means_components addr tbl ts vs args ->
       all_shown (repeat TFormat (length ts)) (map2 AvFmt ts vs) args) /\
    (forall fs vs args, means_fields addr tbl fs vs args -> length args = length fs /\
       forall k i h ss, fields_shown X tbl k i h fs args = map Some ss <-> says_fields X tbl k h fs vs ss) /\
    (forall ws args, means_writes addr tbl ws args -> forall h s,
       concat_text (map (fun a => show_format (lit "{=?}") [show_arg X tbl a] h) args) = Some s <-> says_writes X tbl h ws s) /\
    (forall tys avs args, means_args addr tbl tys avs args -> all_shown tys avs args) /\
    (forall x av a, means_arg addr tbl x av a -> shown_as x av a).
  Proof.
    apply means_combined.
    - (* prim *) intros p v a H h s. cbn [map]. rewrite show_prim_string, (leaf_shown X addr tbl p v a) by exact H.
      split; intros Q; [now constructor|inversion Q; subst; auto; not_list].
    - intros t v f a _ IH h s. rewrite IH. symmetry. apply says_ref.
    - intros t v f a _ IH h s. rewrite IH. symmetry. apply says_opaque.
    - (* slice *) intros t vs es L Ls M IH h s. cbn [map].
      change (lit "{=[?]}") with (lit "{=" ++ show_ty TFormatSlice ++ lit "}"). rewrite show_single by (cbn; auto).
      rewrite (list_shown (RSlice t) t vs es); auto; [reflexivity|]. left. reflexivity.
    - (* array *) intros n t vs es L En Ln M IH h s. cbn [map].
      assert (Str : forall g, show_format (if listed_length n then lit "{=[?;" ++ dec_str n ++ lit "]}" else lit "{=[?]}") [g] h =
        g (MkParameter 0 (if listed_length n then TFormatArray n else TFormatSlice) None) h).
      { intros g. destruct (listed_length n).
        - replace (lit "{=[?;" ++ dec_str n ++ lit "]}") with (lit "{=" ++ show_ty (TFormatArray n) ++ lit "}")
            by (cbn [show_ty]; rewrite <- !app_assoc; reflexivity).
          apply show_single; [cbn; unfold usize_max; lia|reflexivity].
        - apply (show_single TFormatSlice); cbn; auto. }
      rewrite Str, (list_shown (RArray n t) t vs es); auto; [reflexivity|]. right. eauto.
    - (* comp *) intros f ts vs args A B M IH h s.
      destruct A as (frags & E & A'). unfold show_format. rewrite E.
      rewrite (line_shown f ForwardsCompatible (repeat TFormat (length ts)) frags (map2 AvFmt ts vs)); auto.
      + split; intros Q; [econstructor; eauto|]. inversion Q; subst; try not_list. congruence.
      + exists frags. auto.
    - (* libenum *) intros alts k f ts vs args N _ _ _ A M IH h s.
      destruct A as (frags & E & A'). unfold show_format. rewrite E.
      rewrite (line_shown f ForwardsCompatible (repeat TFormat (length ts)) frags (map2 AvFmt ts vs)); auto.
      + split; intros Q; [econstructor; eauto|]. inversion Q; subst; try not_list. rewrite N in *.
        match goal with H : Some _ = Some _ |- _ => injection H as <- <- end. congruence.
      + exists frags. auto.
    - intros t U h s. cbn [map]. rewrite (text_string TDebug) by auto. cbn [show_arg]. rewrite format_str_text.
      cbn [p_hint or_hint]. split; intros Q; [injection Q as <-; constructor|inversion Q; subst; auto; not_list].
    - intros t U h s. cbn [map]. rewrite (text_string TDisplay) by auto. cbn [show_arg]. rewrite format_str_text.
      cbn [p_hint or_hint]. split; intros Q; [injection Q as <-; constructor|inversion Q; subst; auto; not_list].
    - (* manual *) intros ws args _ IH h s. cbn [map].
      change (lit "{=__internal_FormatSequence}") with (lit "{=" ++ show_ty TFormatSequence ++ lit "}").
      rewrite show_single by (cbn; auto). cbn [show_arg p_hint or_hint]. rewrite IH.
      split; intros Q; [now constructor|inversion Q; subst; auto; not_list].
    - (* struct *) intros name k fs vs args V L _ [La IH] h s. rewrite variant_shown by auto. split.
      + intros (ss & E & ->). constructor. now apply IH in E.
      + intros Q. inversion Q; subst; try not_list. eexists. split; [apply IH; eauto|reflexivity].
    - (* enum *) intros variants j name k fs vs args N F _ L _ [La IH] h s.
      assert (V : variant_ok (name, k, fs)) by (rewrite Forall_forall in F; eapply F, nth_error_In; eauto).
      rewrite variant_shown by auto. split.
      + intros (ss & E & ->). econstructor; [eauto|]. now apply IH in E.
      + intros Q. inversion Q; subst; try not_list. rewrite N in *.
        match goal with H : Some _ = Some _ |- _ => injection H as <- <- <- end.
        eexists. split; [apply IH; eauto|reflexivity].
    - (* flags *) intros w n p d c x F R h s. cbn [map]. rewrite show_flags by exact F. cbn [show_arg].
      unfold show_uxx. cbn [p_hint p_ty or_hint format_u128].
      destruct (lookup_flags (MkKey n p d (Some c)) (t_bitflags tbl)) as [fs|] eqn:Lk.
      + rewrite format_flags_text. split; intros Q.
        * injection Q as <-. apply (T_flags X tbl h w n p d c x fs); [exact Lk|apply flags_of_named].
        * inversion Q; subst; try not_list; [|congruence].
          match goal with H : flags_of _ _ _ |- _ => rewrite (flags_of_unique _ _ _ H) end.
          rewrite Lk in *. repeat match goal with H : Some _ = Some _ |- _ => injection H as <- end. reflexivity.
      + split; intros Q; [injection Q as <-; now constructor|].
        inversion Q; subst; try not_list; [congruence|reflexivity].
    - (* elements *) intros t h ss. cbn [map]. split; intros Q; [|inversion Q; subst; reflexivity].
      destruct ss; [constructor|discriminate].
    - intros t v vs f a es _ IH1 _ IH2 h ss. cbn [map fst snd]. split; intros Q.
      + destruct ss as [|s ss]; [discriminate|]. cbn [map] in Q. injection Q as Q1 Q2.
        constructor; [now apply IH1|now apply IH2].
      + inversion Q; subst. cbn [map]. f_equal; [now apply IH1|now apply IH2].
    - (* components *) apply all_shown_nil.
    - intros t ts v vs f a args _ _ IH1 _ IH2. cbn [length repeat map2]. apply all_shown_cons; auto.
      now apply shown_format.
    - (* fields *) split; [reflexivity|]. intros k i h ss. cbn [fields_shown]. split; intros Q; [|inversion Q; subst; reflexivity].
      destruct ss; [constructor|discriminate].
    - intros n t fs str vs args U _ _ [La IH]. split; [cbn; auto|]. intros k i h ss. cbn [fields_shown].
      assert (E : show_arg X tbl (AFormat (lit "{=__internal_Debug}") [APreformatted str]) (MkParameter i (field_type (n, Some ADebug2, t)) (field_hint k)) h =
        Some (if is_debug_hint (inner_hint (field_hint k) h) then x_debug_str X str else str)).
      { change (show_format (lit "{=" ++ show_ty TDebug ++ lit "}") [show_arg X tbl (APreformatted str)] (inner_hint (field_hint k) h) =
          Some (if is_debug_hint (inner_hint (field_hint k) h) then x_debug_str X str else str)).
        rewrite text_string by auto. cbn [show_arg p_hint or_hint]. now rewrite format_str_text. }
      rewrite E. split; intros Q.
      + destruct ss as [|s ss]; [discriminate|]. cbn [map] in Q. injection Q as <- Q.
        constructor; [constructor|now apply IH in Q].
      + inversion Q; subst. cbn [map]. match goal with H : says_field _ _ _ _ _ _ _ |- _ => inversion H; subst end. f_equal.
        now apply IH.
    - intros n t fs str vs args U _ _ [La IH]. split; [cbn; auto|]. intros k i h ss. cbn [fields_shown].
      assert (E : show_arg X tbl (AFormat (lit "{=__internal_Display}") [APreformatted str]) (MkParameter i (field_type (n, Some ADisplay2, t)) (field_hint k)) h =
        Some (if is_debug_hint (inner_hint (field_hint k) h) then x_debug_str X str else str)).
      { change (show_format (lit "{=" ++ show_ty TDisplay ++ lit "}") [show_arg X tbl (APreformatted str)] (inner_hint (field_hint k) h) =
          Some (if is_debug_hint (inner_hint (field_hint k) h) then x_debug_str X str else str)).
        rewrite text_string by auto. cbn [show_arg p_hint or_hint]. now rewrite format_str_text. }
      rewrite E. split; intros Q.
      + destruct ss as [|s ss]; [discriminate|]. cbn [map] in Q. injection Q as <- Q.
        constructor; [constructor|now apply IH in Q].
      + inversion Q; subst. cbn [map]. match goal with H : says_field _ _ _ _ _ _ _ |- _ => inversion H; subst end. f_equal.
        now apply IH.
    - intros n t p fs v vs a args Na Pm _ [La IH]. split; [cbn; auto|]. intros k i h ss. cbn [fields_shown].
      assert (E : field_type (n, None, t) = ty_of_prim p) by (cbn [field_type]; unfold field_ty; now rewrite Na).
      rewrite E, (leaf_shown X addr tbl p v a) by exact Pm. split; intros Q.
      + destruct ss as [|s ss]; [discriminate|]. cbn [map] in Q. injection Q as Q1 Q2.
        constructor; [|now apply IH in Q2]. eapply TD_native; eauto.
      + inversion Q; subst. cbn [map]. f_equal; [|now apply IH].
        match goal with H : says_field _ _ _ _ _ _ _ |- _ => inversion H; subst; [|congruence] end.
        rewrite Na in *. match goal with H : Some _ = Some _ |- _ => injection H as <- end. auto.
    - intros n t fs v vs f a args Na _ _ IH1 _ [La IH]. split; [cbn; auto|]. intros k i h ss. cbn [fields_shown].
      change (show_format f (map (show_arg X tbl) a) (inner_hint (field_hint k) h) :: fields_shown X tbl k (i + 1) h fs args = map Some ss <->
        says_fields X tbl k h ((n, None, t) :: fs) (v :: vs) ss).
      split; intros Q.
      + destruct ss as [|s ss]; [discriminate|]. cbn [map] in Q. injection Q as Q1 Q2.
        constructor; [|now apply IH in Q2]. apply TD_other; auto. now apply IH1.
      + inversion Q; subst. cbn [map]. f_equal; [|now apply IH]. apply IH1.
        match goal with H : says_field _ _ _ _ _ _ _ |- _ => inversion H; subst; [congruence|] end. auto.
    - (* writes *) intros h s. cbn [map concat_text]. split; intros Q; [injection Q as <-; constructor|inversion Q; subst; reflexivity].
    - intros f tys avs ws a args L A M IHa _ IH h s. cbn [map concat_text]. rewrite sequence_shown.
      change (show_arg X tbl (AFormat f a) (MkParameter 0 TFormat None) h) with
        (show_format f (map (show_arg X tbl) a) (inner_hint None h)). rewrite inner_none.
      destruct A as (frags & E & A'). unfold show_format at 1. rewrite (strict_implies_fc _ _ E).
      pose proof (line_shown f Strict tys frags avs a h) as LS. specialize (fun s => LS s (ex_intro _ frags (conj E A')) E IHa).
      split; intros Q.
      + destruct (concat_text (map (show_fragment _ _) frags)) as [s1|]; [|discriminate].
        destruct (concat_text _) as [s2|] eqn:E2; [|discriminate]. injection Q as <-.
        eapply TW_write; [exact E|now apply LS|now apply IH].
      + inversion Q; subst. rewrite E in *. match goal with H : Ok _ = Ok _ |- _ => injection H as <- end.
        match goal with H : says_line _ _ _ _ _ _ |- _ => rewrite (proj2 (LS _) H) end.
        match goal with H : says_writes _ _ _ ws _ |- _ => rewrite (proj2 (IH _ _) H) end. reflexivity.
    - (* splice *) intros t ws' ws a args T _ IH1 _ IH2 h s. rewrite map_app.
      assert (Tw : forall s, says X tbl h t (VWrites ws') s <-> says_writes X tbl h ws' s).
      { intros s'. rewrite says_strip, T. split; intros Q; [inversion Q; subst; auto; not_list|now constructor]. }
      rewrite concat_text_some. split; intros Q.
      + destruct Q as (ps & E & ->). symmetry in E. apply map_eq_app in E as (p1 & p2 & -> & E1 & E2). rewrite concat_app.
        apply TW_delegate.
        * apply Tw, IH1. apply concat_text_some. exists p1. auto.
        * apply IH2. apply concat_text_some. exists p2. auto.
      + inversion Q; subst. 
        match goal with H : says _ _ _ t _ _ |- _ => apply Tw, IH1, concat_text_some in H as (p1 & E1 & ->) end.
        match goal with H : says_writes _ _ _ ws _ |- _ => apply IH2, concat_text_some in H as (p2 & E2 & ->) end.
        exists (p1 ++ p2). rewrite E1, E2, map_app, concat_app. auto.
    - (* delegate *) intros t v f ws a args T _ _ _ _ IH1 _ IH2 h s. cbn [map concat_text]. rewrite sequence_shown.
      change (show_arg X tbl (AFormat f a) (MkParameter 0 TFormat None) h) with
        (show_format f (map (show_arg X tbl) a) (inner_hint None h)). rewrite inner_none.
      split; intros Q.
      + destruct (show_format f _ h) as [s1|] eqn:E1; [|discriminate].
        destruct (concat_text _) as [s2|] eqn:E2; [|discriminate]. injection Q as <-.
        constructor; [now apply IH1|now apply IH2].
      + inversion Q; subst. 
        match goal with H : says _ _ _ t _ _ |- _ => rewrite (proj2 (IH1 _ _) H) end.
        match goal with H : says_writes _ _ _ ws _ |- _ => rewrite (proj2 (IH2 _ _) H) end. reflexivity.
    - apply all_shown_nil.
    - intros x tys av avs a args _ IH1 _ IH2. apply all_shown_cons; auto.
    - (* arg: prim *) intros x p v a Px Pm q h s C.
      destruct C as [[_ C]|(lo & hi & c & d & -> & _)]; [|discriminate]. apply ty_of_prim_unique in Px. subst x.
      destruct q as [i y own]. cbn [p_ty] in C. subst y. rewrite (leaf_shown X addr tbl p v a) by exact Pm.
      split; intros Q.
      + econstructor; [apply prim_of_ty_of_prim|exact Q].
      + inversion Q; subst. cbn [p_ty p_hint] in *. rewrite prim_of_ty_of_prim in *.
        match goal with H : Some _ = Some _ |- _ => injection H as <- end. auto.
    - intros t v f a _ _ IH. now apply shown_format.
    - intros t vs es L Ls M IH p h s C. destruct C as [[_ C]|(lo & hi & c & d & C & _)]; [|discriminate].
      rewrite (list_shown (RSlice t) t vs es); auto; [|left; reflexivity].
      split; intros Q; [constructor; auto|inversion Q; subst; auto].
    - intros n t vs es L Ls M IH p h s C. destruct C as [[_ C]|(lo & hi & c & d & C & _)]; [|discriminate].
      rewrite (list_shown (RSlice t) t vs es); auto; [|left; reflexivity].
      split; intros Q; [constructor; eauto|inversion Q; subst; auto].
    - intros t U p h s C. destruct C as [[_ C]|(lo & hi & c & d & C & _)]; [|discriminate].
      cbn [show_arg]. rewrite format_str_text. split; intros Q; [injection Q as <-; constructor; auto|inversion Q; subst; auto].
    - intros t U p h s C. destruct C as [[_ C]|(lo & hi & c & d & C & _)]; [|discriminate].
      cbn [show_arg]. rewrite format_str_text. split; intros Q; [injection Q as <-; constructor; auto|inversion Q; subst; auto].
    - intros bs U L p h s C. destruct C as [[_ C]|(lo & hi & c & d & C & _)]; [|discriminate].
      cbn [show_arg]. split; intros Q; [injection Q as <-; constructor; auto|inversion Q; subst; auto].
    - intros n bs U L p h s C. destruct C as [[_ C]|(lo & hi & c & d & C & _)]; [|discriminate].
      cbn [show_arg]. split; intros Q; [injection Q as <-; constructor; eauto|inversion Q; subst; auto].
    - (* bits *) intros lo hi w x H1 H2 H3 H4 H5 H6 p h s C.
      destruct C as [[C _]|(lo' & hi' & c & d & C & Ep & R1 & R2 & R3)]; [discriminate|]. injection C as <- <-.
      destruct p as [i y own]. cbn [p_ty] in Ep. subst y. rewrite (bits_shown X tbl lo hi c d x i own h) by lia.
      split; intros Q.
      + injection Q as <-. apply (TG_bits X tbl (MkParameter i (TBitField c d) own)). reflexivity.
      + inversion Q; subst. cbn [p_ty p_hint] in *. match goal with H : TBitField _ _ = _ |- _ => injection H as <- <- end. reflexivity.
  Qed.
End Main.
