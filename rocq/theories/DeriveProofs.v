(** The format strings produced by [derive(Format)] and the library implementations:
    their arguments, and how the host splits enum strings. *)
From Verif Require Import Base Utf8 ParserModel ParserProofs ParserMore FormatSpec RenderProofs
  DecoderModel DecoderProofs PrepareProofs Numerals EncodeModel EncodeSpec.

(* ------------------------------------------------------------------ *)
(** * Strings whose parameters all have implicit indices *)

Inductive implicit_items : list item -> list ty -> Prop :=
| II_nil : implicit_items [] []
| II_lit s l tys : implicit_items l tys -> implicit_items (ILit s :: l) tys
| II_param x h l tys : is_bitfield x = false -> implicit_items l tys ->
    implicit_items (IParam None (Some x) h :: l) (x :: tys).

Lemma implicit_meaning : forall l tys, implicit_items l tys -> forall next p,
  In p (frag_params (meaning next l)) <->
  exists k h x, nth_error tys k = Some x /\ p = MkParameter (next + Z.of_nat k) x h /\
    In p (frag_params (meaning next l)).
Proof.
  induction 1 as [|s l tys H IH|x h l tys Hb H IH]; intros next p; cbn [meaning frag_params].
  - split; [contradiction|]. intros (k & h & x & _ & _ & []).
  - apply IH.
  - split; [|intros (k & h' & x' & _ & _ & R); exact R]. intros [E|E].
    + exists O, h, x. cbn. repeat split; auto. rewrite <- E. f_equal. lia.
    + pose proof (proj1 (IH _ _) E) as (k & h' & x' & N & -> & _).
      exists (S k), h', x'. cbn [nth_error]. split; [auto|]. split; [f_equal; lia|]. right. exact E.
Qed.

Lemma implicit_covers : forall l tys, implicit_items l tys -> forall next k x,
  nth_error tys k = Some x ->
  exists h, In (MkParameter (next + Z.of_nat k) x h) (frag_params (meaning next l)).
Proof.
  induction 1 as [|s l tys H IH|x h l tys Hb H IH]; intros next k y N; cbn [meaning frag_params].
  - destruct k; discriminate.
  - apply IH; auto.
  - destruct k as [|k]; cbn in N.
    + injection N as <-. exists h. left. f_equal. lia.
    + destruct (IH (next + 1) k y N) as [h' I]. exists h'. right.
      replace (next + Z.of_nat (S k)) with (next + 1 + Z.of_nat k) by lia. exact I.
Qed.

Lemma implicit_no_bitfield : forall l tys, implicit_items l tys -> Forall (fun x => is_bitfield x = false) tys.
Proof. induction 1; auto. Qed.

Lemma frag_parameters_frag : forall fs, frag_parameters fs = frag_params fs.
Proof. unfold frag_parameters. induction fs as [|[s|p] fs IH]; cbn [flat_map frag_params app]; congruence. Qed.

Lemma implicit_arg_types : forall m l tys, items_ok m l -> implicit_items l tys ->
  Z.of_nat (length tys) <= usize_max -> arg_types (show_items l) m tys.
Proof.
  intros m l tys W I L. exists (meaning 0 l). rewrite frag_parameters_frag.
  assert (R : forall p, In p (frag_params (meaning 0 l)) -> exists k x, nth_error tys k = Some x /\
    p_index p = Z.of_nat k /\ p_ty p = x).
  { intros p Hp. apply (implicit_meaning _ _ I) in Hp as (k & h & x & N & -> & _). exists k, x. auto. }
  split; [|split].
  - apply parse_show_items; auto.
    + exists (Z.of_nat (length tys)). split; [lia|]. split; [|split].
      * intros p Hp. destruct (R p Hp) as (k & x & N & -> & _).
        assert (k < length tys)%nat by (apply nth_error_Some; congruence). lia.
      * intros i Hi. destruct (nth_error tys (Z.to_nat i)) as [x|] eqn:E.
        -- destruct (implicit_covers _ _ I 0 _ _ E) as [h Hh]. eexists. split; [exact Hh|]. cbn [p_index]. lia.
        -- apply nth_error_None in E. lia.
      * intros p q Hp Hq E. left. destruct (R p Hp) as (k & x & N & E1 & ->). destruct (R q Hq) as (k' & x' & N' & E1' & ->).
        assert (k = k') by lia. congruence.
    + intros p Hp. destruct (R p Hp) as (k & x & N & -> & _).
      assert (k < length tys)%nat by (apply nth_error_Some; congruence). lia.
  - intros p Hp. destruct (R p Hp) as (k & x & N & -> & _).
    assert (k < length tys)%nat by (apply nth_error_Some; congruence). lia.
  - intros i t N. left. pose proof (implicit_no_bitfield _ _ I) as B. rewrite Forall_forall in B.
    split; [apply B; eapply nth_error_In; eauto|].
    destruct (implicit_covers _ _ I 0 _ _ N) as [h Hh]. eexists. split; [exact Hh|]. auto.
Qed.

(** Single parameters. *)
Lemma single_arg_types : forall m x, show_ty_ok x -> is_bitfield x = false ->
  arg_types (lit "{=" ++ show_ty x ++ lit "}") m [x].
Proof.
  intros m x H B.
  replace (lit "{=" ++ show_ty x ++ lit "}") with (show_items [IParam None (Some x) None]).
  - apply implicit_arg_types; cbn; auto using II_param, II_nil. unfold usize_max. lia.
  - unfold show_items, show_item, show_param. cbn [map concat]. rewrite !app_nil_r.
    change (lit "{=") with (lit "{" ++ lit "="). rewrite <- !app_assoc. reflexivity.
Qed.

Definition ty_of_prim (p : prim) : ty :=
  match p with
  | PI w => TI w | PIsize => TIsize | PU w => TU w | PUsize => TUsize
  | PF32 => TF32 | PF64 => TF64 | PBool => TBool | PStr => TStr | PIStr => TIStr | PChar => TChar
  end.

Lemma prim_of_ty_of_prim : forall p, prim_of_ty (ty_of_prim p) = Some p.
Proof. destruct p; reflexivity. Qed.
Lemma show_prim : forall p, show_ty (ty_of_prim p) = prim_name p.
Proof. destruct p; reflexivity. Qed.
Lemma prim_ty_ok : forall p, show_ty_ok (ty_of_prim p).
Proof. destruct p; exact I. Qed.
Lemma prim_not_bitfield : forall p, is_bitfield (ty_of_prim p) = false.
Proof. destruct p; reflexivity. Qed.

Lemma prim_arg_types : forall p, arg_types (lit "{=" ++ prim_name p ++ lit "}") ForwardsCompatible [ty_of_prim p].
Proof. intro p. rewrite <- show_prim. apply single_arg_types; auto using prim_ty_ok, prim_not_bitfield. Qed.

(** The format string of [bitflags!] types. *)
Definition flags_items (w : width) (n p d c : bytes) : list item :=
  [IParam None (Some (TU w)) (Some (HBitflags n p d (Some c)))].

Lemma flags_items_ok : forall w n p d c m, Forall flags_name_ok [n; p; d; c] ->
  items_ok m (flags_items w n p d c) /\ show_items (flags_items w n p d c) = flags_str w n p d c.
Proof.
  intros w n p d c m H. rewrite !Forall_cons_iff in H. destruct H as (N & P & D & C & _).
  assert (X : forall s, flags_name_ok s -> name_ok s).
  { intros s ((A & B & _) & E). repeat split; auto. }
  unfold flags_items. split.
  - cbn; auto 8.
  - unfold show_items, show_item, show_param, flags_str, show_hint. cbn [map concat]. rewrite !app_nil_r.
    change (show_ty (TU w)) with (lit "u" ++ width_name w).
    change (lit "{=u") with (lit "{" ++ lit "=" ++ lit "u").
    change (lit ":__internal_bitflags_") with (lit ":" ++ lit "__internal_bitflags_").
    rewrite <- !app_assoc. reflexivity.
Qed.

Lemma flags_arg_types : forall w n p d c, Forall flags_name_ok [n; p; d; c] ->
  arg_types (flags_str w n p d c) ForwardsCompatible [TU w].
Proof.
  intros w n p d c H. destruct (flags_items_ok w n p d c ForwardsCompatible H) as [I <-].
  apply implicit_arg_types; [exact I|apply II_param; [reflexivity|apply II_nil]|cbn; unfold usize_max; lia].
Qed.

(* ------------------------------------------------------------------ *)
(** * Derived strings *)

Definition field_ty (t : rty) : ty :=
  match as_native t with Some p => ty_of_prim p | None => TFormat end.

Definition field_type (f : field) : ty := let '(_, _, t) := f in field_ty t.

Lemma show_field_ty : forall t, show_ty (field_ty t) = field_ty_name t.
Proof. intro t. unfold field_ty, field_ty_name. destruct (as_native t); [apply show_prim|reflexivity]. Qed.

Definition label (k : fkind) (f : field) : bytes :=
  match k with KNamed => fst (fst f) ++ lit ": " | _ => [] end.
Definition field_hint (k : fkind) : option hint := match k with KNamed => Some HDebug | _ => None end.
Definition field_close (k : fkind) : bytes := match k with KNamed => lit " }" | _ => lit ")" end.
Definition field_open (k : fkind) : bytes := match k with KNamed => lit " { " | _ => lit "(" end.

Fixpoint fields_items (k : fkind) (pre : bytes) (fs : list field) : list item :=
  match fs with
  | [] => []
  | f :: fs' => ILit (pre ++ label k f) :: IParam None (Some (field_type f)) (field_hint k) ::
      match fs' with
      | [] => [ILit (field_close k)]
      | _ => fields_items k (lit ", ") fs'
      end
  end.

Lemma escape_plain : forall s, no_braces s -> escape s = s.
Proof.
  induction s as [|c s IH]; intros [A B]; cbn [escape]; auto.
  destruct (Z.eqb_spec c 123); [exfalso; apply A; cbn; auto|].
  destruct (Z.eqb_spec c 125); [exfalso; apply B; cbn; auto|].
  rewrite IH; auto. split; intro; [apply A|apply B]; cbn; auto.
Qed.

Lemma ident_no_braces : forall s, ident_ok s -> no_braces s.
Proof. intros s (A & B & _). split; auto. Qed.

Lemma fields_items_show : forall k, k <> KUnit -> forall fs pre, fs <> [] -> Forall field_ok fs ->
  show_items (fields_items k pre fs) = escape pre ++ fields_body k fs ++ escape (field_close k).
Proof.
  intros k Hk. induction fs as [|f fs IH]; intros pre Hne W; [congruence|]. inversion W as [|? ? W1 W2]; subst.
  destruct f as [[name a] t]. destruct W1 as [W1 _].
  assert (E : show_item (ILit (pre ++ label k (name, a, t))) ++
              show_item (IParam None (Some (field_type (name, a, t))) (field_hint k)) =
              escape pre ++ field_str k (name, a, t)).
  { unfold show_item, show_param. cbn [field_type]. rewrite show_field_ty, escape_app, <- app_assoc. f_equal.
    destruct k; [congruence| |].
    - cbn [label fst field_str field_hint]. rewrite escape_app, escape_plain by (apply ident_no_braces; auto).
      rewrite <- !app_assoc. reflexivity.
    - cbn [label field_str field_hint escape app]. rewrite !app_nil_r. reflexivity. }
  cbn [fields_items]. unfold show_items in *. cbn [map concat].
  rewrite app_assoc, E. destruct fs as [|g fs].
  - cbn [map concat fields_body show_item]. rewrite app_nil_r, <- app_assoc. reflexivity.
  - rewrite IH by (auto; discriminate). cbn [fields_body].
    change (escape (lit ", ")) with (lit ", "). rewrite <- !app_assoc. reflexivity.
Qed.

Definition variant_items (name : bytes) (k : fkind) (fs : list field) : list item :=
  match k, fs with
  | KUnit, _ => [ILit name]
  | _, [] => [ILit name]
  | _, _ => fields_items k (name ++ field_open k) fs
  end.

Lemma variant_items_show : forall name k fs, variant_ok (name, k, fs) ->
  show_items (variant_items name k fs) = name ++ fields_str k fs.
Proof.
  intros name k fs (N & I & F & U).
  assert (E : escape name = name) by (apply escape_plain, ident_no_braces; auto).
  unfold variant_items, fields_str. destruct k.
  - unfold show_items. cbn. now rewrite E, !app_nil_r.
  - destruct fs as [|f fs]; [unfold show_items; cbn; now rewrite E, !app_nil_r|].
    rewrite fields_items_show by (auto; discriminate). rewrite escape_app, E, <- app_assoc. reflexivity.
  - destruct fs as [|f fs]; [unfold show_items; cbn; now rewrite E, !app_nil_r|].
    rewrite fields_items_show by (auto; discriminate). rewrite escape_app, E, <- app_assoc. reflexivity.
Qed.

Lemma field_ty_ok : forall t, show_ty_ok (field_ty t).
Proof. intro t. unfold field_ty. destruct (as_native t); [apply prim_ty_ok|exact I]. Qed.
Lemma field_ty_bitfield : forall t, is_bitfield (field_ty t) = false.
Proof. intro t. unfold field_ty. destruct (as_native t); [apply prim_not_bitfield|reflexivity]. Qed.

Lemma fields_items_ok : forall m k fs pre, pre <> [] -> items_ok m (fields_items k pre fs).
Proof.
  induction fs as [|f fs IH]; intros pre Hpre; cbn [fields_items]; [exact I|].
  cbn [items_ok item_ok]. split; [|split; [|exact I]].
  - destruct pre; [congruence|discriminate].
  - split; [|split].
    + split; [exact I|]. split; [destruct f as [[? ?] ?]; apply field_ty_ok|]. destruct k; exact I.
    + destruct fs; [cbn; split; [destruct k; discriminate|auto]|]. apply IH. discriminate.
    + exact I.
Qed.

Lemma fields_items_implicit : forall k fs pre, implicit_items (fields_items k pre fs) (map field_type fs).
Proof.
  induction fs as [|f fs IH]; intros pre; cbn [fields_items map]; [constructor|].
  constructor. constructor; [destruct f as [[? ?] ?]; apply field_ty_bitfield|].
  destruct fs; [repeat constructor|]. apply IH.
Qed.

Lemma variant_arg_types : forall name k fs, variant_ok (name, k, fs) -> Z.of_nat (length fs) < usize_max ->
  arg_types (name ++ fields_str k fs) ForwardsCompatible (map field_type fs).
Proof.
  intros name k fs V L. rewrite <- variant_items_show by auto. destruct V as (N & _ & _ & U).
  assert (X : arg_types (show_items [ILit name]) ForwardsCompatible []).
  { apply implicit_arg_types; cbn; auto using II_lit, II_nil. unfold usize_max; lia. }
  assert (Y : arg_types (show_items (fields_items k (name ++ field_open k) fs)) ForwardsCompatible (map field_type fs)).
  { apply implicit_arg_types; [apply fields_items_ok|apply fields_items_implicit|rewrite map_length; lia].
    destruct name; [congruence|discriminate]. }
  unfold variant_items. destruct k.
  - rewrite U by auto. exact X.
  - destruct fs; [exact X|exact Y].
  - destruct fs; [exact X|exact Y].
Qed.

(** ** Bars *)
Definition nobar_b (s : bytes) : bool := forallb (fun c => negb (c =? 124)) s.
Lemma nobar_b_ok : forall s, nobar_b s = true -> no_bar s.
Proof. intros s H X. unfold nobar_b in H. rewrite forallb_forall in H. apply H in X. discriminate. Qed.
Lemma no_bar_app : forall a b, no_bar (a ++ b) <-> no_bar a /\ no_bar b.
Proof. intros. unfold no_bar. rewrite in_app_iff. tauto. Qed.

Lemma prim_name_nobar : forall p, no_bar (prim_name p).
Proof. intro p. apply nobar_b_ok. destruct p as [[]| |[]| | | | | | | ]; reflexivity. Qed.

Lemma flags_nobar : forall w n p d c, Forall flags_name_ok [n; p; d; c] -> no_bar (flags_str w n p d c).
Proof.
  intros w n p d c H. rewrite !Forall_cons_iff in H.
  destruct H as (((_ & _ & N) & _) & ((_ & _ & P) & _) & ((_ & _ & D) & _) & ((_ & _ & C) & _) & _).
  unfold flags_str. rewrite !no_bar_app. repeat split; auto; apply nobar_b_ok; destruct w; reflexivity.
Qed.

Lemma field_str_nobar : forall k f, ident_ok (fst (fst f)) -> no_bar (field_str k f).
Proof.
  intros k [[n a] t] (_ & _ & H). cbn [fst] in H. unfold field_str.
  assert (T : no_bar (field_ty_name t)).
  { unfold field_ty_name. destruct (as_native t); [apply prim_name_nobar|apply nobar_b_ok; reflexivity]. }
  destruct k; rewrite ?no_bar_app; repeat split; auto; apply nobar_b_ok; reflexivity.
Qed.

Lemma fields_body_nobar : forall k fs, Forall field_ok fs -> no_bar (fields_body k fs).
Proof.
  induction 1 as [|[[n a] t] fs [H _] F IH]; [apply nobar_b_ok; reflexivity|].
  assert (X : no_bar (field_str k (n, a, t))) by (apply field_str_nobar; auto).
  destruct fs; [exact X|]. change (no_bar (field_str k (n, a, t) ++ lit ", " ++ fields_body k (f :: fs))).
  rewrite !no_bar_app. repeat split; auto. apply nobar_b_ok; reflexivity.
Qed.

Lemma variant_nobar : forall v, variant_ok v -> no_bar (variant_str v).
Proof.
  intros [[name k] fs] (_ & (_ & _ & I) & F & _). unfold variant_str. rewrite no_bar_app. split; [exact I|].
  pose proof (fields_body_nobar k fs F) as B. unfold fields_str. destruct k, fs; rewrite ?no_bar_app; repeat split; auto;
    apply nobar_b_ok; reflexivity.
Qed.

Lemma split_join : forall l, l <> [] -> Forall no_bar l -> split_on 124 (join_bar l) = l.
Proof.
  induction l as [|s l IH]; intros Hne F; [congruence|]. inversion F as [|? ? F1 F2]; subst.
  destruct l as [|s' l]; [apply split_on_none; auto|].
  change (join_bar (s :: s' :: l)) with (s ++ 124 :: join_bar (s' :: l)).
  rewrite split_on_sep by auto. rewrite IH; auto. discriminate.
Qed.

Lemma bars_nobar : forall s, no_bar s -> filter (fun c => c =? 124) s = [].
Proof.
  induction s as [|c s IH]; intros H; cbn [filter]; auto.
  destruct (Z.eqb_spec c 124); [exfalso; apply H; cbn; auto|]. apply IH. intro; apply H; cbn; auto.
Qed.

Lemma bars_join : forall l, l <> [] -> Forall no_bar l ->
  S (length (filter (fun c => c =? 124) (join_bar l))) = length l.
Proof.
  induction l as [|s l IH]; intros Hne F; [congruence|]. inversion F as [|? ? F1 F2]; subst.
  destruct l as [|s' l].
  - cbn [join_bar]. now rewrite bars_nobar.
  - change (join_bar (s :: s' :: l)) with (s ++ 124 :: join_bar (s' :: l)).
    rewrite filter_app, bars_nobar by auto. cbn [app filter]. rewrite Z.eqb_refl. cbn [length].
    rewrite IH by (auto; discriminate). reflexivity.
Qed.

Lemma has_bar_false : forall s, no_bar s -> has_bar s = false.
Proof.
  intros s H. unfold has_bar. destruct (existsb _ s) eqn:E; auto.
  apply existsb_exists in E as (c & I & E). apply Z.eqb_eq in E. subst. contradiction.
Qed.

Lemma has_bar_join : forall l, (2 <= length l)%nat -> has_bar (join_bar l) = true.
Proof.
  intros [|s [|s' l]] H; cbn in H; try lia. unfold has_bar. apply existsb_exists. exists 124.
  split; [|reflexivity]. change (join_bar (s :: s' :: l)) with (s ++ 124 :: join_bar (s' :: l)).
  apply in_or_app. right. left. reflexivity.
Qed.

Lemma nth_variant_join : forall l k s, nth_error l k = Some s -> Forall no_bar l ->
  nth_variant (join_bar l) (Z.of_nat k) = Some s.
Proof.
  intros l k s N F. unfold nth_variant. cbv zeta.
  assert (L : (k < length l)%nat) by (apply nth_error_Some; congruence).
  rewrite split_join; [|intros ->; cbn in L; lia|auto].
  destruct (Z.ltb_spec (Z.of_nat k) (Z.of_nat (length l))); [|lia]. now rewrite Nat2Z.id.
Qed.

(** C15: device and host widths. *)
Lemma widths_agree : forall n, 2 <= n -> variants_ok n ->
  discriminant_width (n - 1) = Some (discriminant_bytes n) /\
  n <= 256 ^ Z.of_nat (discriminant_bytes n).
Proof.
  intros n H (A & B & C & D). unfold discriminant_width, discriminant_bytes.
  change (2 ^ 8) with 256. change (2 ^ 16) with 65536. change (2 ^ 32) with 4294967296 in *.
  change (2 ^ 64) with 18446744073709551616 in *.
  destruct (Z.eqb_spec n 1); [lia|].
  destruct (Z.leb_spec n 255). { destruct (Z.ltb_spec (n - 1) 256); [|lia]. split; [reflexivity|]. cbn; lia. }
  destruct (Z.ltb_spec (n - 1) 256); [lia|].
  destruct (Z.leb_spec n 65535). { destruct (Z.ltb_spec (n - 1) 65536); [|lia]. split; [reflexivity|]. cbn; lia. }
  destruct (Z.ltb_spec (n - 1) 65536); [lia|].
  destruct (Z.leb_spec n 4294967295). { destruct (Z.ltb_spec (n - 1) 4294967296); [|lia]. split; [reflexivity|]. cbn; lia. }
  destruct (Z.ltb_spec (n - 1) 4294967296); [lia|].
  destruct (Z.ltb_spec (n - 1) 18446744073709551616); [|lia]. split; [reflexivity|]. cbn; lia.
Qed.

Lemma array_arg_types : forall n, 0 <= n <= usize_max ->
  arg_types (lit "{=[?;" ++ dec_str n ++ lit "]}") ForwardsCompatible [TFormatArray n].
Proof.
  intros n H. pose proof (single_arg_types ForwardsCompatible (TFormatArray n) H eq_refl) as A.
  cbn [show_ty] in A. change (lit "{=") with (lit "{" ++ lit "=") in A.
  replace (lit "{=[?;" ++ dec_str n ++ lit "]}") with
    ((lit "{" ++ lit "=") ++ (lit "[?;" ++ dec_str n ++ lit "]") ++ lit "}"); auto.
  rewrite <- !app_assoc. reflexivity.
Qed.

Lemma dec_str_nobar : forall n, 0 <= n -> no_bar (dec_str n).
Proof.
  intros n H X. pose proof (dec_str_digits n H) as D. rewrite Forall_forall in D.
  apply D in X. unfold is_digit in X. cbn in X. discriminate.
Qed.
