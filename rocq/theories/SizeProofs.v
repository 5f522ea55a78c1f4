(** Messages take as many bytes as their types and values say. *)
From Verif Require Import Base RzcobsModel RzcobsProofs ParserModel DecoderModel EncodeModel EncodeSpec EncodeMain EncodeExamples SizeSpec.

Lemma size_app : forall a b, size (a ++ b) = size a + size b.
Proof. intros a b. unfold size. rewrite app_length. lia. Qed.
Lemma size_le : forall n x, size (le_bytes n x) = Z.of_nat n.
Proof. intros n x. unfold size. now rewrite le_bytes_length. Qed.
Lemma size_cons : forall a (b : bytes), size (a :: b) = 1 + size b.
Proof. intros a b. unfold size. cbn [length]. lia. Qed.

Section Sizes.
  Context (addr : bytes -> Z).

  Lemma istr_size : forall s, size (put_istr addr s) = 2.
  Proof. intros s. apply size_le. Qed.

  Lemma prim_size : forall p v n, prim_takes p v n -> size (put_prim addr p v) = n.
  Proof. intros p v n H. destruct H; cbn [put_prim]; rewrite ?size_app, ?size_le, ?istr_size; auto; destruct w; reflexivity. Qed.

  Lemma choice_size : forall n c, choice n c -> Z.of_nat (discriminant_bytes n) = c.
  Proof.
    intros n c H. unfold discriminant_bytes. destruct H as [|n H|n H|n H|n H]; [reflexivity|..];
      repeat match goal with |- context [if ?b then _ else _] => destruct b eqn:?E end; try reflexivity; lia.
  Qed.

  Lemma strip_prim_data : forall p v, format_data addr (RPrim p) v = put_prim addr p v.
  Proof. intros p []; reflexivity. Qed.

  Lemma data_strip : forall t v, format_data addr t v = format_data addr (strip t) v.
  Proof.
    intros t v. assert (S : forall t, strip (strip t) = strip t) by (induction t0; cbn; auto).
    destruct v; cbn [format_data]; now rewrite S.
  Qed.

  Lemma truncated_least : forall lo hi n, 0 <= lo -> lo < hi -> hi <= 128 -> bits_take lo hi n -> Z.of_nat (truncated_size lo hi) = n.
  Proof.
    intros lo hi n H0 H1 H2 [k K1 K2 K3]. unfold truncated_size. cbv zeta.
    assert (D : 0 <= (hi - 1) / 8 - lo / 8 <= 15).
    { split; [|]. - assert (lo / 8 <= (hi - 1) / 8) by (apply Z.div_le_mono; lia). lia.
      - assert ((hi - 1) / 8 < 16) by (apply Z.div_lt_upper_bound; lia). assert (0 <= lo / 8) by (apply Z.div_pos; lia). lia. }
    set (d := (hi - 1) / 8 - lo / 8) in *. clearbody d. cbn [In] in K1.
    assert (Q1 : d < 1 -> k <= 1) by (apply K3; cbn; auto). assert (Q2 : d < 2 -> k <= 2) by (apply K3; cbn; auto).
    assert (Q4 : d < 4 -> k <= 4) by (apply K3; cbn; auto). assert (Q8 : d < 8 -> k <= 8) by (apply K3; cbn; auto 9). clear K3.
    destruct (Z.eqb_spec (d + 1) 1); [lia|]. destruct (Z.eqb_spec (d + 1) 2); [lia|].
    destruct ((3 <=? d + 1) && (d + 1 <=? 4)) eqn:E4; [lia|]. destruct ((5 <=? d + 1) && (d + 1 <=? 8)) eqn:E8; lia.
  Qed.

  Fixpoint takes_size (t : rty) (v : rval) (n : Z) (H : takes t v n) {struct H} : size (format_data addr t v) = n
  with all_take_size (ts : list rty) (vs : list rval) (n : Z) (H : all_take ts vs n) {struct H} :
    size (concat (map2 (fun t' v' => put_istr addr (format_tag t') ++ format_data addr t' v') ts vs)) = n
  with fields_take_size (fs : list field) (vs : list rval) (n : Z) (H : fields_take fs vs n) {struct H} :
    size (concat (map2 (fun f v' => let '(_, a, t') := f in
          match a with
          | Some ADebug2 => put_istr addr debug_tag ++ format_data addr RDebug v'
          | Some ADisplay2 => put_istr addr display_tag ++ format_data addr RDisplay v'
          | None =>
              match as_native t' with
              | Some p => put_prim addr p v'
              | None => put_istr addr (format_tag t') ++ format_data addr t' v'
              end
          end) fs vs)) = n
  with writes_take_size (ws : list wcall) (n : Z) (H : writes_take ws n) {struct H} : size (concat (map (write_call addr) ws)) = n
  with arg_takes_size (x : ty) (a : aval) (n : Z) (H : arg_takes x a n) {struct H} : size (wire_bytes addr x a) = n
  with args_take_size (tys : list ty) (l : list aval) (n : Z) (H : args_take tys l n) {struct H} :
    length l = length tys /\ size (concat (map2 (wire_bytes addr) tys l)) = n.
  Proof.
    - assert (L : forall t vs ns, Forall2 (takes t) vs ns -> size (concat (map (format_data addr t) vs)) = sum ns).
      { fix F 4. intros t0 vs ns H0. destruct H0 as [|v0 n0 vs ns H1 H0]; [reflexivity|]. cbn [map concat sum fold_right]. rewrite size_app.
        rewrite (takes_size _ _ _ H1). fold (sum ns). rewrite (F _ _ _ H0). reflexivity. }
      destruct H as [p v n H|t v n H|t v n H|t vs ns H|k t vs ns E H|k t vs ns E H|s ts vs n H|alts k s ts vs n E H|s|s|name k fs vs n H
        |variants j name k fs vs c n E C H|w n p d c x|ws n H].
      + rewrite strip_prim_data. now apply prim_size.
      + rewrite data_strip. cbn [strip]. rewrite <- data_strip. now apply takes_size.
      + rewrite data_strip. cbn [strip]. rewrite <- data_strip. now apply takes_size.
      + cbn [format_data strip]. rewrite !size_app, size_le, istr_size, (L _ _ _ H). lia.
      + cbn [format_data strip]. rewrite E, !size_app, istr_size, (L _ _ _ H). lia.
      + cbn [format_data strip]. rewrite E, !size_app, size_le, istr_size, (L _ _ _ H). lia.
      + exact (all_take_size ts vs n H).
      + cbn [format_data strip]. rewrite E, size_app, size_le, (all_take_size ts vs n H). reflexivity.
      + cbn [format_data strip]. rewrite size_app. reflexivity.
      + cbn [format_data strip]. rewrite size_app. reflexivity.
      + exact (fields_take_size fs vs n H).
      + pose proof (fields_take_size fs vs n H) as G. cbn [format_data strip]. rewrite size_app, size_le.
        transitivity (Z.of_nat (discriminant_bytes (Z.of_nat (length variants))) + n); [|now rewrite (choice_size _ _ C)]. apply (f_equal2 Z.add); [reflexivity|].
        rewrite <- G. apply (f_equal (fun x : list field => size (concat (map2 (fun f v' => let '(_, a, t') := f in
          match a with
          | Some ADebug2 => put_istr addr debug_tag ++ format_data addr RDebug v'
          | Some ADisplay2 => put_istr addr display_tag ++ format_data addr RDisplay v'
          | None =>
              match as_native t' with
              | Some p => put_prim addr p v'
              | None => put_istr addr (format_tag t') ++ format_data addr t' v'
              end
          end) x vs)))). exact (f_equal (fun o : option variant => match o with Some (_, _, fs) => fs | None => [] end) E).
      + cbn [format_data strip put_prim]. now rewrite size_le.
      + transitivity (size (concat (map (write_call addr) ws) ++ le_bytes 2 0)); [reflexivity|]. rewrite size_app, (writes_take_size _ _ H). reflexivity.
    - destruct H as [|t ts v vs n m H1 H2]; [reflexivity|]. cbn [map2 concat]. rewrite !size_app, istr_size, (takes_size _ _ _ H1), (all_take_size _ _ _ H2). lia.
    - destruct H as [|name a t fs s vs m H|name t p fs v vs n m E P H|name t fs v vs n m E P H]; [reflexivity|..]; cbn [map2 concat]; rewrite size_app,
        (fields_take_size _ _ _ H).
      + destruct a; cbn [format_data strip]; rewrite !size_app, istr_size; reflexivity.
      + rewrite E, (prim_size _ _ _ P). reflexivity.
      + rewrite E, size_app, istr_size, (takes_size _ _ _ P). lia.
    - destruct H as [|s tys args ws n m E A H|t ws' ws n m E A H|t v ws n m E A H]; [reflexivity|..]; cbn [map concat]; rewrite size_app, (writes_take_size _ _ H).
      + destruct (args_take_size _ _ _ A) as [K1 K2]. destruct E as (frags & E1 & E2).
        rewrite (write_call_eq addr s args frags E1), size_app, istr_size.
        rewrite (encode_args_wire addr s Strict tys args frags (ex_intro _ frags (conj E1 E2)) E1 K1), K2. lia.
      + rewrite (write_splice addr t ws' E), (writes_take_size _ _ A). reflexivity.
      + rewrite (write_delegate addr t v E), size_app, istr_size, (takes_size _ _ _ A). lia.
    - assert (L : forall t vs ns, Forall2 (takes t) vs ns -> size (concat (map (format_data addr t) vs)) = sum ns).
      { fix F 4. intros t0 vs ns H0. destruct H0 as [|v0 n0 vs ns H1 H0]; [reflexivity|]. cbn [map concat sum fold_right]. rewrite size_app.
        rewrite (takes_size _ _ _ H1). fold (sum ns). rewrite (F _ _ _ H0). reflexivity. }
      destruct H as [x p v n P H|t v n H|t vs ns H|k t vs ns H|s|s|s|k s|lo hi w x n H0 H1 H2 H].
      + unfold wire_bytes. cbn [encode_arg first_ty p_index p_ty Z.eqb]. rewrite P. destruct x; now apply prim_size.
      + change (wire_bytes addr TFormat (AvFmt t v)) with (put_istr addr (format_tag t) ++ format_data addr t v).
        rewrite size_app, istr_size. now rewrite (takes_size _ _ _ H).
      + change (wire_bytes addr TFormatSlice (AvSlice t vs)) with (le_bytes 4 (Z.of_nat (length vs)) ++ put_istr addr (format_tag t) ++ concat (map (format_data addr t) vs)).
        rewrite !size_app, size_le, istr_size, (L _ _ _ H). lia.
      + change (wire_bytes addr (TFormatArray k) (AvSlice t vs)) with (put_istr addr (format_tag t) ++ concat (map (format_data addr t) vs)).
        rewrite !size_app, istr_size, (L _ _ _ H). lia.
      + change (wire_bytes addr TDebug (AvText s)) with (s ++ [255]). rewrite size_app. reflexivity.
      + change (wire_bytes addr TDisplay (AvText s)) with (s ++ [255]). rewrite size_app. reflexivity.
      + change (wire_bytes addr TU8Slice (AvBytes s)) with (le_bytes 4 (Z.of_nat (length s)) ++ s). rewrite size_app, size_le. reflexivity.
      + reflexivity.
      + change (wire_bytes addr (TBitField lo hi) (AvBits w x)) with (put_bits lo hi x). unfold put_bits. rewrite size_le. now apply truncated_least.
    - destruct H as [|x tys a l n m A H]; [split; reflexivity|]. destruct (args_take_size _ _ _ H) as [K1 K2]. split; [cbn [length]; now rewrite K1|].
      cbn [map2 concat]. rewrite size_app, (arg_takes_size _ _ _ A), K2. reflexivity.
  Qed.

  Theorem args_size : forall s args n, string_takes s args n -> size (macro_args addr s args) = n.
  Proof.
    intros s args n (tys & T & H). destruct (args_take_size _ _ _ H) as [K1 K2]. destruct T as (frags & E1 & E2). unfold macro_args. rewrite E1.
    now rewrite (encode_args_wire addr s Strict tys args frags (ex_intro _ frags (conj E1 E2)) E1 K1).
  Qed.

  Theorem frame_size : forall index timestamp ts_args format args n m,
    match timestamp with Some s => string_takes s ts_args m | None => m = 0 end -> string_takes format args n ->
    size (encode_frame addr index timestamp ts_args format args) = 2 + m + n.
  Proof.
    intros index timestamp ts_args format args n m T H. unfold encode_frame. rewrite !size_app, size_le, (args_size _ _ _ H).
    destruct timestamp as [s|]; [rewrite (args_size _ _ _ T); lia|subst m; cbn; lia].
  Qed.
End Sizes.

(** Every message has a size. *)
Lemma bits_take_exists lo hi : 0 <= lo -> lo < hi -> hi <= 128 -> exists n, bits_take lo hi n.
Proof.
  intros H0 H1 H2. assert (D0 : 0 <= (hi - 1) / 8 - lo / 8) by (pose proof (Z.div_le_mono lo (hi - 1) 8); lia).
  assert (D1 : (hi - 1) / 8 - lo / 8 < 16) by (pose proof (Z.div_lt_upper_bound (hi - 1) 8 16); pose proof (Z.div_pos lo 8); lia).
  assert (K : forall n, In n [1; 2; 4; 8; 16] -> (hi - 1) / 8 - lo / 8 < n ->
    (forall m, In m [1; 2; 4; 8; 16] -> (hi - 1) / 8 - lo / 8 < m -> n <= m) -> exists n, bits_take lo hi n) by (intros n A B C; exists n; now constructor).
  set (d := (hi - 1) / 8 - lo / 8) in *. clearbody d.
  assert (C : d < 1 \/ 1 <= d < 2 \/ 2 <= d < 4 \/ 4 <= d < 8 \/ 8 <= d < 16) by lia.
  destruct C as [C|[C|[C|[C|C]]]]; [apply (K 1)|apply (K 2)|apply (K 4)|apply (K 8)|apply (K 16)];
    try (cbn; tauto); try lia; intros m [<-|[<-|[<-|[<-|[<-|[]]]]]]; lia.
Qed.

Lemma choice_exists n : 1 <= n -> exists c, choice n c.
Proof.
  intros H. assert (C : n = 1 \/ 2 <= n <= 255 \/ 256 <= n <= 65535 \/ 65536 <= n < 2 ^ 32 \/ 2 ^ 32 <= n) by lia.
  destruct C as [->|[C|[C|[C|C]]]]; eexists; [apply C_one|now apply C_1|now apply C_2|now apply C_4|now apply C_8].
Qed.

Section Total.
  Context (addr : bytes -> Z) (tbl : table).

  Lemma prim_means_takes p v a : prim_means addr tbl p v a -> exists n, prim_takes p v n.
  Proof using. intros H. destruct H; eexists; constructor. Qed.

  Theorem means_takes :
    (forall t v f a, means addr tbl t v f a -> exists n, takes t v n) /\
    (forall t vs es, means_elements addr tbl t vs es -> exists ns, Forall2 (takes t) vs ns) /\
    (forall ts vs a, means_components addr tbl ts vs a -> exists n, all_take ts vs n) /\
    (forall fs vs a, means_fields addr tbl fs vs a -> exists n, fields_take fs vs n) /\
    (forall ws a, means_writes addr tbl ws a -> exists n, writes_take ws n) /\
    (forall tys avs a, means_args addr tbl tys avs a -> exists n, args_take tys avs n) /\
    (forall x av a, means_arg addr tbl x av a -> exists n, arg_takes x av n).
  Proof using.
    apply means_combined.
    - intros p v a H. destruct (prim_means_takes p v a H) as [n K]. exists n. now constructor.
    - intros t v f a _ [n K]. exists n. now constructor.
    - intros t v f a _ [n K]. exists n. now constructor.
    - intros t vs es _ _ _ [ns K]. eexists. econstructor; eassumption.
    - intros n t vs es _ _ _ _ [ns K]. destruct (listed_length n) eqn:E; eexists; [now apply K_array; [|eassumption]|now apply K_big_array; [|eassumption]].
    - intros s ts vs args _ _ _ [n K]. eexists. constructor. eassumption.
    - intros alts k s ts vs args E _ _ _ _ _ [n K]. eexists. econstructor; eassumption.
    - intros s _. eexists. constructor.
    - intros s _. eexists. constructor.
    - intros ws args _ [n K]. eexists. constructor. eassumption.
    - intros name k fs vs args _ _ _ [n K]. eexists. constructor. eassumption.
    - intros variants j name k fs vs args E _ _ _ _ [n K]. destruct (choice_exists (Z.of_nat (length variants))) as [c C].
      { destruct variants; [destruct j; discriminate|cbn [length]; lia]. }
      eexists. econstructor; eassumption.
    - intros w n p d c x _ _. eexists. constructor.
    - intros t. exists []. constructor.
    - intros t v vs f a es _ [n K] _ [ns L]. exists (n :: ns). now constructor.
    - exists 0. constructor.
    - intros t ts v vs f a args _ _ [n K] _ [m L]. eexists. constructor; eassumption.
    - exists 0. constructor.
    - intros n t fs s vs args _ _ _ [m L]. eexists. constructor; eassumption.
    - intros n t fs s vs args _ _ _ [m L]. eexists. constructor; eassumption.
    - intros n t p fs v vs a args E P _ [m L]. destruct (prim_means_takes p v a P) as [k K]. eexists. eapply F_native; eassumption.
    - intros n t fs v vs f a args E _ _ [k K] _ [m L]. eexists. eapply F_format; eassumption.
    - exists 0. constructor.
    - intros s tys avs ws a args _ T _ [n K] _ [m L]. eexists. econstructor; eassumption.
    - intros t ws' ws a args E _ [n K] _ [m L]. eexists. econstructor; eassumption.
    - intros t v f ws a args E _ _ _ _ [n K] _ [m L]. eexists. econstructor; eassumption.
    - exists 0. constructor.
    - intros x tys av avs a args _ [n K] _ [m L]. eexists. constructor; eassumption.
    - intros x p v a E P. destruct (prim_means_takes p v a P) as [n K]. exists n. econstructor; eassumption.
    - intros t v f a _ _ [n K]. eexists. constructor. eassumption.
    - intros t vs es _ _ _ [ns K]. eexists. constructor. eassumption.
    - intros n t vs es _ _ _ [ns K]. eexists. constructor. eassumption.
    - intros s _. eexists. constructor.
    - intros s _. eexists. constructor.
    - intros s _ _. eexists. constructor.
    - intros n s _ _. eexists. constructor.
    - intros lo hi w x H0 H1 H2 _ _ _. destruct (bits_take_exists lo hi H0 H1 H2) as [n K]. exists n. now constructor.
  Qed.

  (** Every statement that is shown as something has a size. *)
  Theorem frame_takes index ts_args args fr : frame_means addr tbl index ts_args args fr ->
    (exists n, string_takes (f_format fr) args n) /\
    (forall s, f_timestamp_format fr = Some s -> exists m, string_takes s ts_args m).
  Proof using.
    intros (_ & _ & _ & (tys & T & H) & M). split.
    - destruct (proj1 (proj2 (proj2 (proj2 (proj2 (proj2 means_takes))))) _ _ _ H) as [n K]. exists n, tys. now split.
    - intros s E. destruct (t_timestamp tbl) as [e|]; destruct M as (M1 & M2); [|congruence]. destruct M2 as (ty2 & T2 & H2).
      rewrite E in M1. injection M1 as ->.
      destruct (proj1 (proj2 (proj2 (proj2 (proj2 (proj2 means_takes))))) _ _ _ H2) as [n K]. exists n, ty2. now split.
  Qed.
End Total.

(** One argument exchanged for another. *)
Lemma map2_app {A B C} (f : A -> B -> C) l1 l2 r1 r2 : length l1 = length r1 -> map2 f (l1 ++ l2) (r1 ++ r2) = map2 f l1 r1 ++ map2 f l2 r2.
Proof. revert r1. induction l1 as [|a l1 IH]; intros [|b r1] E; try discriminate E; [reflexivity|]. cbn [map2 app]. injection E as E. now rewrite (IH _ E). Qed.

Section Exchange.
  Context (addr : bytes -> Z).

  Lemma macro_args_at s pre post before after x a : arg_types s Strict (pre ++ x :: post) -> length before = length pre -> length after = length post ->
    size (macro_args addr s (before ++ a :: after)) =
      size (concat (map2 (wire_bytes addr) pre before)) + size (wire_bytes addr x a) + size (concat (map2 (wire_bytes addr) post after)).
  Proof using.
    intros T L1 L2. pose proof T as T'. destruct T as (frags & E1 & E2). unfold macro_args. rewrite E1.
    rewrite (encode_args_wire addr s Strict _ _ frags T' E1).
    - rewrite map2_app by auto. cbn [map2]. rewrite concat_app. cbn [concat]. rewrite !size_app. lia.
    - rewrite !app_length. cbn [length]. congruence.
  Qed.

  Theorem exchange s1 s2 pre post before after x y a b d :
    arg_types s1 Strict (pre ++ x :: post) -> arg_types s2 Strict (pre ++ y :: post) -> length before = length pre -> length after = length post ->
    size (wire_bytes addr x a) = size (wire_bytes addr y b) + d ->
    size (macro_args addr s1 (before ++ a :: after)) = size (macro_args addr s2 (before ++ b :: after)) + d.
  Proof using.
    intros T1 T2 L1 L2 D. rewrite (macro_args_at s1 pre post before after x a T1 L1 L2), (macro_args_at s2 pre post before after y b T2 L1 L2), D. lia.
  Qed.

  Lemma wire_prim x p v : prim_of_ty x = Some p -> size (wire_bytes addr TFormat (AvFmt (RPrim p) v)) = size (wire_bytes addr x (AvPrim v)) + 2.
  Proof using.
    intros P. transitivity (size (put_istr addr (format_tag (RPrim p)) ++ format_data addr (RPrim p) v)); [reflexivity|].
    rewrite size_app, istr_size. replace (wire_bytes addr x (AvPrim v)) with (format_data addr (RPrim p) v); [lia|].
    unfold wire_bytes. cbn [encode_arg first_ty p_index p_ty Z.eqb]. rewrite P, (data_prim addr p v). destruct x; reflexivity.
  Qed.

  Lemma wire_slice t vs : size (wire_bytes addr TFormat (AvFmt (RSlice t) (VList vs))) = size (wire_bytes addr TFormatSlice (AvSlice t vs)) + 2.
  Proof using.
    transitivity (size (put_istr addr (format_tag (RSlice t)) ++ wire_bytes addr TFormatSlice (AvSlice t vs))); [reflexivity|].
    rewrite size_app, istr_size. lia.
  Qed.

  Lemma wire_array n t vs : size (wire_bytes addr TFormatSlice (AvSlice t vs)) = size (wire_bytes addr (TFormatArray n) (AvSlice t vs)) + 4.
  Proof using.
    transitivity (size (le_bytes 4 (Z.of_nat (length vs)) ++ wire_bytes addr (TFormatArray n) (AvSlice t vs))); [reflexivity|]. rewrite size_app, size_le. lia.
  Qed.

  Lemma wire_bytes_slice s : size (wire_bytes addr TFormatSlice (AvSlice (RPrim (PU W8)) (map VNum s))) = size (wire_bytes addr TU8Slice (AvBytes s)) + 2.
  Proof using.
    transitivity (size (le_bytes 4 (Z.of_nat (length (map VNum s))) ++ put_istr addr (format_tag (RPrim (PU W8))) ++ concat (map (format_data addr (RPrim (PU W8))) (map VNum s)))); [reflexivity|].
    transitivity (size (le_bytes 4 (Z.of_nat (length s)) ++ s) + 2); [|reflexivity].
    rewrite !size_app, !size_le, istr_size.
    assert (E : size (concat (map (format_data addr (RPrim (PU W8))) (map VNum s))) = size s); [|lia].
    induction s as [|b s IH]; [reflexivity|]. cbn [map concat]. rewrite size_app, IH, (data_prim addr (PU W8) (VNum b)).
    change (size (put_prim addr (PU W8) (VNum b))) with 1. unfold size. cbn [length]. lia.
  Qed.

  Lemma wire_byte_array n s : size (wire_bytes addr TU8Slice (AvBytes s)) = size (wire_bytes addr (TU8Array n) (AvBytes s)) + 4.
  Proof using.
    transitivity (size (le_bytes 4 (Z.of_nat (length s)) ++ s)); [reflexivity|]. rewrite size_app, size_le.
    change (wire_bytes addr (TU8Array n) (AvBytes s)) with s. lia.
  Qed.

  Lemma wire_istr s s' : size (wire_bytes addr TStr (AvPrim (VText s))) = size (wire_bytes addr TIStr (AvPrim (VText s'))) + (2 + size s).
  Proof using.
    transitivity (size (le_bytes 4 (Z.of_nat (length s)) ++ s)); [reflexivity|]. rewrite size_app, size_le.
    change (size (wire_bytes addr TIStr (AvPrim (VText s')))) with (size (put_istr addr s')). rewrite istr_size. lia.
  Qed.
End Exchange.

(** The rest of C74. *)
Lemma string_takes_unique s args n n' : string_takes s args n -> string_takes s args n' -> n' = n.
Proof. intros H H'. rewrite <- (args_size (fun _ => 0) _ _ _ H). symmetry. now apply args_size. Qed.

Theorem frame_total : forall addr tbl index ts_args args fr,
  frame_means addr tbl index ts_args args fr ->
  exists m n,
    match f_timestamp_format fr with Some s => string_takes s ts_args m | None => m = 0 end /\
    string_takes (f_format fr) args n /\
    (forall n', string_takes (f_format fr) args n' -> n' = n) /\
    forall addr', size (encode_frame addr' index (f_timestamp_format fr) ts_args (f_format fr) args) = 2 + m + n.
Proof.
  intros addr tbl index ts_args args fr H. destruct (frame_takes _ _ _ _ _ _ H) as [[n N] M].
  assert (K : exists m, match f_timestamp_format fr with Some s => string_takes s ts_args m | None => m = 0 end)
    by (destruct (f_timestamp_format fr) as [s|]; [now apply M|now exists 0]).
  destruct K as [m K]. exists m, n. split; [exact K|]. split; [exact N|]. split; [intros n'; now apply string_takes_unique|].
  intros addr'. now apply frame_size.
Qed.

Theorem line_size : forall addr index timestamp ts_args format args m n history chunks,
  match timestamp with Some s => string_takes s ts_args m | None => m = 0 end ->
  string_takes format args n ->
  concat chunks = encode_frame addr index timestamp ts_args format args ->
  size (snd (frame_chunks (fst (frames_chunks enc_new history)) chunks)) <=
    (2 + m + n) + (2 + m + n) / 134 + match history with [] => 3 | _ :: _ => 2 end.
Proof.
  intros addr index timestamp ts_args format args m n history chunks T H E. pose proof (C04_lemma history chunks) as C.
  cbv zeta in C. rewrite E in C. fold (size (encode_frame addr index timestamp ts_args format args)) in C.
  rewrite (frame_size addr index timestamp ts_args format args n m T H) in C. unfold size. destruct history; lia.
Qed.

Theorem text_costs_more : exists addr s, size s = 43 /\ size (macro_args addr (lit "{=str}") [AvPrim (VText s)]) <> 43.
Proof. exists (fun _ => 0), (lit "The quick brown fox jumps over the lazy dog"). split; [reflexivity|]. vm_compute. discriminate. Qed.

Theorem booleans_cost_more : exists addr s a b c,
  arg_types s Strict [TBool; TBool; TBool] /\ size (macro_args addr s [AvPrim (VNum a); AvPrim (VNum b); AvPrim (VNum c)]) <> 1.
Proof.
  exists (fun _ => 0), (lit "enabled: {=bool}, ready: {=bool}, timeout: {=bool}"), 0, 0, 0. split; [|vm_compute; discriminate].
  types_tac.
Qed.

Definition sample_x : rty := RStruct (lit "X") KNamed [(lit "y", None, RPrim (PU W16)); (lit "z", None, RPrim (PU W8))].
Definition sample_xs : list rval := [VList [VNum 1; VNum 2]; VList [VNum 3; VNum 4]].

Lemma sample_take : Forall2 (takes sample_x) sample_xs [3; 3].
Proof.
  assert (K : forall a b, takes sample_x (VList [VNum a; VNum b]) 3).
  { intros a b. apply K_struct. apply (F_native _ _ (PU W16) _ _ _ 2 1); [reflexivity|apply (T_u W16)|].
    apply (F_native _ _ (PU W8) _ _ _ 1 0); [reflexivity|apply (T_u W8)|constructor]. }
  apply Forall2_cons; [apply K|]. apply Forall2_cons; [apply K|]. constructor.
Qed.

Lemma sample_sizes :
  string_takes (lit "xs={}") [AvFmt (RSlice sample_x) (VList sample_xs)] 14 /\
  string_takes (lit "xs={=[?]}") [AvSlice sample_x sample_xs] 12 /\
  string_takes (lit "xs={=[?; 2]}") [AvSlice sample_x sample_xs] 8 /\
  string_takes (lit "{0=0..8} {0=8..12} {0=12..16}") [AvBits W16 513] 2 /\
  string_takes (lit "{0=8..12}") [AvBits W32 25359] 1.
Proof.
  repeat split.
  - exists [TFormat]. split; [types_tac|]. apply (L_cons _ _ _ _ 14 0); [|constructor]. apply (G_fmt _ _ 12). apply (K_slice _ _ [3; 3]). apply sample_take.
  - exists [TFormatSlice]. split; [types_tac|]. apply (L_cons _ _ _ _ 12 0); [|constructor]. apply (G_slice _ _ [3; 3]). apply sample_take.
  - exists [TFormatArray 2]. split; [types_tac|]. apply (L_cons _ _ _ _ 8 0); [|constructor]. apply (G_array _ _ _ [3; 3]). apply sample_take.
  - exists [TBitField 0 16]. split; [types_tac|]. apply (L_cons _ _ _ _ 2 0); [|constructor]. constructor; [lia..|].
    constructor; [cbn; tauto|reflexivity|]. cbn. intros m [<-|[<-|[<-|[<-|[<-|[]]]]]]; lia.
  - exists [TBitField 8 12]. split; [types_tac|]. apply (L_cons _ _ _ _ 1 0); [|constructor]. constructor; [lia..|].
    constructor; [cbn; tauto|reflexivity|]. cbn. intros m [<-|[<-|[<-|[<-|[<-|[]]]]]]; lia.
Qed.
