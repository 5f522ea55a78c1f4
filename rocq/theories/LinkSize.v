(** How much a program may contain (C62). *)
From Verif Require Import Base Utf8 ParserModel DecoderModel EncodeModel EncodeSpec Numerals DisplayModel EnvFilterModel EnvFilterSpec
  SymbolModel SymbolProofs TableModel TableSpec TableProofs TableMain LevelProofs FlagsModel FlagsSpec FlagsProofs LinkModel LinkSpec LinkProofs LinkMain LinkTable.
From Coq Require Import Permutation.

Fixpoint total (l : list static) : Z := match l with [] => 0 | st :: l' => size st + total l' end.

Lemma total_app : forall l m, total (l ++ m) = total l + total m.
Proof. induction l as [|st l IH]; intros m; cbn [total app] in *; [lia|]. rewrite IH. lia. Qed.

Lemma total_perm : forall l m, Permutation l m -> total l = total m.
Proof.
  induction 1 as [|st l m _ IH|x y l|l m n _ IH1 _ IH2]; cbn [total]; lia.
Qed.

Lemma spaced_total : forall pl here stop, spaced here pl stop -> here + total (map fst pl) <= stop.
Proof.
  induction pl as [|[st a] pl IH]; intros here stop H; cbn [spaced map fst total] in *; [lia|].
  destruct H as [H S]. apply IH in S. lia.
Qed.

Lemma align_one : forall h, align_up 1 h = h.
Proof. intros h. unfold align_up. rewrite Z.mod_1_r. lia. Qed.

Lemma lay_ones : forall l here, Forall (fun st => st_align st = 1) l -> snd (lay here l) = here + total l.
Proof.
  induction l as [|st l IH]; intros here F; cbn [lay total]; [cbn; lia|]. inversion F as [|? ? A F']; subst.
  rewrite A, align_one. specialize (IH (here + Z.of_nat (length (st_data st))) F'). destruct (lay _ l) as [pl e]. cbn [snd] in *. rewrite IH.
  unfold size. lia.
Qed.

Section Room.
  Context (p : program) (A : 0 < p_align p).

  Lemma stop_least : 1 + total (used p) <= stop_of (used p) 6.
  Proof using A.
    pose proof (spaced_total _ _ _ (layout_spaced _ (used_ok p A))) as H.
    rewrite (total_perm _ _ (layout_perm _ (used_ok p A))) in H. exact H.
  Qed.

  Lemma stop_exact : Forall (fun st => st_align st = 1) (used p) -> stop_of (used p) 6 = 1 + total (used p).
  Proof using A.
    intros F.
    assert (G : forall i, Forall (fun st => st_align st = 1) (group (used p) i)).
    { intros i. apply Forall_forall. intros st I. apply filter_In in I as [I _]. rewrite Forall_forall in F. auto. }
    assert (E : forall i, stop_of (used p) i = start_of (used p) i + total (group (used p) (Z.of_nat i))).
    { intros i. pose proof (part_lay (used p) i) as H. rewrite <- (lay_ones _ _ (G (Z.of_nat i))), H. reflexivity. }
    pose proof (groups_perm [0; 1; 2; 3; 4; 5; 6] (used p)) as P. cbn [flat_map] in P.
    rewrite <- (total_perm _ _ (P ltac:(repeat constructor; cbn; intuition lia)
      ltac:(eapply Forall_impl; [|exact (used_ok p A)]; intros st (_ & _ & R); cbn [In]; lia))).
    rewrite !total_app. pose proof (E 6%nat). pose proof (E 5%nat). pose proof (E 4%nat). pose proof (E 3%nat). pose proof (E 2%nat). pose proof (E 1%nat).
    pose proof (E 0%nat). cbn [start_of] in *. change (Z.of_nat 0) with 0 in *. change (Z.of_nat 1) with 1 in *. change (Z.of_nat 2) with 2 in *.
    change (Z.of_nat 3) with 3 in *. change (Z.of_nat 4) with 4 in *. change (Z.of_nat 5) with 5 in *. change (Z.of_nat 6) with 6 in *.
    change (total []) with 0. lia.
  Qed.

  (** The size of what one macro leaves. *)
  Definition times (u : use) : Z := match u_macro u with UTimestamp _ => 5 | _ => 0 end.

  Lemma flag_statics_length : forall fls b i,
    Z.of_nat (length (concat (mapi (fun i fl => if fl_enabled fl then [(static_name b i fl, le_bytes 16 (fl_value fl))] else []) i fls))) =
    Z.of_nat (length (filter fl_enabled fls)).
  Proof.
    induction fls as [|fl fls IH]; intros b i; cbn [mapi concat filter]; [reflexivity|]. rewrite app_length.
    destruct (fl_enabled fl); cbn [length]; specialize (IH b (i + 1)); lia.
  Qed.

  Lemma use_total : forall u, total (filter kept (statics_of (p_align p) u)) =
    (if u_live u && makes_string u then 1 else 0) + 16 * flags_of_use u + times u.
  Proof.
    intros u. unfold statics_of. rewrite filter_app, total_app.
    assert (S : total (filter kept match string_of u with Some (kind, prefix, s) => [static_variable (u_at u) kind prefix s (u_live u)] | None => [] end) =
      if u_live u && makes_string u then 1 else 0).
    { destruct (string_of u) as [[[kind prefix] s]|] eqn:E.
      - cbn [filter]. rewrite (variable_kept u) by exact E. replace (makes_string u) with true by (unfold makes_string, string_of in *; destruct (u_macro u); auto; discriminate).
        destruct (u_live u); reflexivity.
      - replace (makes_string u) with false by (unfold makes_string, string_of in *; destruct (u_macro u); auto; discriminate). now rewrite andb_false_r. }
    rewrite S. unfold flags_of_use, times. destruct (u_macro u) as [l t|t|t|t|t|t|ident w fls|t| |] eqn:M; try (cbn; lia).
    rewrite (filter_all kept).
    2: { apply Forall_forall. intros st I. apply in_map_iff in I as (x & <- & _). reflexivity. }
    unfold enabled. rewrite map_length. pose proof (flag_statics_length fls (flags_at (u_at u) ident w fls) 0) as Q.
    change (concat _) with (flag_statics (flags_at (u_at u) ident w fls)) in Q. cbn [bf_flags flags_at]. rewrite <- Q. clear Q.
    assert (Len : forall x, In x (flag_statics (flags_at (u_at u) ident w fls)) -> length (snd x) = 16%nat).
    { intros x I. apply statics_in in I as (n & fl & _ & _ & ->). cbn [snd]. apply le_bytes_length. }
    revert Len. generalize (flag_statics (flags_at (u_at u) ident w fls)). induction l as [|x l IH]; intros Len; cbn [map total length]; [lia|].
    specialize (IH ltac:(intros y I; apply Len; now right)). specialize (Len x ltac:(now left)). unfold size. cbn [st_data]. rewrite Len. lia.
  Qed.

  Definition all_times (us : list use) : Z := fold_right (fun u n => times u + n) 0 us.

  Lemma used_total : total (used p) = strings p + 16 * flag_count p + all_times (p_uses p) + 2.
  Proof.
    unfold used, statics. rewrite filter_app, total_app. replace (total (filter kept (defmt_statics (p_features p)))) with 2 by (destruct (feat_raw (p_features p)) eqn:E; unfold defmt_statics; rewrite E; reflexivity).
    f_equal. unfold strings, flag_count. induction (p_uses p) as [|u us IH]; [reflexivity|]. cbn [flat_map filter fold_right all_times]. fold (all_times us).
    rewrite filter_app, total_app, IH, use_total. destruct (u_live u && makes_string u); cbn [length]; lia.
  Qed.

  Lemma times_nonneg : forall us, 0 <= all_times us.
  Proof. induction us as [|u us IH]; cbn [all_times fold_right]; [lia|]. fold (all_times us). unfold times. destruct (u_macro u); lia. Qed.

  Lemma times_in : forall us u s, In u us -> u_macro u = UTimestamp s -> 5 <= all_times us.
  Proof.
    induction us as [|v us IH]; intros u s I M; [destruct I|]. cbn [all_times fold_right]. fold (all_times us). destruct I as [->|I].
    - unfold times. rewrite M. pose proof (times_nonneg us). lia.
    - specialize (IH u s I M). unfold times. destruct (u_macro v); lia.
  Qed.
End Room.

(** Strings take one index, flags sixteen. *)
Theorem budget : forall p k, program_ok p -> link p = Ok k -> strings p + 16 * flag_count p <= 65530.
Proof.
  intros p k [A _] L. apply (link_iff p k A) in L as (_ & _ & _ & E & _). pose proof (stop_least p A). rewrite used_total in H. pose proof (times_nonneg (p_uses p)). lia.
Qed.

Theorem budget_time : forall p k, program_ok p -> has_timestamp p -> link p = Ok k -> strings p + 16 * flag_count p <= 65525.
Proof.
  intros p k [A _] (s & u & Iu & M) L. apply (link_iff p k A) in L as (_ & _ & _ & E & _). pose proof (stop_least p A). rewrite used_total in H.
  pose proof (times_in (p_uses p) u s Iu M). lia.
Qed.

Lemma resolve_all_iff : forall p ns, (exists cs, resolve_all p ns = Some cs) <-> Forall (fun n => In n (defined p) \/ provided (p_features p) n <> None) ns.
Proof.
  intros p ns. assert (R : forall n, (exists d, resolve p n = Some d) <-> In n (defined p) \/ provided (p_features p) n <> None).
  { intros n. unfold resolve. destruct (existsb (beq n) (defined p)) eqn:E.
    - apply existsb_exists in E as (m & I & Q). apply beq_true in Q. subst m. split; [auto|eauto].
    - split; [intros (d & ->); right; discriminate|]. intros [I|I]; [|destruct (provided (p_features p) n); [eauto|congruence]].
      assert (existsb (beq n) (defined p) = true); [|congruence]. apply existsb_exists. exists n. split; [exact I|apply beq_refl]. }
  induction ns as [|n ns IH]; cbn [resolve_all]; [split; [constructor|eauto]|]. rewrite Forall_cons_iff, <- R, <- IH. split.
  - intros (cs & E). destruct (resolve p n) as [d|]; [|discriminate]. destruct (resolve_all p ns) as [r|]; [|discriminate]. split; eauto.
  - intros [(d & ->) (cs & ->)]. eauto.
Qed.

Definition plain (p : program) : Prop := forall u, In u (p_uses p) ->
  match u_macro u with UBitflags _ _ _ | UTimestamp _ => False | _ => True end.

Lemma plain_counts : forall us, (forall u, In u us -> match u_macro u with UBitflags _ _ _ | UTimestamp _ => False | _ => True end) ->
  fold_right (fun u n => flags_of_use u + n) 0 us = 0 /\ all_times us = 0.
Proof.
  induction us as [|u us IH]; intros H; cbn [fold_right all_times]; [auto|]. fold (all_times us).
  destruct IH as [H1 H2]; [intros v I; apply H; now right|]. rewrite H1, H2. specialize (H u ltac:(now left)). unfold flags_of_use, times. destruct (u_macro u); try contradiction; auto.
Qed.

Lemma plain_align : forall p, plain p -> Forall (fun st => st_align st = 1) (used p).
Proof.
  intros p H. apply Forall_forall. intros st I. apply filter_In in I as [I _]. apply statics_origin in I.
  destruct I as [u kind g prefix s Iu G E|u ident w fls x Iu M Ix|u s Iu M|u s Iu M| |]; try reflexivity;
    exfalso; specialize (H u Iu); rewrite M in H; exact H.
Qed.

(** When a program without flags and timestamp can be linked. *)
Theorem capacity : forall p, program_ok p -> plain p ->
  (exists k, link p = Ok k) <-> chosen_encoding (p_features p) <> None /\ NoDup (defined p) /\ resolvable p /\ strings p <= 65530.
Proof.
  intros p [A O] H. pose proof (stop_exact p A (plain_align p H)) as E. rewrite used_total in E. destruct (plain_counts (p_uses p) H) as [H1 H2].
  unfold flag_count in E. rewrite H1, H2 in E. unfold resolvable. rewrite <- resolve_all_iff. split.
  - intros (k & L). apply (link_iff p k A) in L as (C & N & R & S & _). repeat split; auto; [eauto|lia].
  - intros (C & N & (cs & R) & S).
    exists (MkImage (laid_out (used p)) (the_markers (used p)) (contents 0 (laid_out (used p))) cs). apply link_iff; [exact A|]. cbn [im_calls im_placed im_markers im_data]. repeat split; auto. lia.
Qed.

(** The error when only the assertion fails. *)
Lemma too_many : forall p, program_ok p -> chosen_encoding (p_features p) <> None -> NoDup (defined p) -> resolvable p ->
  65530 < strings p + 16 * flag_count p -> link p = Err TooMany.
Proof.
  intros p [A O] C N R S. unfold resolvable in R. apply resolve_all_iff in R as (cs & R).
  pose proof (stop_least p A) as E. rewrite used_total in E. pose proof (times_nonneg (p_uses p)) as T.
  unfold link. fold (used p). rewrite (script_run (used p)). fold (the_markers (used p)). change (marker end_marker (the_markers (used p))) with (stop_of (used p) 6).
  destruct (chosen_encoding (p_features p)); [|congruence]. apply nodupb_iff in N. rewrite N, R. cbn [negb].
  destruct (Z.ltb_spec (stop_of (used p) 6) 65534); [lia|reflexivity].
Qed.

(** * Programs that are rejected *)

Definition numbers (n : nat) : list Z := map Z.of_nat (seq 0 n).
Definition plain_features : features := MkFeatures false false false.

(** [n] times [println!]. *)
Definition many (n : nat) : program := MkProgram plain_features 16
  (map (fun i => MkUse (MkInvocation (lit "app") i (lit "app")) (UPrintln (lit "hello")) true) (numbers n)) [] [].

Lemma nodup_map : forall {A B} (g : A -> B) l, NoDup l -> (forall x y, In x l -> In y l -> g x = g y -> x = y) -> NoDup (map g l).
Proof.
  intros A B g l N. induction N as [|x l I N IH]; cbn [map]; intros H; constructor.
  - intros J. apply in_map_iff in J as (y & E & J). apply I. replace x with y; [exact J|]. apply H; auto; [now right|now left].
  - apply IH. intros a b Ia Ib. apply H; now right.
Qed.

Lemma numbers_nodup : forall n, NoDup (numbers n).
Proof. intros n. apply nodup_map; [apply seq_NoDup|]. intros x y _ _. lia. Qed.

Lemma numbers_nonneg : forall n i, In i (numbers n) -> 0 <= i.
Proof. intros n i I. apply in_map_iff in I as (x & <- & _). lia. Qed.

Lemma dec_str_inj : forall i j, 0 <= i -> 0 <= j -> dec_str i = dec_str j -> i = j.
Proof.
  intros i j Hi Hj E. pose proof (parse_digits_dec_str (i + j) i ltac:(lia)) as Q1. pose proof (parse_digits_dec_str (i + j) j ltac:(lia)) as Q2.
  rewrite E in Q1. congruence.
Qed.

Lemma nodup_join : forall {A} (l m : list A), NoDup l -> NoDup m -> (forall x, In x l -> ~ In x m) -> NoDup (l ++ m).
Proof.
  intros A l m N M D. induction N as [|x l I N IH]; cbn [app]; [exact M|]. constructor.
  - rewrite in_app_iff. intros [J|J]; [contradiction|]. apply (D x); [now left|exact J].
  - apply IH. intros y J. apply D. now right.
Qed.

(** Names of the macros, next to those of defmt. *)
Lemma defined_nodup : forall us, NoDup (map st_name (flat_map (statics_of 16) us)) -> flat_map functions_of us = [] ->
  (forall x, In x (map st_name (flat_map (statics_of 16) us)) -> exists r, x = 123 :: r) ->
  NoDup (defined (MkProgram plain_features 16 us [] [])).
Proof.
  intros us N F B. unfold defined, statics. cbn [p_uses p_align p_exports p_features]. rewrite F. cbn [app]. rewrite app_nil_r, map_app.
  assert (X : forall x, In x (map st_name (defmt_statics plain_features)) -> ~ exists r, x = 123 :: r).
  { intros x [<-|[<-|[]]] (r & E); discriminate. }
  constructor; [|constructor].
  - intros [J|J]; [discriminate|]. apply in_app_iff in J as [J|J]; [apply B in J as (r & J); discriminate|]. destruct J as [J|[J|[]]]; discriminate.
  - intros J. apply in_app_iff in J as [J|J]; [apply B in J as (r & J); discriminate|]. destruct J as [J|[J|[]]]; discriminate.
  - apply nodup_join; [exact N| |intros x I J; apply (X x J), (B x I)]. repeat constructor; cbn; intuition discriminate.
Qed.

Lemma many_statics : forall l, map st_name (flat_map (statics_of 16) (map (fun i => MkUse (MkInvocation (lit "app") i (lit "app")) (UPrintln (lit "hello")) true) l)) =
  map (fun i => mangled (MkInvocation (lit "app") i (lit "app")) (lit "println") (lit "hello")) l.
Proof. induction l as [|i l IH]; [reflexivity|]. cbn [map flat_map]. rewrite map_app, IH. reflexivity. Qed.

Lemma many_ok : forall n, program_ok (many n) /\ NoDup (defined (many n)).
Proof.
  intros n. assert (O : program_ok (many n)).
  { split; [cbn; lia|]. cbn [many p_uses]. apply Forall_forall. intros u I. apply in_map_iff in I as (i & <- & I). apply numbers_nonneg in I.
    repeat split; cbn [u_at i_disambiguator]; exact I. }
  split; [exact O|]. unfold many. apply defined_nodup.
  - rewrite many_statics. apply nodup_map; [apply numbers_nodup|]. intros x y Ix Iy E. apply numbers_nonneg in Ix, Iy.
    assert (Q : forall i, 0 <= i -> demangle (mangled (MkInvocation (lit "app") i (lit "app")) (lit "println") (lit "hello")) =
      Ok (MkDSymbol (lit "app") (dec_str i) (lit "defmt_println") (lit "hello") (Some (lit "app")))).
    { intros i Hi. refine (demangle_mangle (MkSymbol (lit "app") i (lit "defmt_println") (lit "hello") (lit "app")) _). repeat split; auto. }
    pose proof (Q x Ix) as Qx. rewrite E, (Q y Iy) in Qx. injection Qx as Qx. symmetry. now apply dec_str_inj.
  - induction (numbers n) as [|i l IH]; [reflexivity|exact IH].
  - rewrite many_statics. intros x I. apply in_map_iff in I as (i & <- & _). apply mangled_brace.
Qed.

Lemma many_strings : forall n, strings (many n) = Z.of_nat n.
Proof.
  intros n. unfold strings, many, numbers. cbn [p_uses]. f_equal. rewrite <- (seq_length n 0) at 2. generalize (seq 0 n).
  induction l as [|i l IH]; [reflexivity|]. cbn [map filter u_live makes_string u_macro andb length]. now f_equal.
Qed.

Theorem strings_rejected : exists p, program_ok p /\ (forall u, In u (p_uses p) -> exists s, u_macro u = UPrintln s) /\
  chosen_encoding (p_features p) <> None /\ NoDup (defined p) /\ resolvable p /\ strings p < 65534 /\ link p = Err TooMany.
Proof.
  exists (many (Z.to_nat 65531)). destruct (many_ok (Z.to_nat 65531)) as [O N]. split; [exact O|].
  assert (S : strings (many (Z.to_nat 65531)) = 65531) by (rewrite many_strings; apply Z2Nat.id; lia).
  assert (R : resolvable (many (Z.to_nat 65531))) by (unfold resolvable; constructor).
  assert (Pl : forall u, In u (p_uses (many (Z.to_nat 65531))) -> exists s, u_macro u = UPrintln s).
  { intros u I. unfold many in I. cbn [p_uses] in I. apply in_map_iff in I as (i & <- & _). eexists. reflexivity. }
  split; [exact Pl|]. split; [discriminate|]. split; [exact N|]. split; [exact R|]. split; [rewrite S; lia|].
  apply too_many; auto; [discriminate|].
  assert (F : flag_count (many (Z.to_nat 65531)) = 0).
  { apply (plain_counts (p_uses (many (Z.to_nat 65531)))). intros u I. destruct (Pl u I) as (s & ->). exact Logic.I. }
  rewrite S, F. lia.
Qed.

(** One type with [n] flags. *)
Definition flag_number (i : Z) : flag := MkFlag (lit "A" ++ dec_str i) 1 true.
Definition flagged (n : nat) : program := MkProgram plain_features 16
  [MkUse (MkInvocation (lit "app") 0 (lit "app")) (UBitflags (lit "F") W8 (map flag_number (numbers n))) true] [] [].

Lemma flagged_ok : forall n, Z.of_nat n < 2 ^ 128 -> program_ok (flagged n).
Proof.
  intros n Hn. split; [cbn; lia|]. cbn [flagged p_uses]. constructor; [|constructor]. unfold use_ok. cbn [u_at u_macro i_package i_crate i_disambiguator].
  repeat split; try reflexivity; try lia.
  - repeat constructor; cbn; intuition discriminate.
  - cbn. intuition discriminate.
  - cbn [bf_flags flags_at]. apply Forall_forall. intros fl I. apply in_map_iff in I as (i & <- & I). apply numbers_nonneg in I. cbn [flag_number fl_name fl_value].
    split; [apply valid_app; [reflexivity|]; apply valid_digits, dec_str_digits, I|]. split; [|cbn; lia].
    intros J. destruct J as [J|J]; [discriminate|]. exact (dec_no_colon i I J).
  - cbn [bf_flags flags_at]. rewrite map_length. unfold numbers. rewrite map_length, seq_length. exact Hn.
Qed.

Lemma flag_names_nodup : forall b, bitflags_ok b -> forall fls i, 0 <= i ->
  Forall (fun fl => utf8_valid (fl_name fl) = true /\ ~ In 58 (fl_name fl)) fls ->
  let l := map fst (concat (mapi (fun i fl => if fl_enabled fl then [(static_name b i fl, le_bytes 16 (fl_value fl))] else []) i fls)) in
  NoDup l /\ forall x, In x l -> exists j fl, i <= j /\ utf8_valid (fl_name fl) = true /\ ~ In 58 (fl_name fl) /\ x = static_name b j fl.
Proof.
  intros b OK. induction fls as [|fl fls IH]; intros i Hi F l; subst l; cbn [mapi concat]; [split; [constructor|intros x []]|].
  inversion F as [|? ? [V NC] F']; subst. destruct (IH (i + 1) ltac:(lia) F') as [N E]. rewrite map_app. destruct (fl_enabled fl).
  - cbn [map app fst]. split.
    + constructor; [|exact N]. intros I. apply E in I as (j & g & Hj & V' & NC' & Q).
      pose proof (static_demangled b OK i fl Hi V) as D. rewrite Q, (static_demangled b OK j g ltac:(lia) V') in D. injection D as D.
      pose proof (static_path b OK i fl Hi NC) as P. rewrite <- D, (static_path b OK j g ltac:(lia) NC') in P. injection P as P _.
      apply dec_str_inj in P; lia.
    + intros x [<-|I]; [exists i, fl; repeat split; auto; lia|]. apply E in I as (j & g & Hj & H). exists j, g. split; [lia|exact H].
  - cbn [map app]. split; [exact N|]. intros x I. apply E in I as (j & g & Hj & H). exists j, g. split; [lia|exact H].
Qed.

Lemma flagged_nodup : forall n, Z.of_nat n < 2 ^ 128 -> NoDup (defined (flagged n)).
Proof.
  intros n Hn. pose proof (flagged_ok n Hn) as [_ O]. cbn [flagged p_uses] in O. inversion O as [|? ? U _]; subst.
  set (u := MkUse _ _ _) in *. set (fls := map flag_number (numbers n)). set (b := flags_at (u_at u) (lit "F") W8 fls).
  assert (B : bitflags_ok b) by (destruct U as (_ & _ & _ & U); exact U).
  unfold flagged. fold fls. apply defined_nodup.
  - cbn [flat_map]. rewrite app_nil_r. fold u. unfold statics_of. cbn [string_of u u_macro u_at]. fold b. rewrite map_app, map_map.
    cbn [map app st_name static_variable]. constructor.
    + intros I. apply in_map_iff in I as (x & E & I). apply statics_in in I as (i & fl & Nt & _ & ->). cbn [fst st_name] in E.
      destruct (flag_ok b B i fl Nt) as (V & _). pose proof (static_demangled b B (Z.of_nat i) fl ltac:(lia) V) as D1.
      pose proof (string_demangled u (lit "bitflags") GBitflags _ U (IN_flags u (lit "F") W8 fls eq_refl)) as D2. fold b in D2.
      assert (D3 : demangle (static_name b (Z.of_nat i) fl) = Ok (dsymbol_of u (lit "bitflags") (format_tag (flags_type b)))) by (rewrite <- D2; f_equal; exact E).
      rewrite D1 in D3. discriminate.
    + apply (flag_names_nodup b B fls 0); [lia|]. destruct B as (_ & _ & F & _). eapply Forall_impl; [|exact F]. cbn. tauto.
  - reflexivity.
  - intros x I. apply in_map_iff in I as (st & <- & I). cbn [flat_map] in I. rewrite app_nil_r in I. unfold statics_of in I. apply in_app_iff in I as [I|I].
    + cbn [string_of u_macro u_at] in I. destruct I as [<-|[]]. apply mangled_brace.
    + cbn [u_macro] in I. apply in_map_iff in I as (y & <- & I). apply statics_in in I as (i & fl & _ & _ & ->). cbn [fst st_name].
      eexists. unfold static_name, interned, mangle. cbn [lit list_ascii_of_string map app s_package]. reflexivity.
Qed.

Lemma flagged_count : forall n, flag_count (flagged n) = Z.of_nat n.
Proof.
  intros n. unfold flag_count, flagged. cbn [p_uses fold_right flags_of_use u_macro u_at]. unfold enabled. rewrite map_length. cbn [bf_flags flags_at].
  rewrite (filter_all fl_enabled).
  2: { apply Forall_forall. intros fl I. apply in_map_iff in I as (i & <- & _). reflexivity. }
  rewrite map_length. unfold numbers. rewrite map_length, seq_length. lia.
Qed.

Theorem flags_rejected : exists p, program_ok p /\ chosen_encoding (p_features p) <> None /\ NoDup (defined p) /\ resolvable p /\
  strings p = 1 /\ flag_count p = 4096 /\ link p = Err TooMany.
Proof.
  exists (flagged (Z.to_nat 4096)). assert (E : Z.of_nat (Z.to_nat 4096) = 4096) by (apply Z2Nat.id; lia).
  assert (R : Z.of_nat (Z.to_nat 4096) < 2 ^ 128) by (rewrite E; reflexivity).
  assert (S : strings (flagged (Z.to_nat 4096)) = 1) by reflexivity.
  assert (V : resolvable (flagged (Z.to_nat 4096))) by (unfold resolvable; constructor).
  pose proof (flagged_ok _ R) as O. pose proof (flagged_nodup _ R) as N. pose proof (flagged_count (Z.to_nat 4096)) as C. rewrite E in C.
  split; [exact O|]. split; [discriminate|]. split; [exact N|]. split; [exact V|]. split; [exact S|]. split; [exact C|].
  apply too_many; [exact O|discriminate|exact N|exact V|]. rewrite S, C. lia.
Qed.

(** Nothing is behind the last marker. *)
Theorem before_end : forall p k st a, program_ok p -> link p = Ok k -> In (st, a) (im_placed k) ->
  a + Z.of_nat (length (st_data st)) <= marker end_marker (im_markers k).
Proof.
  intros p k st a OK L I. destruct (placed_range p k OK L st a I) as (_ & R & _). destruct (p_facts p k OK L) as (_ & _ & _ & _ & _ & -> & _). exact R.
Qed.

(** The flags of a type are kept, used or not. *)
Theorem flags_kept : forall p k u ident w fls n fl, program_ok p -> link p = Ok k -> In u (p_uses p) -> u_macro u = UBitflags ident w fls ->
  nth_error fls n = Some fl -> fl_enabled fl = true ->
  exists st a, In (st, a) (im_placed k) /\ st_section st = lit ".defmt.end" /\ st_data st = le_bytes 16 (fl_value fl) /\
    st_name st = static_name (flags_at (u_at u) ident w fls) (Z.of_nat n) fl.
Proof.
  intros p k u ident w fls n fl OK L Iu M N E.
  assert (Ix : In (static_name (flags_at (u_at u) ident w fls) (Z.of_nat n) fl, le_bytes 16 (fl_value fl)) (flag_statics (flags_at (u_at u) ident w fls)))
    by (apply statics_in; exists n, fl; auto).
  pose proof (OFlag p u ident w fls _ Iu M Ix) as O. apply statics_origin in O.
  destruct (proj2 (placed_iff p k OK L _) (conj O eq_refl)) as (a & I). eexists _, a. split; [exact I|]. auto.
Qed.
