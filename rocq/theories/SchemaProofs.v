(** What the sink writes is what the consumer reads. *)
From Coq Require Import Permutation.
From Verif Require Import Base Utf8 ParserModel DecoderModel EncodeModel EncodeTop DisplayModel TextSpec RzcobsModel StreamModel StreamProofs DecoderPanic
  EnvFilterModel EnvFilterProofs LogFormatModel LocationModel SymbolModel SinkModel SinkSpec SinkProofs SinkMain SchemaModel.

(** Values of the types: texts are bytes, integers are in range. *)
Definition module_typed (m : module_path) : Prop := byte_text (mp_crate m) /\ Forall byte_text (mp_modules m) /\ byte_text (mp_function m).
Definition opt_all {A} (P : A -> Prop) (o : option A) : Prop := match o with Some a => P a | None => True end.
Definition place_typed (p : place) : Prop :=
  opt_all byte_text (pl_file p) /\ opt_all (fun n => 0 <= n < 2 ^ 32) (pl_line p) /\ opt_all module_typed (pl_module p).
Definition frame_typed (f : json_frame) : Prop :=
  byte_text (jf_data f) /\ - 2 ^ 63 <= jf_host f < 2 ^ 63 /\ place_typed (jf_place f) /\ byte_text (jf_target f).

Lemma strings_back : forall l, all_some (map as_string (map JStr l)) = Some l.
Proof. induction l as [|s l IH]; [reflexivity|]. cbn. now rewrite IH. Qed.

Lemma int_back : forall lo hi x, lo <= x <= hi -> as_int lo hi (JInt x) = Some x.
Proof. intros lo hi x H. unfold as_int, in_range. destruct (Z.leb_spec lo x), (Z.leb_spec x hi); try lia. reflexivity. Qed.

Lemma module_back : forall m, as_module (module_value m) = Some m.
Proof. intros [c ms f]. unfold as_module, module_value. cbn -[all_some map]. cbn. now rewrite strings_back. Qed.

Lemma line_back : forall o, opt_all (fun n => 0 <= n < 2 ^ 32) o -> optional (as_int 0 (2 ^ 32 - 1)) (Some (option_value JInt o)) = Some o.
Proof. intros [n|] H; [|reflexivity]. cbn [option_value optional]. rewrite int_back; [reflexivity|]. cbn in H. lia. Qed.

Lemma place_back : forall p, place_typed p -> as_place (place_value p) = Some p.
Proof.
  intros [f l m] (H1 & H2 & H3). unfold as_place.
  change (struct_fields _ (place_value (MkPlace f l m)))
    with (Some [Some (option_value JStr f); Some (option_value JInt l); Some (option_value module_value m)]).
  cbv iota. cbn [pl_file pl_line pl_module] in *. rewrite line_back by auto.
  assert (E : optional as_string (Some (option_value JStr f)) = Some f) by (destruct f; reflexivity). rewrite E.
  assert (E2 : optional as_module (Some (option_value module_value m)) = Some m).
  { destruct m as [m|]; [|reflexivity]. cbn [option_value]. unfold optional, module_value at 1. now rewrite module_back. }
  now rewrite E2.
Qed.

Lemma level_back : forall l, optional as_level (Some (option_value (fun l => JStr (level_upper l)) l)) = Some l.
Proof. intros [[]|]; reflexivity. Qed.

(** The known names, and objects that have each of them once. *)
Definition known : list bytes := [lit "data"; lit "host_timestamp"; lit "level"; lit "location"; lit "target_timestamp"].

Lemma filter_none : forall {A} (p : A -> bool) l, (forall x, In x l -> p x = false) -> filter p l = [].
Proof. intros A p l H. induction l as [|x l IH]; [reflexivity|]. cbn. rewrite H by (now left). apply IH. intros; apply H; now right. Qed.

Lemma filter_permutation : forall {A} (p : A -> bool) l l', Permutation l l' -> Permutation (filter p l) (filter p l').
Proof.
  intros A p l l' H. induction H as [|x l l' H IH|x y l|l l' l'' H IH H' IH']; cbn.
  - constructor.
  - destruct (p x); auto.
  - destruct (p x), (p y); auto. constructor.
  - eapply Permutation_trans; eauto.
Qed.

Lemma field_found : forall f extra l, Permutation l (frame_fields f ++ extra) -> (forall k v, In (k, v) extra -> ~ In k known) ->
  forall k v, In (k, v) (frame_fields f) -> field l k = Some (Some v).
Proof.
  intros f extra l P N k v H. unfold field.
  assert (K : In k known) by (apply (in_map fst) in H; exact H).
  assert (E : filter (fun kv => beq (fst kv) k) (frame_fields f ++ extra) = [(k, v)]).
  { rewrite filter_app. rewrite (filter_none _ extra).
    2: { intros [k' v'] I'. cbn [fst]. apply beq_false. intros ->. exact (N _ _ I' K). }
    rewrite app_nil_r. unfold frame_fields in *. cbn in H. repeat (destruct H as [H|H]; [injection H as <- <-; reflexivity|]). destruct H. }
  pose proof (filter_permutation (fun kv => beq (fst kv) k) _ _ P) as Q. rewrite E in Q.
  apply Permutation_sym, Permutation_length_1_inv in Q. now rewrite Q.
Qed.

(** Whatever the order of the fields, and whatever else there is. *)
Theorem frame_back : forall f extra l, frame_typed f -> Permutation l (frame_fields f ++ extra) ->
  (forall k v, In (k, v) extra -> ~ In k known) -> as_frame (JObj l) = Some f.
Proof.
  intros f extra l (H1 & H2 & H3 & H4) P N. unfold as_frame. change [lit "data"; lit "host_timestamp"; lit "level"; lit "location"; lit "target_timestamp"] with known.
  assert (E : struct_fields known (JObj l) = Some (map Some (map snd (frame_fields f)))).
  { unfold struct_fields, known, frame_fields. cbn [map snd].
    rewrite !(field_found f extra l P N _ _ (or_introl eq_refl)).
    rewrite (field_found f extra l P N _ (JInt (jf_host f))) by (unfold frame_fields; cbn; auto 9).
    rewrite (field_found f extra l P N _ (option_value (fun l => JStr (level_upper l)) (jf_level f))) by (unfold frame_fields; cbn; auto 9).
    rewrite (field_found f extra l P N _ (place_value (jf_place f))) by (unfold frame_fields; cbn; auto 9).
    rewrite (field_found f extra l P N _ (JStr (jf_target f))) by (unfold frame_fields; cbn; auto 9). reflexivity. }
  rewrite E. unfold frame_fields. cbn [map snd]. rewrite level_back. cbn [required as_string]. rewrite int_back by lia. rewrite place_back by auto.
  now destruct f.
Qed.

Lemma option_ok : forall {A} (P : A -> Prop) (f : A -> json) o, (forall a, P a -> json_ok (f a)) -> opt_all P o -> json_ok (option_value f o).
Proof. intros A P f [a|] H K; [now apply H|constructor]. Qed.

Lemma frame_value_ok : forall f, frame_typed f -> json_ok (frame_value f).
Proof.
  intros f (H1 & H2 & (H3 & H4 & H5) & H6). unfold frame_value, frame_fields. constructor.
  assert (B : forall s, forallb (fun b => 0 <=? b) s = true -> byte_text s) by exact lit_bytes.
  repeat (constructor; [split; [apply B; reflexivity|]|]); try constructor; cbn [fst snd]; auto.
  - apply (option_ok (fun _ => True)); [|destruct (jf_level f); exact I]. intros a _. constructor. apply level_bytes.
  - repeat (constructor; [split; [apply B; reflexivity|]|]); try constructor; cbn [fst snd].
    + apply (option_ok byte_text); auto. intros; now constructor.
    + destruct (pl_line (jf_place f)); constructor.
    + apply (option_ok module_typed); auto. intros [c ms fn] (K1 & K2 & K3). cbn in *. constructor.
      repeat (constructor; [split; [apply B; reflexivity|]|]); try constructor; cbn [fst snd]; auto.
      induction K2; constructor; auto. now constructor.
Qed.

Theorem frame_round : forall f, frame_typed f -> from_str as_frame (json_text (frame_value f)) = Some f.
Proof.
  intros f H. unfold from_str. rewrite document_read by (now apply frame_value_ok).
  apply (frame_back f []); auto.
Qed.

(* ------------------------------------------------------------------ *)
(** * Lines *)

Lemma raw_line : forall s cur r, one_line s -> raw_lines cur (s ++ 10 :: r) = (cur ++ s) :: raw_lines [] r.
Proof.
  induction s as [|c s IH]; intros cur r H; cbn [app raw_lines].
  - now rewrite app_nil_r.
  - inversion H; subst. destruct (Z.eqb_spec c 10); [lia|]. rewrite IH by auto. now rewrite <- app_assoc.
Qed.

Lemma chop_plain : forall s, one_line s -> chop_return s = s.
Proof.
  intros s H. unfold chop_return. destruct s as [|c s]; [reflexivity|].
  assert (L : 32 <= last (c :: s) 0).
  { assert (J : In (last (c :: s) 0) (c :: s)).
    { rewrite (app_removelast_last 0 (l := c :: s)) at 2 by discriminate. apply in_or_app. right. now left. }
    unfold one_line in H. rewrite Forall_forall in H. exact (H _ J). }
  destruct (Z.eqb_spec (last (c :: s) 0) 13); [lia|reflexivity].
Qed.

Theorem lines_back : forall ls, Forall one_line ls -> text_lines (as_lines ls) = ls.
Proof.
  intros ls H. unfold text_lines. induction H as [|s ls Hs H IH]; [reflexivity|].
  unfold as_lines in *. cbn [flat_map]. rewrite <- app_assoc. cbn [app]. rewrite raw_line by auto. cbn [map app]. rewrite chop_plain by auto. now f_equal.
Qed.

(* ------------------------------------------------------------------ *)
(** * What is written *)

(** A frame of the schema with everything that is known about a frame of the device. *)
Definition tells (now : Z) (l : option level) (time message : bytes) (file : option bytes) (line : option Z) (m : option bytes) (f : json_frame) : Prop :=
  jf_data f = message /\ jf_level f = l /\ jf_target f = time /\ (now < 2 ^ 63 -> jf_host f = now) /\
  pl_file (jf_place f) = file /\ pl_line (jf_place f) = line /\
  match m with
  | None => pl_module (jf_place f) = None
  | Some p =>
      match pl_module (jf_place f) with
      | Some mp => p = join (lit "::") (mp_crate mp :: mp_modules mp ++ [mp_function mp]) /\
          (forall c ms fn, Forall no_colon (c :: ms ++ [fn]) -> p = join (lit "::") (c :: ms ++ [fn]) -> mp = MkModulePath c ms fn)
      | None => forall a b, p <> a ++ lit "::" ++ b
      end
  end.

(** [create_json_frame] as a value of the schema. *)
Definition module_of (m : option bytes) : option module_path :=
  match m with
  | None => None
  | Some p =>
      match split_path p with
      | c :: ((_ :: _) as rest) => Some (MkModulePath c (removelast rest) (last rest []))
      | _ => None
      end
  end.
Definition frame_of (now : Z) (r : record) : json_frame :=
  MkJsonFrame (r_message r) now (r_level r) (MkPlace (r_file r) (r_line r) (module_of (r_module r))) (r_time r).

Lemma frame_of_value : forall now r, frame_value (frame_of now r) = frame_json now r.
Proof.
  intros now r. unfold frame_value, frame_fields, frame_json, frame_of, place_value. cbn [jf_data jf_host jf_level jf_place jf_target pl_file pl_line pl_module].
  replace (option_value module_value (module_of (r_module r))) with (module_json (r_module r)); [reflexivity|].
  unfold module_json, module_of. destruct (r_module r) as [p|]; [|reflexivity].
  destruct (split_path p) as [|c [|d rest]]; reflexivity.
Qed.

Lemma join_same : forall l, join_path l = join (lit "::") l.
Proof. induction l as [|s l IH]; [reflexivity|]. destruct l as [|t l]; [reflexivity|]. rewrite join_cons by discriminate. rewrite IH. reflexivity. Qed.

Lemma split_length : forall s, (1 <= length (split_path s))%nat.
Proof. intros s. pose proof (split_path_nonempty s). destruct (split_path s); [congruence|]. cbn [length]. lia. Qed.

Lemma frame_of_tells : forall now r, tells now (r_level r) (r_time r) (r_message r) (r_file r) (r_line r) (r_module r) (frame_of (Z.min now (2 ^ 63 - 1)) r).
Proof.
  intros now r. unfold tells, frame_of. cbn [jf_data jf_host jf_level jf_place jf_target pl_file pl_line pl_module].
  repeat (split; [first [reflexivity | intros; lia]|]). destruct (r_module r) as [p|]; [|reflexivity]. cbn [module_of].
  destruct (split_path p) as [|c rest] eqn:E; [now apply split_path_nonempty in E|]. destruct rest as [|d rest].
  - intros a b ->. pose proof (join_split (a ++ lit "::" ++ b)) as J. rewrite E in J. cbn in J.
    apply (f_equal (fun l => length l)) in E. revert E. clear J. cbn [length].
    assert (L : (2 <= length (split_path (a ++ lit "::" ++ b)))%nat); [|lia]. clear c.
    remember (length a) as n eqn:En. revert a En. induction n as [n IH] using lt_wf_ind. intros a ->.
    destruct a as [|x a].
    + cbn [app]. change (lit "::" ++ b) with (58 :: 58 :: b). rewrite split_path_cons. change ((58 =? 58) && (58 =? 58)) with true. cbv iota.
      pose proof (split_length b). cbn [length]. lia.
    + change ((x :: a) ++ lit "::" ++ b) with (x :: (a ++ lit "::" ++ b)). rewrite split_path_cons.
      destruct a as [|y a].
      * cbn [app]. change (lit "::" ++ b) with (58 :: 58 :: b). cbv iota. match goal with |- context [if ?q then _ else _] => destruct q end.
        { exact (le_n_S _ _ (split_length (58 :: b))). }
        specialize (IH 0%nat ltac:(cbn; lia) [] eq_refl). cbn [app] in IH. change (lit "::" ++ b) with (58 :: 58 :: b) in IH.
        destruct (split_path (58 :: 58 :: b)); cbn [length] in *; lia.
      * cbn [app]. match goal with |- context [if ?q then _ else _] => destruct q end.
        { specialize (IH (length a) ltac:(cbn; lia) a eq_refl). exact (le_S _ _ IH). }
        specialize (IH (length (y :: a)) ltac:(cbn; lia) (y :: a) eq_refl). cbn [app] in IH.
        destruct (split_path (y :: a ++ lit "::" ++ b)); cbn [length] in *; lia.
  - cbn [mp_crate mp_modules mp_function]. split.
    + rewrite <- (app_removelast_last [] (l := d :: rest)) by discriminate. rewrite <- E, <- join_same. now rewrite join_split.
    + intros c0 ms fn H ->. rewrite <- join_same in E. rewrite EnvFilterProofs.split_join in E; [|discriminate|exact H].
      assert (E1 : c = c0) by congruence. assert (E2 : d :: rest = ms ++ [fn]) by congruence. rewrite E2, List.removelast_last, last_last. congruence.
Qed.

Lemma split_typed : forall p, byte_text p -> Forall byte_text (split_path p).
Proof. intros p H. exact (split_bytes (S (length p)) p (Nat.lt_succ_diag_r _) H). Qed.

Lemma frame_of_typed : forall now r, record_text r -> opt_all (fun n => 0 <= n < 2 ^ 32) (r_line r) -> - 2 ^ 63 <= now < 2 ^ 63 -> frame_typed (frame_of now r).
Proof.
  intros now r (H1 & H2 & H3 & H4) L N. unfold frame_typed, frame_of. cbn [jf_data jf_host jf_level jf_place jf_target].
  split; [exact H1|]. split; [exact N|]. split; [|exact H2]. unfold place_typed. cbn [pl_file pl_line pl_module].
  split; [destruct (r_file r); auto|]. split; [exact L|]. destruct (r_module r) as [p|]; [|exact I]. cbn [module_of opt_text] in *.
  pose proof (split_typed p H4) as F. destruct (split_path p) as [|c [|d rest]]; try exact I. inversion F as [|? ? F1 F2]; subst.
  rewrite (app_removelast_last [] (l := d :: rest)) in F2 by discriminate. apply Forall_app in F2. destruct F2 as [F2 F3]. inversion F3; subst.
  split; [exact F1|]. split; auto.
Qed.

(** The frames that a consumer gets from the lines of a run. *)
Section Runs.
  Context (X : externals) (tbl : table) (Y : external) (locs : option (list (Z * location))) (dir skipped : bytes) (host_segs : list segment).

  Definition told (b : frame * (bytes * bytes) * Z) (f : json_frame) : Prop :=
    let '(fr, (time, message), now) := b in let '(file, line, m) := location_info locs fr dir in
    tells now (f_level fr) time message file line m f.

  Lemma line_fits : forall fr, let '(_, line, _) := location_info locs fr dir in opt_all (fun n => 0 <= n < 2 ^ 32) line.
  Proof.
    intros fr. unfold location_info. destruct locs as [m|]; [|exact I]. destruct (loc_get (f_index fr) m) as [l|]; [|exact I].
    cbn [opt_all]. change (2 ^ 32) with 4294967296. apply Z.mod_pos_bound. lia.
  Qed.

  Lemma sink_line : forall now fr file line m ts msg, timestamp_text X tbl fr = Some ts -> display_message X tbl fr = Some msg ->
    byte_text ts -> byte_text msg -> opt_text file -> opt_text m -> opt_all (fun n => 0 <= n < 2 ^ 32) line -> - 2 ^ 63 <= now ->
    exists s f, bind (log_defmt X tbl fr file line m) (json_sink Y false host_segs false now) = Ok [Stdout (s ++ [10])] /\
      one_line s /\ from_str as_frame s = Some f /\ tells now (f_level fr) ts msg file line m f.
  Proof.
    intros now fr file line m ts msg Et Em Bt Bm Bf Bp Bl N.
    set (r := MkRecord false (f_level fr) ts file line m msg).
    assert (T : frame_typed (frame_of (Z.min now (2 ^ 63 - 1)) r)) by (apply frame_of_typed; [repeat split; auto|exact Bl|lia]).
    exists (json_text (frame_value (frame_of (Z.min now (2 ^ 63 - 1)) r))), (frame_of (Z.min now (2 ^ 63 - 1)) r).
    split; [|split; [apply json_line; now apply frame_value_ok|split; [now apply frame_round|exact (frame_of_tells now r)]]].
    rewrite frame_of_value. unfold log_defmt. rewrite Et, Em. cbn [bind]. unfold json_sink.
    rewrite should_defmt by (cbn [lr_target]; unfold is_defmt_frame; now rewrite strip_self).
    unfold defmt_record. cbn [lr_target]. rewrite strip_self, payload_read by auto. reflexivity.
  Qed.

  Theorem consumer_events : forall frs texts times,
    (forall fr, let '(file, _, m) := location_info locs fr dir in opt_text file /\ opt_text m) ->
    Forall2 (fun fr t => timestamp_text X tbl fr = Some (fst t) /\ display_message X tbl fr = Some (snd t)) frs texts ->
    Forall (fun t => byte_text (fst t) /\ byte_text (snd t)) texts -> Forall (fun now => - 2 ^ 63 <= now) times -> length times = length frs ->
    exists out ls fs, print_events false X tbl locs dir skipped false (json_sink Y false host_segs false) (combine times (map EvFrame frs)) = Ok out /\
      stdout_of out = as_lines ls /\ Forall one_line ls /\ map (from_str as_frame) ls = map Some fs /\
      Forall2 told (combine (combine frs texts) times) fs.
  Proof.
    intros frs texts times HL D. revert times. induction D as [|fr t frs texts [Dt Dm] D IH]; intros times Ht Hn Lt.
    - exists [], [], []. destruct times; [|discriminate]. repeat split; constructor.
    - destruct times as [|now times]; [discriminate|]. inversion Ht as [|? ? [Hb Hm] Ht2]; subst. inversion Hn as [|? ? Hn1 Hn2]; subst.
      destruct (IH times Ht2 Hn2 ltac:(cbn in Lt; lia)) as (out & ls & fs & E & E1 & E2 & E3 & E4). clear IH.
      cbn [map combine print_events print_event]. pose proof (line_fits fr) as LF. specialize (HL fr).
      destruct (location_info locs fr dir) as [[file line] m] eqn:El. destruct HL as [Hf Hp].
      destruct (sink_line now fr file line m (fst t) (snd t) Dt Dm Hb Hm Hf Hp LF Hn1) as (s & f & Q & Q1 & Q2 & Q3).
      change (bind (log_defmt X tbl fr file line m) (fun lr => json_sink Y false host_segs false now lr))
        with (bind (log_defmt X tbl fr file line m) (json_sink Y false host_segs false now)).
      rewrite Q. cbn [bind]. rewrite E. cbn [bind]. exists ([Stdout (s ++ [10])] ++ out), (s :: ls), (f :: fs). split; [reflexivity|].
      unfold stdout_of, as_lines in *. cbn [app flat_map map]. rewrite E1. repeat split.
      + constructor; auto.
      + now rewrite Q2, E3.
      + constructor; auto. unfold told. destruct t as [time message]. rewrite El. exact Q3.
  Qed.
End Runs.

Lemma all_some_map : forall {A} (l : list A), all_some (map Some l) = Some l.
Proof. intros A l. induction l as [|a l IH]; [reflexivity|]. cbn. now rewrite IH. Qed.

Lemma output_read : forall out ls fs, stdout_of out = as_lines ls -> Forall one_line ls -> map (from_str as_frame) ls = map Some fs ->
  read_output (schema_line ++ stdout_of out) = Ok fs.
Proof.
  intros out ls fs E1 E2 E3. unfold read_output. rewrite E1.
  set (v := json_text (JObj [(lit "schema_version", JInt 1)])).
  change (schema_line ++ as_lines ls) with ((v ++ [10]) ++ as_lines ls). change ((v ++ [10]) ++ as_lines ls) with (as_lines (v :: ls)).
  rewrite lines_back by (constructor; [vm_compute; repeat constructor; discriminate|exact E2]).
  replace (from_str as_version v) with (Some 1) by (vm_compute; reflexivity). rewrite E3, all_some_map. reflexivity.
Qed.

Theorem consumer_run : forall X Y addr tbl host_segs locs dir skipped stmts frs chunks texts times,
  table_safe tbl -> locs_text locs dir ->
  executed addr tbl stmts frs chunks -> printed_as X tbl stmts frs texts -> Forall (fun t => byte_text (fst t) /\ byte_text (snd t)) texts ->
  Forall (fun now => - 2 ^ 63 <= now) times -> length times = length frs ->
  exists out fs, print_events false X tbl locs dir skipped false (json_sink Y false host_segs false)
      (combine times (fst (host_run EncRzcobs tbl [] chunks))) = Ok out /\
    read_output (schema_line ++ stdout_of out) = Ok fs /\ Forall2 (told locs dir) (combine (combine frs texts) times) fs.
Proof.
  intros X Y addr tbl hs locs dir skipped stmts frs chunks texts times TS HL (M & writes & Wr & C) P Ht Hn Lt.
  rewrite (end_to_end addr tbl stmts frs writes chunks TS M Wr C). cbn [fst].
  pose proof (texts_shown X addr tbl stmts frs texts M P) as D.
  destruct (consumer_events X tbl Y locs dir skipped hs frs texts times HL D Ht Hn Lt) as (out & ls & fs & E & E1 & E2 & E3 & E4).
  exists out, fs. split; [exact E|]. split; [|exact E4]. now apply (output_read out ls).
Qed.

(* ------------------------------------------------------------------ *)
(** * Streams with damaged frames *)

(** The frames among the events, with their times. *)
Fixpoint frames_in (evs : list (Z * event)) : list (Z * frame) :=
  match evs with
  | [] => []
  | (now, EvFrame fr) :: evs => (now, fr) :: frames_in evs
  | (_, EvSkipped) :: evs => frames_in evs
  end.

Definition displayed (X : externals) (tbl : table) (locs : option (list (Z * location))) (dir : bytes) (nf : Z * frame) (f : json_frame) : Prop :=
  exists time message, timestamp_text X tbl (snd nf) = Some time /\ display_message X tbl (snd nf) = Some message /\
    let '(file, line, m) := location_info locs (snd nf) dir in tells (fst nf) (f_level (snd nf)) time message file line m f.

Theorem consumer_stream : forall Y X tbl locs dir skipped host_segs evs out, all_bytes X tbl locs dir -> Forall (fun ev => - 2 ^ 63 <= fst ev) evs ->
  print_events false X tbl locs dir skipped false (json_sink Y false host_segs false) evs = Ok out ->
  exists fs, read_output (schema_line ++ stdout_of out) = Ok fs /\ Forall2 (displayed X tbl locs dir) (frames_in evs) fs.
Proof.
  intros Y X tbl locs dir skipped hs evs out (B1 & B2 & B3) N E.
  assert (G : exists ls fs, stdout_of out = as_lines ls /\ Forall one_line ls /\ map (from_str as_frame) ls = map Some fs /\
    Forall2 (displayed X tbl locs dir) (frames_in evs) fs).
  { revert out E. induction N as [|[now ev] evs N1 N IH]; intros out E.
    - cbn in E. injection E as <-. exists [], []. repeat split; constructor.
    - cbn [print_events] in E. destruct (print_event false X tbl locs dir skipped false (json_sink Y false hs false) now ev) as [o|e| |] eqn:Ev; try discriminate.
      cbn [bind] in E. destruct (print_events false X tbl locs dir skipped false (json_sink Y false hs false) evs) as [r|e| |]; try discriminate.
      cbn [bind] in E. injection E as <-. destruct (IH r eq_refl) as (ls & fs & E1 & E2 & E3 & E4). clear IH. destruct ev as [fr|].
      + cbn [print_event] in Ev. specialize (B3 fr). pose proof (line_fits locs dir fr) as LF.
        destruct (location_info locs fr dir) as [[file line] m] eqn:El. destruct B3 as [Bf Bm].
        destruct (timestamp_text X tbl fr) as [ts|] eqn:T; [|unfold log_defmt in Ev; rewrite T in Ev; discriminate].
        destruct (display_message X tbl fr) as [msg|] eqn:M; [|unfold log_defmt in Ev; rewrite T, M in Ev; discriminate].
        destruct (sink_line X tbl Y hs now fr file line m ts msg T M (B1 _ _ T) (B2 _ _ M) Bf Bm LF N1) as (s & f & Q & Q1 & Q2 & Q3).
        assert (o = [Stdout (s ++ [10])]) by (unfold bind in *; congruence). subst o.
        exists (s :: ls), (f :: fs). unfold stdout_of, as_lines in *. cbn [app flat_map map frames_in]. rewrite E1. repeat split.
        * constructor; auto.
        * now rewrite Q2, E3.
        * constructor; auto. exists ts, msg. cbn [fst snd]. rewrite El. auto.
      + cbn in Ev. injection Ev as <-. exists ls, fs. cbn [app frames_in]. auto. }
  destruct G as (ls & fs & E1 & E2 & E3 & E4). exists fs. split; [|exact E4]. unfold read_output. rewrite E1.
  set (v := json_text (JObj [(lit "schema_version", JInt 1)])).
  change (schema_line ++ as_lines ls) with (as_lines (v :: ls)).
  rewrite lines_back by (constructor; [vm_compute; repeat constructor; discriminate|exact E2]).
  replace (from_str as_version v) with (Some 1) by (vm_compute; reflexivity). rewrite E3, all_some_map. reflexivity.
Qed.
