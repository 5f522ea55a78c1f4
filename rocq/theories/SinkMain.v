(** What reaches the output: payloads, the text sink, the JSON sink, and whole runs. *)
From Verif Require Import Base Utf8 ParserModel DecoderModel Numerals EncodeModel EncodeSpec EncodeProofs EncodeTop DisplayModel
  TextSpec TextMain RzcobsModel StreamModel StreamSpec StreamProofs DecoderProofs DecoderPanic EnvFilterModel EnvFilterProofs LogFormatModel LogFormatSpec LogFormatText LogFormatShow
  LogFormatMain LogFormatBuiltin SymbolModel SymbolProofs LocationModel SinkModel SinkSpec SinkProofs.

(* ------------------------------------------------------------------ *)
(** * Payloads *)

Lemma strip_self : forall p s, strip_prefix p (p ++ s) = Some s.
Proof. intros p s. induction p as [|c p IH]; [reflexivity|]. cbn. now rewrite Z.eqb_refl. Qed.

Lemma expect_self : forall p s, expect p (p ++ s) = Ok s.
Proof. intros p s. unfold expect. now rewrite strip_self. Qed.

Lemma read_string_json : forall s r, byte_text s -> read_string (json_string s ++ r) = Ok (s, r).
Proof.
  intros s r H. unfold read_string. rewrite json_string_cons, skip_plain by reflexivity.
  change (34 :: flat_map escape_byte s ++ 34 :: r) with ([34] ++ flat_map escape_byte s ++ 34 :: r). rewrite expect_self. cbn [bind].
  now apply string_read.
Qed.

Lemma level_bytes : forall l, byte_text (level_upper l).
Proof. intros []; vm_compute; repeat constructor; discriminate. Qed.

Lemma level_named : forall l, level_of_name (level_upper l) = Some l.
Proof. intros []; reflexivity. Qed.

Lemma read_level_json : forall l r, read_level_option (json_text (level_json l) ++ r) = Ok (l, r).
Proof.
  intros [l|] r; [|reflexivity]. cbn [level_json json_text]. unfold read_level_option, read_level. rewrite json_string_cons.
  rewrite skip_plain by reflexivity. change (34 =? 110) with false. change (34 =? 34) with true. cbv iota.
  rewrite string_read by apply level_bytes. cbn [bind]. unfold read_variant. cbn [fst snd]. rewrite level_named. reflexivity.
Qed.

Lemma payload_shape : forall l ts, json_text (payload_json l ts) =
  123 :: json_string (lit "level") ++ 58 :: json_text (level_json l) ++ 44 :: json_string (lit "timestamp") ++ 58 :: json_string ts ++ [125].
Proof.
  intros l ts. unfold payload_json. cbn [json_text map join fst snd]. rewrite <- !app_assoc. reflexivity.
Qed.

Lemma payload_key : forall fuel first lv ts k r, byte_text k ->
  payload_map (S fuel) first lv ts ((if first then [] else [44]) ++ json_string k ++ 58 :: r) =
  (if beq k (lit "level") then
     match lv with
     | Some _ => Err tt
     | None => p <- read_level_option r ;; payload_map fuel false (Some (fst p)) ts (snd p)
     end
   else if beq k (lit "timestamp") then
     match ts with
     | Some _ => Err tt
     | None => p <- read_string r ;; payload_map fuel false lv (Some (fst p)) (snd p)
     end
   else r <- ignore_value (S fuel) [] r ;; payload_map fuel false lv ts r).
Proof.
  intros fuel first lv ts k r H. cbn [payload_map]. destruct first; cbn [app].
  - rewrite json_string_cons, skip_plain by reflexivity. change (34 =? 125) with false. cbv iota. cbn [bind].
    change (34 :: flat_map escape_byte k ++ 34 :: 58 :: r) with ([34] ++ flat_map escape_byte k ++ 34 :: 58 :: r). rewrite expect_self. cbn [bind].
    rewrite string_read by auto. cbn [bind snd fst]. unfold expect_colon. rewrite skip_plain by reflexivity.
    change (58 :: r) with ([58] ++ r). rewrite expect_self. reflexivity.
  - rewrite skip_plain by reflexivity. change (44 =? 125) with false. change (44 =? 44) with true. cbv iota. cbn [bind].
    rewrite json_string_cons, skip_plain by reflexivity.
    change (34 :: flat_map escape_byte k ++ 34 :: 58 :: r) with ([34] ++ flat_map escape_byte k ++ 34 :: 58 :: r). rewrite expect_self. cbn [bind].
    rewrite string_read by auto. cbn [bind snd fst]. unfold expect_colon. rewrite skip_plain by reflexivity.
    change (58 :: r) with ([58] ++ r). rewrite expect_self. reflexivity.
Qed.

Theorem payload_read : forall l ts, byte_text ts -> read_payload (json_text (payload_json l ts)) = Ok (l, ts).
Proof.
  intros l ts H. rewrite payload_shape. unfold read_payload. rewrite skip_plain by reflexivity. change (123 =? 123) with true. cbv iota.
  assert (L : exists n, S (length (123 :: json_string (lit "level") ++ 58 :: json_text (level_json l) ++ 44 :: json_string (lit "timestamp") ++ 58 :: json_string ts ++ [125])) = S (S (S n)))
    by (cbn [length]; rewrite app_length; cbn [length]; rewrite Nat.add_succ_r; eauto).
  destruct L as (n & L). rewrite L.
  pose proof (payload_key (S (S n)) true None None (lit "level")
    (json_text (level_json l) ++ 44 :: json_string (lit "timestamp") ++ 58 :: json_string ts ++ [125])) as Q. cbn [app] in Q.
  rewrite Q by (vm_compute; repeat constructor; discriminate). clear Q.
  change (beq (lit "level") (lit "level")) with true. cbv iota. rewrite read_level_json. cbn [bind fst snd].
  pose proof (payload_key (S n) false (Some l) None (lit "timestamp") (json_string ts ++ [125])) as Q. cbn [app] in Q.
  rewrite Q by (vm_compute; repeat constructor; discriminate). clear Q.
  change (beq (lit "timestamp") (lit "level")) with false. change (beq (lit "timestamp") (lit "timestamp")) with true. cbv iota.
  rewrite read_string_json by auto. reflexivity.
Qed.

(** Reading any payload ends with a payload or an error. *)
Lemma variant_fits : forall n p, (length (snd p) <= n)%nat -> fits n snd (read_variant p).
Proof. intros n [a b] L. unfold read_variant. cbn [fst snd] in *. destruct (level_of_name a); [exact L|exact Logic.I]. Qed.

Lemma level_fits : forall s n, (length s <= n)%nat -> fits n snd (read_level s).
Proof.
  intros s n L. unfold read_level. pose proof (skip_ws_length s) as W. destruct (skip_ws s) as [|c r]; [exact Logic.I|]. cbn [length] in W.
  destruct (c =? 34).
  - eapply (fits_bind n _ snd); [apply parse_str_fits; lia|]. intros p Lp. now apply variant_fits.
  - destruct (c =? 123); [|exact Logic.I]. eapply (fits_bind n _ snd); [apply read_string_fits; lia|]. intros p Lp.
    eapply (fits_bind n _ snd); [now apply variant_fits|]. intros q Lq.
    eapply (fits_bind n _ same); [unfold expect_colon; apply expect_fits; pose proof (skip_ws_length (snd q)); lia|]. intros t Lt. unfold same in Lt.
    eapply (fits_bind n _ same); [apply expect_fits; pose proof (skip_ws_length t); lia|]. intros u Lu. unfold same in Lu.
    eapply (fits_bind n _ same); [apply expect_fits; pose proof (skip_ws_length u); lia|]. intros v Lv. exact Lv.
Qed.

Lemma level_option_fits : forall s n, (length s <= n)%nat -> fits n snd (read_level_option s).
Proof.
  intros s n L. unfold read_level_option. pose proof (skip_ws_length s) as W. destruct (skip_ws s) as [|c r] eqn:E; [exact Logic.I|]. cbn [length] in W.
  destruct (c =? 110).
  - eapply (fits_bind n _ same); [apply expect_fits; lia|]. intros t Lt. exact Lt.
  - eapply (fits_bind n _ snd); [now apply level_fits|]. intros p Lp. exact Lp.
Qed.

Lemma payload_map_fits : forall fuel first lv ts s n, (length s < fuel)%nat -> (length s <= n)%nat -> fits n snd (payload_map fuel first lv ts s).
Proof.
  induction fuel as [|fuel IH]; intros first lv ts s n Lf L; [lia|]. cbn [payload_map]. pose proof (skip_ws_length s) as W.
  destruct (skip_ws s) as [|c r]; [exact Logic.I|]. cbn [length] in W. destruct (c =? 125).
  { destruct ts; [cbn; lia|exact Logic.I]. }
  assert (R : exists k, (S k = length (c :: r))%nat) by (eexists; reflexivity). destruct R as (k & R). cbn [length] in R.
  eapply (fits_bind (S k) _ same).
  { destruct first; [cbn; unfold same; cbn; lia|]. destruct (c =? 44); [|exact Logic.I]. cbn. unfold same. pose proof (skip_ws_length r). lia. }
  intros t Lt. unfold same in Lt. eapply (fits_bind k _ same); [apply expect_fits1; lia|]. intros u Lu. unfold same in Lu.
  eapply (fits_bind k _ snd); [apply parse_str_fits; lia|]. intros q Lq.
  eapply (fits_bind k _ same). { unfold expect_colon. apply expect_fits. pose proof (skip_ws_length (snd q)). lia. }
  intros v Lv. unfold same in Lv. destruct (beq (fst q) (lit "level")).
  { destruct lv; [exact Logic.I|]. eapply (fits_bind k _ snd); [now apply level_option_fits|]. intros z Lz. apply IH; lia. }
  destruct (beq (fst q) (lit "timestamp")).
  { destruct ts; [exact Logic.I|]. eapply (fits_bind k _ snd); [now apply read_string_fits|]. intros z Lz. apply IH; lia. }
  eapply (fits_bind k _ same); [apply ignore_value_fits; lia|]. intros z Lz. unfold same in Lz. apply IH; lia.
Qed.

Lemma payload_seq_fits : forall s n, (length s <= n)%nat -> fits n snd (payload_seq s).
Proof.
  intros s n L. unfold payload_seq.
  eapply (fits_bind n _ same); [now apply next_element_fits|]. intros a La. unfold same in La.
  eapply (fits_bind n _ snd); [now apply level_option_fits|]. intros b Lb.
  eapply (fits_bind n _ same); [now apply next_element_fits|]. intros c Lc. unfold same in Lc.
  eapply (fits_bind n _ snd); [now apply read_string_fits|]. intros d Ld.
  eapply (fits_bind n _ same); [apply expect_fits; pose proof (skip_ws_length (snd d)); lia|]. intros e Le. exact Le.
Qed.

Theorem payload_total : forall s, (exists p, read_payload s = Ok p) \/ read_payload s = Err tt.
Proof.
  intros s. unfold read_payload. pose proof (skip_ws_length s) as W. destruct (skip_ws s) as [|c r]; [auto|]. cbn [length] in W.
  assert (F : fits (length r) snd (if c =? 123 then payload_map (S (length s)) true None None r else if c =? 91 then payload_seq r else Err tt)).
  { destruct (c =? 123); [apply payload_map_fits; lia|]. destruct (c =? 91); [apply payload_seq_fits; lia|exact Logic.I]. }
  match goal with | F : fits _ _ ?q |- _ => destruct q as [p|[]| |]; cbn in F; try contradiction; cbn [bind] end; auto.
  destruct (skip_ws (snd p)); [left; eauto|auto].
Qed.

(** ** Records *)

Theorem record_back : forall X tbl fr file line m ts msg, timestamp_text X tbl fr = Some ts -> display_message X tbl fr = Some msg -> byte_text ts ->
  exists lr, log_defmt X tbl fr file line m = Ok lr /\ is_defmt_frame (lr_target lr) = true /\
    defmt_record lr = Ok (Some (MkRecord false (f_level fr) ts file line m msg)).
Proof.
  intros X tbl fr file line m ts msg T M B. unfold log_defmt. rewrite T, M. eexists. split; [reflexivity|]. cbn [lr_target].
  split; [unfold is_defmt_frame; now rewrite strip_self|]. unfold defmt_record. cbn [lr_target lr_file lr_line lr_module lr_message].
  rewrite strip_self, payload_read by auto. reflexivity.
Qed.

Lemma should_defmt : forall verbose t, is_defmt_frame t = true -> should_log verbose t = true.
Proof. intros [] t H; unfold should_log; now rewrite H. Qed.

Theorem text_sink_frame : forall Y colors segs host_segs verbose X tbl fr file line m ts msg,
  timestamp_text X tbl fr = Some ts -> display_message X tbl fr = Some msg -> byte_text ts ->
  bind (log_defmt X tbl fr file line m) (text_sink Y colors segs host_segs verbose) =
  match f_level fr with
  | Some l => s <- format_record Y colors segs (MkRecord false (Some l) ts file line m msg) ;; Ok [Stdout (s ++ [10])]
  | None => Ok [Stdout (msg ++ [10])]
  end.
Proof.
  intros Y colors segs hs verbose X tbl fr file line m ts msg T M B. destruct (record_back X tbl fr file line m ts msg T M B) as (lr & E & D & R).
  rewrite E. cbn [bind]. unfold text_sink. rewrite should_defmt by auto. rewrite R. cbn [bind r_level r_message]. destruct (f_level fr); reflexivity.
Qed.

Theorem host_sink : forall Y colors segs host_segs verbose now lr, is_defmt_frame (lr_target lr) = false ->
  let out := if verbose : bool then s <- format_record Y colors host_segs (host_record lr) ;; Ok [Stderr (s ++ [10])] else Ok [] in
  text_sink Y colors segs host_segs verbose lr = out /\ json_sink Y colors host_segs verbose now lr = out.
Proof.
  intros Y colors segs hs verbose now lr D. cbv zeta. unfold text_sink, json_sink, should_log, defmt_record, print_host.
  unfold is_defmt_frame in *. destruct (strip_prefix target_marker (lr_target lr)); [discriminate|]. destruct verbose; split; reflexivity.
Qed.

(* ------------------------------------------------------------------ *)
(** * Module paths *)

Lemma split_no_colon : forall s, no_colon s -> split_path s = [s].
Proof.
  intros s. induction s as [|c s IH]; intros H; [reflexivity|]. cbn [split_path].
  assert (N : c <> 58) by (intros ->; apply H; now left). assert (H' : no_colon s) by (intros I0; apply H; now right).
  rewrite (IH H'). destruct (Z.eqb_spec c 58); [contradiction|]. destruct s; reflexivity.
Qed.

Lemma split_first : forall a r, no_colon a -> split_path (a ++ 58 :: 58 :: r) = a :: split_path r.
Proof.
  intros a r. induction a as [|c a IH]; intros H; [reflexivity|].
  assert (N : c <> 58) by (intros ->; apply H; now left). assert (H' : no_colon a) by (intros I0; apply H; now right).
  change ((c :: a) ++ 58 :: 58 :: r) with (c :: (a ++ 58 :: 58 :: r)). cbn [split_path]. rewrite (IH H').
  destruct (Z.eqb_spec c 58); [contradiction|]. cbn [andb]. destruct (a ++ 58 :: 58 :: r); reflexivity.
Qed.

Lemma split_join : forall l, l <> [] -> Forall no_colon l -> split_path (join (lit "::") l) = l.
Proof.
  intros l. induction l as [|a l IH]; intros NE H; [congruence|]. inversion H as [|? ? Ha Hl]; subst. destruct l as [|b l].
  - now apply split_no_colon.
  - change (join (lit "::") (a :: b :: l)) with (a ++ 58 :: 58 :: join (lit "::") (b :: l)). rewrite split_first by auto.
    now rewrite IH by (auto; discriminate).
Qed.

Lemma split_two : forall s a b l, split_path s = a :: b :: l -> exists r, s = a ++ lit "::" ++ r.
Proof.
  intros s a b l E. exists (join_path (b :: l)). rewrite <- (join_split s), E. reflexivity.
Qed.

Lemma removelast_last : forall (l : list bytes) f d, removelast (l ++ [f]) = l /\ last (l ++ [f]) d = f.
Proof.
  intros l f d. split; [rewrite removelast_app by discriminate; cbn; now rewrite app_nil_r|apply last_last].
Qed.

Lemma module_spec : forall p c modules f, Forall no_colon (c :: modules ++ [f]) -> p = join (lit "::") (c :: modules ++ [f]) ->
  module_json (Some p) = JObj [(lit "crate_name", JStr c); (lit "modules", JArr (map JStr modules)); (lit "function", JStr f)].
Proof.
  intros p c modules f H ->. unfold module_json. rewrite split_join by (auto; discriminate).
  destruct (modules ++ [f]) as [|x y] eqn:E; [destruct modules; discriminate|]. rewrite <- E.
  destruct (removelast_last modules f []) as [-> ->]. reflexivity.
Qed.

Lemma module_none : forall p, (forall a b, p <> a ++ lit "::" ++ b) -> module_json (Some p) = JNull.
Proof.
  intros p H. unfold module_json. destruct (split_path p) as [|c [|d l]] eqn:E; try reflexivity.
  destruct (split_two p c d l E) as (r & E'). now apply H in E'.
Qed.

(* ------------------------------------------------------------------ *)
(** * The JSON sink *)

Lemma split_bytes : forall n s, (length s < n)%nat -> byte_text s -> Forall byte_text (split_path s).
Proof.
  intros n. induction n as [|n IH]; intros s L H; [lia|]. destruct s as [|c s]; [repeat constructor|]. cbn [split_path].
  inversion H as [|? ? Hc Hs]; subst. cbn [length] in L.
  assert (R : Forall byte_text (match split_path s with p :: ps => (c :: p) :: ps | [] => [[c]] end)).
  { specialize (IH s ltac:(lia) Hs). destruct (split_path s) as [|p ps]; [constructor; [constructor; [auto|constructor]|constructor]|].
    inversion IH; subst. constructor; [constructor; auto|auto]. }
  destruct s as [|d s]; [exact R|]. destruct ((c =? 58) && (d =? 58)); [|exact R]. constructor; [constructor|].
  inversion Hs; subst. apply IH; [cbn [length] in L; lia|auto].
Qed.

Lemma lit_bytes : forall s, forallb (fun b => 0 <=? b) s = true -> byte_text s.
Proof. intros s H. rewrite forallb_forall in H. apply Forall_forall. intros b Hb. specialize (H b Hb). lia. Qed.

Lemma module_ok : forall m, opt_text m -> json_ok (module_json m).
Proof.
  intros [p|] H; [|constructor]. unfold module_json. pose proof (split_bytes (S (length p)) p ltac:(lia) H) as B.
  destruct (split_path p) as [|c [|d l]]; try constructor. inversion B as [|? ? Bc Br]; subst.
  assert (Br' : Forall byte_text (removelast (d :: l)) /\ byte_text (last (d :: l) [])).
  { rewrite (app_removelast_last [] (l := d :: l)) in Br by discriminate. apply Forall_app in Br as [Ba Bb]. split; [exact Ba|]. now inversion Bb. }
  destruct Br' as [B1 B2].
  constructor; [split; [apply lit_bytes; reflexivity|now constructor]|].
  constructor; [split; [apply lit_bytes; reflexivity|]|].
  - constructor. apply Forall_map. eapply Forall_impl; [|exact B1]. intros a Ha. now constructor.
  - constructor; [split; [apply lit_bytes; reflexivity|now constructor]|constructor].
Qed.

Definition record_text (r : record) : Prop := byte_text (r_message r) /\ byte_text (r_time r) /\ opt_text (r_file r) /\ opt_text (r_module r).

Lemma frame_json_ok : forall now r, record_text r -> json_ok (frame_json now r).
Proof.
  intros now r (Hm & Ht & Hf & Hp). unfold frame_json.
  assert (K : forall k v, forallb (fun b => 0 <=? b) k = true -> json_ok v -> byte_text (fst (k, v)) /\ json_ok (snd (k, v)))
    by (intros k v Hk Hv; split; [now apply lit_bytes|exact Hv]).
  constructor. constructor; [apply K; [reflexivity|now constructor]|]. constructor; [apply K; [reflexivity|constructor]|].
  constructor; [apply K; [reflexivity|destruct (r_level r); constructor; apply level_bytes]|].
  constructor; [apply K; [reflexivity|]|].
  - constructor. constructor; [apply K; [reflexivity|destruct (r_file r); constructor; exact Hf]|].
    constructor; [apply K; [reflexivity|destruct (r_line r); constructor]|].
    constructor; [apply K; [reflexivity|now apply module_ok]|constructor].
  - constructor; [apply K; [reflexivity|now constructor]|constructor].
Qed.

Lemma frame_json_reports : forall now r, reports now (r_level r) (r_time r) (r_message r) (r_file r) (r_line r) (r_module r) (frame_json (Z.min now (2 ^ 63 - 1)) r).
Proof.
  intros now r. unfold reports. split; [reflexivity|]. split; [reflexivity|]. split; [reflexivity|].
  split. { intros L. rewrite Z.min_l by lia. reflexivity. }
  split; [reflexivity|]. split; [reflexivity|]. unfold reports_module. destruct (r_module r) as [p|] eqn:E.
  - assert (G : forall path, get (lit "location" :: lit "module_path" :: path) (frame_json (Z.min now (2 ^ 63 - 1)) r) = get path (module_json (Some p)))
      by (intros path; rewrite <- E; reflexivity).
    split.
    + intros c modules f H Ep. rewrite !G. rewrite (module_spec p c modules f H Ep). repeat split; reflexivity.
    + intros H. rewrite !G, module_none by auto. reflexivity.
  - transitivity (Some (module_json (r_module r))); [reflexivity|now rewrite E].
Qed.

Theorem json_sink_frame : forall Y colors host_segs verbose now X tbl fr file line m ts msg,
  timestamp_text X tbl fr = Some ts -> display_message X tbl fr = Some msg ->
  byte_text ts -> byte_text msg -> opt_text file -> opt_text m ->
  exists s j, bind (log_defmt X tbl fr file line m) (json_sink Y colors host_segs verbose now) = Ok [Stdout (s ++ [10])] /\
    one_line s /\ json_document s = Some j /\ reports now (f_level fr) ts msg file line m j.
Proof.
  intros Y colors hs verbose now X tbl fr file line m ts msg T M B Bm Bf Bp. destruct (record_back X tbl fr file line m ts msg T M B) as (lr & E & D & R).
  set (r := MkRecord false (f_level fr) ts file line m msg) in *. assert (K : json_ok (frame_json (Z.min now (2 ^ 63 - 1)) r)) by (apply frame_json_ok; repeat split; auto).
  do 2 eexists. split.
  { rewrite E. cbn [bind]. unfold json_sink. rewrite should_defmt by auto. rewrite R. reflexivity. }
  split; [now apply json_line|]. split; [now apply document_read|]. exact (frame_json_reports now r).
Qed.

(* ------------------------------------------------------------------ *)
(** * Runs *)

Definition no_clock (sink : log_record -> outcome unit (list output)) (now : Z) : log_record -> outcome unit (list output) := sink.

Lemma timestamp_says : forall X addr tbl index tsa args fr time message,
  frame_means addr tbl index tsa args fr -> says_statement X tbl tsa args fr time message ->
  timestamp_text X tbl fr = Some time /\ display_message X tbl fr = Some message.
Proof.
  intros X addr tbl index tsa args fr time message F [(frags & E & S) T]. split.
  - unfold timestamp_text. destruct (t_timestamp tbl) as [e|] eqn:Et.
    + destruct T as (fr2 & E2 & S2). destruct (TextMain.timestamp_text X addr tbl index tsa args fr e F Et) as (fr3 & E3 & W).
      assert (fr3 = fr2) by congruence. subst fr3. apply W in S2. now rewrite S2.
    + destruct F as (_ & _ & _ & _ & F). rewrite Et in F. destruct F as [F1 F2]. unfold display_timestamp. rewrite F1. now rewrite T.
  - destruct (message_text X addr tbl index tsa args fr [] F) as (fr3 & E3 & _ & W). assert (fr3 = frags) by congruence. subst fr3. now apply W.
Qed.

Lemma formatted_none : forall Y s d l c, (match x_max Y with Some m => d + Z.of_nat (length s) <= m | None => True end) -> 0 <= d -> d <= char_count (strip_ansi s) ->
  build_formatted Y false s no_format d l c = Ok s.
Proof.
  intros Y s d l c M D W. unfold build_formatted. cbv zeta. cbn [no_format f_width f_align f_pad f_style opt_list].
  pose proof (stripped_count s (strip_ansi s) (strip_spec s)) as C.
  assert (L : (length (strip_ansi s) <= length s)%nat).
  { pose proof (strip_spec s) as P. clear - P. induction P; cbn [length]; rewrite ?app_length; cbn [length]; rewrite ?app_length; cbn [length]; lia. }
  assert (G : (match x_max Y with Some m => m <? d + (Z.of_nat (length s) - Z.of_nat (length (strip_ansi s))) | None => false end) = false)
    by (destruct (x_max Y); [apply Z.ltb_ge; lia|reflexivity]).
  rewrite G. f_equal. unfold paint. rewrite pad_none by lia. destruct (pick_color c l); reflexivity.
Qed.

Lemma level_shown : forall Y l c, wide_enough Y -> build_formatted Y false (level_upper l) no_format 5 (Some l) c = Ok (level_column l).
Proof.
  intros Y l c W. unfold wide_enough in W.
  assert (G : forall k, k <= 5 -> (match x_max Y with Some m => m <? k | None => false end) = false) by (intros k K; destruct (x_max Y); [apply Z.ltb_ge; lia|reflexivity]).
  unfold build_formatted. cbv zeta. rewrite G by (destruct l; vm_compute; discriminate). f_equal. unfold paint.
  destruct (pick_color c (Some l)); destruct l; reflexivity.
Qed.

(** The default format. *)
Theorem default_format : forall Y b l time file line m message, wide_enough Y -> ordinary Y message ->
  (match x_max Y with Some mx => Z.of_nat (length time) <= mx | None => True end) ->
  format_record Y false (builtin_segments FDefault false b false) (MkRecord false (Some l) time file line m message) =
  Ok (default_line b (Some l) time message).
Proof.
  intros Y b l time file line m message W (NC & NS & Wm) Wt. unfold builtin_segments, format_record. cbn [r_level level_group].
  assert (Elog : build_segment Y false (MkRecord false (Some l) time file line m message) (raw MLog) = Ok message).
  { unfold raw. cbn [build_segment r_level]. unfold build_log. cbn [r_host r_message r_level].
    destruct (diff_cases Y false message) as [(before & x & y & C & _)|(_ & [E|[Sv _]])]; [now apply NC in C| |contradiction].
    rewrite E. apply formatted_none; [exact Wm|lia|apply char_count_nonneg]. }
  assert (Elevel : build_segment Y false (MkRecord false (Some l) time file line m message) (raw MLevel) = Ok (level_column l)).
  { unfold raw. cbn [build_segment r_level]. now apply level_shown. }
  assert (Etime : build_segment Y false (MkRecord false (Some l) time file line m message) (raw MTime) = Ok (match time with [] => lit "<time>" | _ => time end)).
  { unfold raw. cbn [build_segment r_level r_host r_time]. destruct time; (apply formatted_none; [|lia|apply char_count_nonneg]); [unfold wide_enough in W; destruct (x_max Y); cbn; auto; lia|exact Wt]. }
  assert (Espace : forall r, build_segment Y false r (raw (MString (lit " "))) = Ok (lit " ")) by reflexivity.
  unfold default_line. destruct b; cbn [app build_all].
  - rewrite Etime, Espace, Elevel, Elog. cbn [bind]. rewrite app_nil_r, <- !app_assoc. reflexivity.
  - rewrite Espace, Elevel, Elog. cbn [bind]. rewrite app_nil_r. reflexivity.
Qed.

Section Runs.
  Context (X : externals) (Y : external) (addr : bytes -> Z) (tbl : table) (host_segs : list segment) (locs : option (list (Z * location)))
    (current_dir skipped : bytes).

  Notation statement := (Z * list aval * list aval)%type.

  Definition executed (stmts : list statement) (frs : list frame) (chunks : list bytes) : Prop :=
    Forall2 (fun s fr => let '(index, tsa, args) := s in frame_means addr tbl index tsa args fr) stmts frs /\
    exists writes, Forall2 (fun sf w => let '((index, tsa, args), fr) := sf in
       concat w = encode_frame addr index (option_map e_string (t_timestamp tbl)) tsa (f_format fr) args) (combine stmts frs) writes /\
      concat chunks = snd (frames_chunks enc_new writes).

  Definition printed_as (stmts : list statement) (frs : list frame) (texts : list (bytes * bytes)) : Prop :=
    Forall2 (fun sf t => let '((_, tsa, args), fr) := sf in says_statement X tbl tsa args fr (fst t) (snd t)) (combine stmts frs) texts.

  Definition timely (t : bytes * bytes) : Prop :=
    byte_text (fst t) /\ match x_max Y with Some m => Z.of_nat (length (fst t)) <= m | None => True end.

  Lemma texts_shown : forall stmts frs texts,
    Forall2 (fun s fr => let '(index, tsa, args) := s in frame_means addr tbl index tsa args fr) stmts frs -> printed_as stmts frs texts ->
    Forall2 (fun fr t => timestamp_text X tbl fr = Some (fst t) /\ display_message X tbl fr = Some (snd t)) frs texts.
  Proof.
    intros stmts frs texts M. revert texts. induction M as [|[[i tsa] args] fr stmts frs H M IH]; intros texts P; unfold printed_as in P; cbn [combine] in P.
    - inversion P; subst. constructor.
    - inversion P as [|? t ? ts Pt Pr]; subst. constructor; [|now apply IH]. eapply timestamp_says; eauto.
  Qed.

  Lemma default_events : forall frs texts times, external_ok Y -> wide_enough Y ->
    Forall2 (fun fr t => timestamp_text X tbl fr = Some (fst t) /\ display_message X tbl fr = Some (snd t)) frs texts ->
    Forall (fun t => ordinary Y (snd t)) texts -> Forall timely texts -> length times = length frs ->
    exists out, print_events false X tbl locs current_dir skipped false
        (no_clock (text_sink Y false (builtin_segments FDefault false (match t_timestamp tbl with Some _ => true | None => false end) false) host_segs false))
        (combine times (map EvFrame frs)) = Ok out /\
      stderr_of out = [] /\
      stdout_of out = as_lines (map (fun ft => default_line (match t_timestamp tbl with Some _ => true | None => false end)
        (f_level (fst ft)) (fst (snd ft)) (snd (snd ft))) (combine frs texts)).
  Proof.
    intros frs texts times HX W D Ho Ht Lt.
    set (b := match t_timestamp tbl with Some _ => true | None => false end). clearbody b.
    revert times Lt Ho Ht. induction D as [|fr t frs texts [Dt Dm] D IH]; intros times Lt Ho Ht.
    - exists []. destruct times; [|discriminate]. repeat split.
    - destruct times as [|now times]; [discriminate|]. inversion Ho as [|? ? Ho1 Ho2]; subst. inversion Ht as [|? ? [Hb Hw] Ht2]; subst.
      destruct (IH times ltac:(cbn in Lt; lia) Ho2 Ht2) as (out & E & E1 & E2). clear IH.
      cbn [map combine print_events print_event].
      destruct (location_info locs fr current_dir) as [[file line] m] eqn:El.
      assert (Q : bind (log_defmt X tbl fr file line m) (text_sink Y false (builtin_segments FDefault false b false) host_segs false) =
        Ok [Stdout (default_line b (f_level fr) (fst t) (snd t) ++ [10])]).
      { rewrite (text_sink_frame Y false _ host_segs false X tbl fr file line m (fst t) (snd t) Dt Dm Hb).
        destruct (f_level fr) as [l|]; [|reflexivity]. now rewrite default_format. }
      unfold no_clock at 1. change (bind (log_defmt X tbl fr file line m) (fun lr => text_sink Y false (builtin_segments FDefault false b false) host_segs false lr))
        with (bind (log_defmt X tbl fr file line m) (text_sink Y false (builtin_segments FDefault false b false) host_segs false)).
      rewrite Q. cbn [bind]. rewrite E. cbn [bind]. eexists. split; [reflexivity|].
      unfold stderr_of, stdout_of, as_lines in *. cbn [app flat_map combine map fst snd]. rewrite E1, E2. split; reflexivity.
  Qed.

  (** Everything a program logs is printed, and nothing else, with the default format. *)
  Theorem default_run : forall stmts frs chunks texts times segs, table_safe tbl -> external_ok Y -> wide_enough Y ->
    executed stmts frs chunks -> printed_as stmts frs texts -> Forall (fun t => ordinary Y (snd t)) texts -> Forall timely texts ->
    length times = length frs ->
    parse_log_format Y (formatter_string FDefault false (match t_timestamp tbl with Some _ => true | None => false end) false) = Ok segs ->
    exists out, print_events false X tbl locs current_dir skipped false (no_clock (text_sink Y false segs host_segs false))
        (combine times (fst (host_run EncRzcobs tbl [] chunks))) = Ok out /\
      stderr_of out = [] /\
      stdout_of out = as_lines (map (fun ft => default_line (match t_timestamp tbl with Some _ => true | None => false end)
        (f_level (fst ft)) (fst (snd ft)) (snd (snd ft))) (combine frs texts)).
  Proof.
    intros stmts frs chunks texts times segs TS HX W (M & writes & Wr & C) P Ho Ht Lt Ps.
    rewrite (builtin_parses Y HX) in Ps. injection Ps as <-.
    rewrite (end_to_end addr tbl stmts frs writes chunks TS M Wr C). cbn [fst].
    apply default_events; auto. now apply (texts_shown stmts).
  Qed.

  (** The same as JSON: one line for each frame. *)
  Definition locs_text : Prop := forall fr, let '(file, _, m) := location_info locs fr current_dir in opt_text file /\ opt_text m.

  Definition reported (b : frame * (bytes * bytes) * Z) (s : bytes) : Prop :=
    let '(fr, (time, message), now) := b in let '(file, line, m) := location_info locs fr current_dir in
    one_line s /\ exists j, json_document s = Some j /\ reports now (f_level fr) time message file line m j.

  Theorem json_run : forall stmts frs chunks texts times, table_safe tbl -> locs_text ->
    executed stmts frs chunks -> printed_as stmts frs texts -> Forall (fun t => byte_text (fst t) /\ byte_text (snd t)) texts ->
    length times = length frs ->
    exists out ls, print_events false X tbl locs current_dir skipped false (json_sink Y false host_segs false)
        (combine times (fst (host_run EncRzcobs tbl [] chunks))) = Ok out /\
      stderr_of out = [] /\ stdout_of out = as_lines ls /\ Forall2 reported (combine (combine frs texts) times) ls.
  Proof.
    intros stmts frs chunks texts times TS HL (M & writes & Wr & C) P Ht Lt.
    rewrite (end_to_end addr tbl stmts frs writes chunks TS M Wr C). cbn [fst].
    pose proof (texts_shown stmts frs texts M P) as D. clear - D Ht Lt HL.
    revert times Lt Ht. induction D as [|fr t frs texts [Dt Dm] D IH]; intros times Lt Ht.
    - exists [], []. destruct times; [|discriminate]. repeat split. constructor.
    - destruct times as [|now times]; [discriminate|]. inversion Ht as [|? ? [Hb Hm] Ht2]; subst.
      destruct (IH times ltac:(cbn in Lt; lia) Ht2) as (out & ls & E & E1 & E2 & E3). clear IH.
      cbn [map combine print_events print_event]. specialize (HL fr).
      destruct (location_info locs fr current_dir) as [[file line] m] eqn:El. destruct HL as [Hf Hp].
      destruct (json_sink_frame Y false host_segs false now X tbl fr file line m (fst t) (snd t) Dt Dm Hb Hm Hf Hp) as (s & j & Q & Q1 & Q2 & Q3).
      change (bind (log_defmt X tbl fr file line m) (fun lr => json_sink Y false host_segs false now lr))
        with (bind (log_defmt X tbl fr file line m) (json_sink Y false host_segs false now)).
      rewrite Q. cbn [bind]. rewrite E. cbn [bind]. exists ([Stdout (s ++ [10])] ++ out), (s :: ls). split; [reflexivity|].
      unfold stderr_of, stdout_of, as_lines in *. cbn [app flat_map]. rewrite E1, E2. repeat split.
      constructor; [|exact E3]. unfold reported. destruct t as [time message]. rewrite El. split; [exact Q1|]. exists j. auto.
  Qed.
End Runs.

(* ------------------------------------------------------------------ *)
(** * Streams with damaged frames *)

Lemma as_lines_app : forall a b, as_lines (a ++ b) = as_lines a ++ as_lines b.
Proof. intros a b. unfold as_lines. apply flat_map_app. Qed.

(** The texts of all frames and places are lists of bytes, as they are for the strings of Rust. *)
Definition all_bytes (X : externals) (tbl : table) (locs : option (list (Z * location))) (dir : bytes) : Prop :=
  (forall fr ts, timestamp_text X tbl fr = Some ts -> byte_text ts) /\ (forall fr m, display_message X tbl fr = Some m -> byte_text m) /\
  (forall fr, let '(file, _, m) := location_info locs fr dir in opt_text file /\ opt_text m).

Definition is_frame (ev : Z * event) : bool := match snd ev with EvFrame _ => true | EvSkipped => false end.

Theorem json_events : forall Y X tbl locs dir skipped host_segs evs out, all_bytes X tbl locs dir ->
  print_events false X tbl locs dir skipped false (json_sink Y false host_segs false) evs = Ok out ->
  exists ls, stderr_of out = [] /\ stdout_of out = as_lines ls /\ length ls = length (filter is_frame evs) /\
    Forall (fun s => one_line s /\ exists j, json_document s = Some j) ls.
Proof.
  intros Y X tbl locs dir skipped hs evs out (B1 & B2 & B3). revert out. induction evs as [|[now ev] evs IH]; intros out E.
  - cbn in E. injection E as <-. exists []. repeat split. constructor.
  - cbn [print_events] in E. destruct (print_event false X tbl locs dir skipped false (json_sink Y false hs false) now ev) as [o|e| |] eqn:Ev; try discriminate.
    cbn [bind] in E. destruct (print_events false X tbl locs dir skipped false (json_sink Y false hs false) evs) as [r|e| |]; try discriminate.
    cbn [bind] in E. injection E as <-. destruct (IH r eq_refl) as (ls & E1 & E2 & E3 & E4). clear IH. destruct ev as [fr|].
    + cbn [print_event] in Ev. specialize (B3 fr). destruct (location_info locs fr dir) as [[file line] m]. destruct B3 as [Bf Bm].
      destruct (timestamp_text X tbl fr) as [ts|] eqn:T; [|unfold log_defmt in Ev; rewrite T in Ev; discriminate].
      destruct (display_message X tbl fr) as [msg|] eqn:M; [|unfold log_defmt in Ev; rewrite T, M in Ev; discriminate].
      destruct (json_sink_frame Y false hs false now X tbl fr file line m ts msg T M (B1 _ _ T) (B2 _ _ M) Bf Bm) as (s & j & Q & Q1 & Q2 & _).
      assert (o = [Stdout (s ++ [10])]) by (unfold bind in *; congruence). subst o.
      exists (s :: ls). unfold stderr_of, stdout_of in *. cbn [app flat_map]. rewrite E1, E2. repeat split.
      * cbn. now rewrite E3.
      * constructor; [split; [exact Q1|eauto]|exact E4].
    + cbn in Ev. injection Ev as <-. exists ls. cbn [app]. repeat split; auto.
Qed.

(** A damaged frame leads to no line, unless asked for. *)
Theorem skipped_silent : forall X tbl locs dir skipped sink now, print_event false X tbl locs dir skipped false sink now EvSkipped = Ok [].
Proof. reflexivity. Qed.
