From Verif Require Import Base RzcobsModel RzcobsProofs ParserModel DecoderModel DecoderProofs DecoderPanic
  StreamModel StreamSpec.

(* ------------------------------------------------------------------ *)
(** * Splitting *)

Lemma split_on_ne : forall c s, split_on c s <> [].
Proof. intros c [|x s]; cbn [split_on]; [discriminate|]. destruct (x =? c); [discriminate|].
  destruct (split_on c s); discriminate. Qed.

(** Automaton view: [cur] is the piece being collected. *)
Fixpoint feed (cur s : bytes) : list bytes * bytes :=
  match s with
  | [] => ([], cur)
  | x :: s' =>
      if x =? 0 then
        let '(ms, r) := feed [] s' in ((if non_empty cur then [cur] else []) ++ ms, r)
      else feed (cur ++ [x]) s'
  end.

Lemma feed_split : forall s cur, exists p ps, split_on 0 s = p :: ps /\
  feed cur s = (filter non_empty (removelast ((cur ++ p) :: ps)), last ((cur ++ p) :: ps) []).
Proof.
  induction s as [|x s IH]; intro cur; cbn [split_on feed].
  - exists [], []. rewrite app_nil_r. auto.
  - destruct (x =? 0).
    + destruct (IH []) as (p & ps & E & F). rewrite E, F. exists [], (p :: ps). split; auto.
      rewrite app_nil_r. cbn [app]. 
      change (removelast (cur :: p :: ps)) with (cur :: removelast (p :: ps)).
      change (last (cur :: p :: ps) []) with (last (p :: ps) (@nil Z)).
      cbn [filter]. destruct (non_empty cur); reflexivity.
    + destruct (IH (cur ++ [x])) as (p & ps & E & F). rewrite E, F. exists (x :: p), ps. split; auto.
      rewrite <- app_assoc. reflexivity.
Qed.

Lemma feed_spec : forall s, feed [] s = (messages s, incomplete s).
Proof.
  intro s. destruct (feed_split s []) as (p & ps & E & F). rewrite F. unfold messages, incomplete.
  rewrite E. reflexivity.
Qed.

Lemma feed_app : forall a b cur,
  feed cur (a ++ b) = let '(m1, r1) := feed cur a in let '(m2, r2) := feed r1 b in (m1 ++ m2, r2).
Proof.
  induction a as [|x a IH]; intros b cur; cbn [app feed].
  - destruct (feed cur b); reflexivity.
  - destruct (x =? 0); [|apply IH]. rewrite IH. destruct (feed [] a) as [m1 r1].
    destruct (feed r1 b) as [m2 r2]. rewrite app_assoc. reflexivity.
Qed.

Lemma feed_nonzero : forall p cur, ~ In 0 p -> feed cur p = ([], cur ++ p).
Proof.
  induction p as [|x p IH]; intros cur H; cbn [feed].
  - rewrite app_nil_r. reflexivity.
  - destruct (Z.eqb_spec x 0); [exfalso; apply H; cbn; auto|].
    rewrite IH; [|intro; apply H; cbn; auto]. rewrite <- app_assoc. reflexivity.
Qed.

Lemma feed_drop_zeros : forall s, feed [] (drop_zeros s) = feed [] s.
Proof.
  induction s as [|x s IH]; cbn [drop_zeros]; auto. destruct (x =? 0) eqn:E; auto.
  rewrite IH. cbn [feed]. rewrite E. cbn [non_empty]. destruct (feed [] s); reflexivity.
Qed.

Lemma incomplete_no_zero : forall s cur, ~ In 0 cur -> ~ In 0 (snd (feed cur s)).
Proof.
  induction s as [|x s IH]; intros cur H; cbn [feed]; auto.
  destruct (Z.eqb_spec x 0).
  - specialize (IH [] ltac:(auto)). destruct (feed [] s). auto.
  - apply IH. intro X. apply in_app_iff in X as [X|[X|[]]]; auto.
Qed.

(* ------------------------------------------------------------------ *)
(** * The buffer invariant and one [decode] *)

(** The state never starts with a separator. *)
Definition rz_inv (raw : bytes) : Prop := match raw with 0 :: _ => False | _ => True end.

Lemma drop_zeros_inv : forall d, rz_inv (drop_zeros d).
Proof.
  induction d as [|x d IH]; cbn [drop_zeros]; [exact I|].
  destruct (Z.eqb_spec x 0); auto. unfold rz_inv. destruct x; auto.
Qed.

Lemma rz_inv_cons : forall x l, rz_inv (x :: l) <-> x <> 0.
Proof. intros x l. unfold rz_inv. destruct x; split; intro H; try exact I; try discriminate; congruence. Qed.

Lemma rz_received_inv : forall raw d, rz_inv raw -> rz_inv (rz_received raw d).
Proof.
  intros [|x raw] d H; cbn [rz_received]; [apply drop_zeros_inv|].
  cbn [app]. apply rz_inv_cons. apply rz_inv_cons in H. auto.
Qed.

Lemma rz_received_feed : forall raw d, feed [] (rz_received raw d) = feed [] (raw ++ d).
Proof. intros [|x raw] d; cbn [rz_received app]; [apply feed_drop_zeros|reflexivity]. Qed.

Lemma feed_zeros : forall zs s, Forall (fun x => x = 0) zs -> feed [] (zs ++ s) = feed [] s.
Proof.
  induction zs as [|z zs IH]; intros s H; cbn [app]; auto. inversion H; subst.
  cbn [feed]. change (0 =? 0) with true. cbn iota. rewrite IH by auto. cbn [non_empty].
  destruct (feed [] s); reflexivity.
Qed.

Definition is_eof (r : outcome decode_error frame) : bool :=
  match r with Err UnexpectedEof => true | _ => false end.

Lemma message_result_not_eof : forall t p, is_eof (message_result t p) = false.
Proof.
  intros t p. unfold message_result. destruct (rzcobs_decode p); auto. destruct (decode t a) as [[f n]| | |]; auto.
Qed.

(** One [decode] on a state satisfying the invariant. *)
Lemma rz_decode_step : forall t raw, rz_inv raw ->
  (~ In 0 raw /\ rz_decode t raw = (Err UnexpectedEof, raw)) \/
  (exists p raw', p <> [] /\ ~ In 0 p /\ rz_decode t raw = (message_result t p, raw') /\
     rz_inv raw' /\ (length p + length raw' < length raw)%nat /\
     feed [] raw = (p :: fst (feed [] raw'), snd (feed [] raw'))).
Proof.
  intros t raw H. unfold rz_decode.
  destruct (position (fun x => x =? 0) raw) as [zero|] eqn:E.
  - right. apply position_some in E as (L & F & x & r & Es & Ex).
    assert (x = 0) by lia. subst x. clear Ex.
    assert (Er : raw = firstn zero raw ++ 0 :: r) by (rewrite <- Es; symmetry; apply firstn_skipn).
    assert (NZ : ~ In 0 (firstn zero raw)).
    { rewrite Forall_forall in F. intro X. apply F in X. cbn in X. lia. }
    assert (NE : firstn zero raw <> []).
    { intro X. rewrite X in Er. cbn [app] in Er. rewrite Er in H. exact H. }
    set (p := firstn zero raw) in *.
    assert (Lp : length p = zero) by (unfold p; rewrite firstn_length; lia).
    assert (K : exists raw', (match position (fun x => negb (x =? 0)) (skipn zero raw) with
        | Some nonzero => skipn (zero + nonzero) raw | None => [] end) = raw' /\
        rz_inv raw' /\ exists zs, r = zs ++ raw' /\ Forall (fun x => x = 0) zs).
    { destruct (position (fun x => negb (x =? 0)) (skipn zero raw)) as [nzp|] eqn:E2.
      - apply position_some in E2 as (L2 & F2 & y & r2 & Es2 & Ey).
        rewrite <- skipn_skipn, Es2. exists (y :: r2). split; auto. split; [apply rz_inv_cons; lia|].
        destruct nzp as [|nzp]. { rewrite Es in Es2. cbn [skipn] in Es2. injection Es2 as X _. rewrite <- X in Ey. discriminate. }
        rewrite Es in Es2, F2. cbn [skipn firstn] in Es2, F2. apply Forall_inv_tail in F2.
        exists (firstn nzp r). split; [rewrite <- Es2; symmetry; apply firstn_skipn|].
        eapply Forall_impl; [|exact F2]. cbn. intros; lia.
      - apply position_none in E2. exists []. repeat split; auto. rewrite Es in E2. apply Forall_inv_tail in E2.
        exists r. rewrite app_nil_r. split; auto. eapply Forall_impl; [|exact E2]. cbn; intros; lia. }
    destruct K as (raw' & -> & I' & zs & Hzs & Fzs).
    exists p, raw'. repeat split; auto.
    + assert (M : match rzcobs_decode p with
          | Ok d =>
              match decode t d with
              | Ok (f, _) => (Ok f, raw')
              | Err UnexpectedEof => (Err Malformed, raw')
              | Err Malformed => (Err Malformed, raw')
              | Panic => (Panic, raw')
              | NoFuel => (NoFuel, raw')
              end
          | Err e => (Err e, raw')
          | Panic => (Panic, raw')
          | NoFuel => (NoFuel, raw')
          end = (message_result t p, raw')).
      { unfold message_result. destruct (rzcobs_decode_total p) as [[d ->]| ->]; auto.
        destruct (decode t d) as [[f n]|[]| |]; auto. }
      cbv zeta. destruct raw' as [|y raw'']; auto. apply rz_inv_cons in I'. destruct y; auto. congruence.
    + apply (f_equal (@length Z)) in Er. rewrite app_length in Er. cbn [length] in Er.
      rewrite Hzs, app_length in Er. lia.
    + rewrite Er at 1. rewrite feed_app, (feed_nonzero p []) by auto. cbn [app feed].
      change (0 =? 0) with true. cbn iota. rewrite Hzs, feed_zeros by auto.
      destruct (feed [] raw') as [m r']. destruct p; [congruence|]. reflexivity.
  - left. apply position_none in E. split; auto.
    rewrite Forall_forall in E. intro X. apply E in X. cbn in X. lia.
Qed.

(* ------------------------------------------------------------------ *)
(** * Arbitrary histories *)

Lemma run_ops_spec : forall t ops raw, rz_inv raw ->
  let '(rs, raw') := run_ops t raw ops in
  rz_inv raw' /\
  exists done, 
    feed [] (raw ++ ops_bytes ops) = (done ++ fst (feed [] raw'), snd (feed [] raw')) /\
    filter (fun r => negb (is_eof r)) rs = map (message_result t) done.
Proof.
  intros t. induction ops as [|[d|] ops IH]; intros raw H; cbn [run_ops ops_bytes].
  - split; auto. exists []. rewrite app_nil_r. destruct (feed [] raw); auto.
  - specialize (IH (rz_received raw d) (rz_received_inv raw d H)).
    destruct (run_ops t (rz_received raw d) ops) as [rs raw']. destruct IH as (A & done & B & C).
    split; auto. exists done. split; auto. rewrite <- B.
    rewrite app_assoc, !(feed_app _ (ops_bytes ops)), rz_received_feed. reflexivity.
  - destruct (rz_decode_step t raw H) as [[NZ E]|(p & raw1 & NE & NZ & E & I1 & L & F)]; rewrite E.
    + specialize (IH raw H). destruct (run_ops t raw ops) as [rs raw']. destruct IH as (A & done & B & C).
      split; auto. exists done. split; auto.
    + specialize (IH raw1 I1). destruct (run_ops t raw1 ops) as [rs raw']. destruct IH as (A & done & B & C).
      split; auto. exists (p :: done). split.
      * rewrite feed_app, F. rewrite feed_app in B. destruct (feed [] raw1) as [m1 r1]. cbn [fst snd] in *.
        destruct (feed r1 (ops_bytes ops)) as [m2 r2]. cbn [app]. inversion B. rewrite H1, <- H2. reflexivity.
      * cbn [filter map]. rewrite message_result_not_eof. cbn [negb]. rewrite C. reflexivity.
Qed.

(* ------------------------------------------------------------------ *)
(** * The host read loop, rzCOBS *)

Lemma message_result_safe : forall t p, table_safe t ->
  (exists f, message_result t p = Ok f) \/ message_result t p = Err Malformed.
Proof.
  intros t p H. unfold message_result. destruct (rzcobs_decode_total p) as [[d ->]| ->]; auto.
  destruct (decode_total t d H) as [(f & n & ->)|[->| ->]]; eauto.
Qed.

Lemma drain_rz : forall t, table_safe t -> forall fuel raw, rz_inv raw -> (length raw < fuel)%nat ->
  drain EncRzcobs t fuel raw = (map (message_event t) (fst (feed [] raw)), Waiting (snd (feed [] raw))).
Proof.
  intros t Ht. induction fuel as [|fuel IH]; intros raw H L; [lia|]. cbn [drain stream_decode can_recover].
  destruct (rz_decode_step t raw H) as [[NZ E]|(p & raw1 & NE & NZ & E & I1 & L1 & F)]; rewrite E.
  - rewrite (feed_nonzero raw []) by auto. reflexivity.
  - rewrite F. cbn [fst snd map]. rewrite (IH raw1 I1) by lia. 
    assert (M : message_event t p = match message_result t p with Ok f => EvFrame f | _ => EvSkipped end) by reflexivity.
    destruct (message_result_safe t p Ht) as [[f X]|X]; rewrite X in *; rewrite M; reflexivity.
Qed.

Lemma host_run_rz : forall t, table_safe t -> forall chunks raw, ~ In 0 raw ->
  host_run EncRzcobs t raw chunks =
    (map (message_event t) (fst (feed raw (concat chunks))), Waiting (snd (feed raw (concat chunks)))).
Proof.
  intros t Ht. induction chunks as [|c cs IH]; intros raw NZ; cbn [host_run List.concat].
  - reflexivity.
  - cbn [received].
    assert (I : rz_inv raw). { destruct raw; [exact I|]. apply rz_inv_cons. intro; subst. apply NZ; cbn; auto. }
    rewrite (drain_rz t Ht) by (auto using rz_received_inv).
    rewrite rz_received_feed, feed_app, (feed_nonzero raw []) by auto. cbn [app].
    pose proof (incomplete_no_zero c raw NZ) as NZ'.
    rewrite feed_app. destruct (feed raw c) as [m1 r1]. cbn [fst snd app] in *.
    rewrite (IH r1 NZ'). destruct (feed r1 (concat cs)) as [m2 r2]. cbn [fst snd].
    rewrite map_app. reflexivity.
Qed.

(** The host's output is a function of the byte stream. *)
Lemma host_run_rz_spec : forall t chunks, table_safe t ->
  host_run EncRzcobs t [] chunks =
    (map (message_event t) (messages (concat chunks)), Waiting (incomplete (concat chunks))).
Proof. intros t chunks H. rewrite host_run_rz by auto. rewrite feed_spec. reflexivity. Qed.

(* ------------------------------------------------------------------ *)
(** * Device to host *)

(** Bytes sent by an encoder that has already started, as messages. *)
Lemma frames_feed : forall fs e, idle e -> started e = true -> Forall (fun f => concat f <> []) fs ->
  exists bodies, feed [] (snd (frames_chunks e fs)) = (bodies, []) /\
    Forall2 (fun f body => exists k, (k <= 6)%nat /\ rzcobs_decode body = Ok (concat f ++ repeat 0 k)) fs bodies.
Proof.
  induction fs as [|f fs IH]; intros e I S H; cbn [frames_chunks].
  - exists []. split; [reflexivity|constructor].
  - inversion H; subst. destruct (frame_spec e f I) as (body & k & A & B & C & D & E & _ & I1 & S1).
    destruct (frame_chunks e f) as [e1 o1]. cbn [fst snd] in *. specialize (IH e1 I1 S1 H3).
    destruct (frames_chunks e1 fs) as [e2 o2]. cbn [snd] in *. destruct IH as (bodies & F & G).
    exists (body :: bodies). split.
    + rewrite A, S. cbn [app]. rewrite <- app_assoc, feed_app. cbn [app].
      rewrite feed_nonzero; [|rewrite Forall_forall in D; intro X; apply (D 0 X); reflexivity].
      cbn [app feed]. change (0 =? 0) with true. cbn iota. rewrite F.
      destruct body; [exfalso; apply E; auto|]. reflexivity.
    + constructor; auto. exists k. auto.
Qed.

(** The output of a fresh encoder is a separator followed by that of a started one. *)
Lemma fresh_started : forall f fs, snd (frames_chunks enc_new (f :: fs)) =
  0 :: snd (frames_chunks (Encoder 0 0 true) (f :: fs)).
Proof.
  intros f fs. cbn [frames_chunks]. unfold frame_chunks, start_frame. cbn [enc_new started run zeros].
  destruct (writes (Encoder 0 0 true) f) as [e1 o1]. destruct (end_frame e1) as [e2 o2].
  destruct (frames_chunks e2 fs) as [e3 o3]. reflexivity.
Qed.

Lemma started_idle : forall h hs, exists e, fst (frames_chunks enc_new (h :: hs)) = e /\ idle e /\ started e = true.
Proof.
  intros h hs. eexists. split; [reflexivity|]. split; [apply frames_idle, idle_new|].
  assert (G : forall fs e, idle e -> started e = true -> started (fst (frames_chunks e fs)) = true).
  { induction fs as [|f fs IH]; intros e I S; cbn [frames_chunks]; auto.
    destruct (frame_spec e f I) as (_ & _ & _ & _ & _ & _ & _ & _ & I1 & S1).
    destruct (frame_chunks e f) as [e1 o1]. specialize (IH e1 I1 S1). destruct (frames_chunks e1 fs). auto. }
  cbn [frames_chunks]. destruct (frame_spec enc_new h idle_new) as (_ & _ & _ & _ & _ & _ & _ & _ & I1 & S1).
  destruct (frame_chunks enc_new h) as [e1 o1]. specialize (G hs e1 I1 S1). destruct (frames_chunks e1 hs). auto.
Qed.

Lemma decode_nil : forall t f n, decode t [] <> Ok (f, n).
Proof. intros t f n H. pose proof (decode_ok_min _ _ _ _ H). apply decode_extend in H as [H _]. cbn in H. lia. Qed.

(** Sent frames that decode on their own. *)
Definition decodes (t : table) (f : list bytes) (fr : frame) : Prop :=
  exists n, decode t (concat f) = Ok (fr, n).

Lemma decodes_nonempty : forall t f fr, decodes t f fr -> concat f <> [].
Proof. intros t f fr [n H] E. rewrite E in H. apply decode_nil in H. auto. Qed.

Lemma decodes_padded : forall t f fr body k, decodes t f fr ->
  rzcobs_decode body = Ok (concat f ++ repeat 0 k) -> message_event t body = EvFrame fr.
Proof.
  intros t f fr body k [n H] E. unfold message_event, message_result. rewrite E.
  destruct (decode_extend _ _ _ _ H) as [A B].
  rewrite <- (firstn_skipn n (concat f)), <- app_assoc, B. reflexivity.
Qed.

Lemma frames_events : forall t fs frs e, Forall2 (decodes t) fs frs -> idle e -> started e = true ->
  exists bodies, feed [] (snd (frames_chunks e fs)) = (bodies, []) /\
    map (message_event t) bodies = map EvFrame frs.
Proof.
  intros t fs frs e H I S. destruct (frames_feed fs e I S) as (bodies & A & B).
  { clear - H. induction H; constructor; auto. eapply decodes_nonempty; eauto. }
  exists bodies. split; auto. clear - H B. revert bodies B.
  induction H as [|f fr fs frs Hf H IH]; intros bodies B; inversion B as [|? body ? bodies' HK HB]; subst; auto.
  cbn [map]. destruct HK as (k & _ & K). rewrite (decodes_padded _ _ _ _ _ Hf K). f_equal. auto.
Qed.

Lemma C05_lemma : forall t fs frs chunks, table_safe t -> Forall2 (decodes t) fs frs ->
  concat chunks = snd (frames_chunks enc_new fs) ->
  host_run EncRzcobs t [] chunks = (map EvFrame frs, Waiting []).
Proof.
  intros t fs frs chunks Ht H E. rewrite host_run_rz by auto. rewrite E.
  destruct fs as [|f fs]; [inversion H; subst; reflexivity|].
  rewrite fresh_started. cbn [feed non_empty]. change (0 =? 0) with true. cbn iota.
  destruct (frames_events t (f :: fs) frs (Encoder 0 0 true) H) as (bodies & A & B);
    [split; reflexivity|reflexivity|]. rewrite A. cbn [app fst snd]. rewrite B. reflexivity.
Qed.

Fixpoint count_zero (s : bytes) : nat :=
  match s with [] => O | x :: s' => if x =? 0 then S (count_zero s') else count_zero s' end.

Lemma feed_count : forall s cur, (length (fst (feed cur s)) <= count_zero s)%nat.
Proof.
  induction s as [|x s IH]; intro cur; cbn [feed count_zero]; [cbn; lia|].
  destruct (x =? 0); [|apply IH]. specialize (IH []). destruct (feed [] s). cbn [fst] in *.
  rewrite app_length. destruct (non_empty cur); cbn [length]; lia.
Qed.

Lemma resync : forall t g rest, table_safe t ->
  exists garbage, (length garbage <= count_zero g + 1)%nat /\
    forall evs, (exists bodies, feed [] rest = (bodies, []) /\ map (message_event t) bodies = evs) ->
    forall chunks, concat chunks = g ++ 0 :: rest ->
      host_run EncRzcobs t [] chunks = (garbage ++ evs, Waiting []).
Proof.
  intros t g rest Ht.
  exists (map (message_event t) (fst (feed [] (g ++ [0])))). split.
  - rewrite map_length. eapply Nat.le_trans; [apply feed_count|].
    clear. induction g as [|x g IH]; cbn [app count_zero]; [cbn; lia|]. destruct (x =? 0); lia.
  - intros evs (bodies & A & B) chunks E. rewrite host_run_rz by auto. rewrite E.
    replace (g ++ 0 :: rest) with ((g ++ [0]) ++ rest) by (rewrite <- app_assoc; reflexivity).
    rewrite (feed_app (g ++ [0])).
    assert (Z0 : snd (feed [] (g ++ [0])) = []).
    { rewrite feed_app. destruct (feed [] g) as [m r]. reflexivity. }
    destruct (feed [] (g ++ [0])) as [m r]. cbn [fst snd] in *. subst r. rewrite A. cbn [fst snd].
    rewrite map_app, B. reflexivity.
Qed.

Lemma C06_attach_lemma : forall t g h hs fs frs, table_safe t -> Forall2 (decodes t) fs frs ->
  exists garbage, (length garbage <= count_zero g + 1)%nat /\
    forall chunks, concat chunks = g ++ [0] ++ snd (frames_chunks (fst (frames_chunks enc_new (h :: hs))) fs) ->
      host_run EncRzcobs t [] chunks = (garbage ++ map EvFrame frs, Waiting []).
Proof.
  intros t g h hs fs frs Ht H.
  destruct (started_idle h hs) as (e & -> & I & S).
  destruct (resync t g (snd (frames_chunks e fs)) Ht) as (garbage & L & R).
  exists garbage. split; auto. intros chunks E. apply R; auto. apply frames_events; auto.
Qed.

Lemma C06_reboot_lemma : forall t g f fs frs, table_safe t -> Forall2 (decodes t) (f :: fs) frs ->
  exists garbage, (length garbage <= count_zero g + 1)%nat /\
    forall chunks, concat chunks = g ++ snd (frames_chunks enc_new (f :: fs)) ->
      host_run EncRzcobs t [] chunks = (garbage ++ map EvFrame frs, Waiting []).
Proof.
  intros t g f fs frs Ht H. rewrite fresh_started.
  destruct (resync t g (snd (frames_chunks (Encoder 0 0 true) (f :: fs))) Ht) as (garbage & L & R).
  exists garbage. split; auto. intros chunks E. apply R; auto. apply frames_events; auto. split; reflexivity.
Qed.

(** Locality: what comes before a separator does not influence what comes after. *)
Lemma messages_app : forall a b, messages (a ++ 0 :: b) = messages (a ++ [0]) ++ messages b /\
  incomplete (a ++ 0 :: b) = incomplete b.
Proof.
  intros a b. pose proof (feed_spec (a ++ 0 :: b)) as E.
  replace (a ++ 0 :: b) with ((a ++ [0]) ++ b) in * by (rewrite <- app_assoc; reflexivity).
  rewrite feed_app, feed_spec in E.
  assert (Z0 : incomplete (a ++ [0]) = []).
  { pose proof (feed_spec (a ++ [0])) as F. rewrite feed_app in F. destruct (feed [] a) as [m r].
    cbn [feed] in F. change (0 =? 0) with true in F. cbn iota in F. inversion F. auto. }
  rewrite Z0, feed_spec in E. inversion E. auto.
Qed.

(* ------------------------------------------------------------------ *)
(** * Raw stream *)

Lemma decode_panic_extend : forall t b s, decode t b = Panic -> decode t (b ++ s) = Panic.
Proof.
  intros t b s H. unfold decode in *.
  destruct (decode_fuel t (S (length b)) b) as [[f r]|e| |] eqn:E; try discriminate.
  rewrite (decode_fuel_enough t _ (S (length (b ++ s)))) in E; try lia.
  2: { rewrite app_length. lia. }
  pose proof (prefix_decode_fuel t (S (length (b ++ s))) b) as P. rewrite E in P.
  rewrite P. reflexivity.
Qed.

Lemma drain_raw_fuel : forall t f1 f2 buf, (length buf < f1)%nat -> (length buf < f2)%nat ->
  drain EncRaw t f1 buf = drain EncRaw t f2 buf.
Proof.
  induction f1 as [|f1 IH]; intros f2 buf L1 L2; [lia|]. destruct f2 as [|f2]; [lia|].
  cbn [drain stream_decode raw_decode]. unfold raw_decode.
  destruct (decode t buf) as [[f n]|[]| |] eqn:E; auto.
  pose proof (decode_ok_min _ _ _ _ E). destruct (decode_extend _ _ _ _ E) as [Hn _].
  rewrite (IH f2); auto; rewrite skipn_length; lia.
Qed.

Definition raw_all (t : table) (buf : bytes) : list event * status := drain EncRaw t (S (length buf)) buf.

Lemma raw_all_unfold : forall t buf, raw_all t buf =
  match decode t buf with
  | Ok (f, n) => let '(evs, st) := raw_all t (skipn n buf) in (EvFrame f :: evs, st)
  | Err UnexpectedEof => ([], Waiting buf)
  | Err Malformed => ([], Aborted)
  | Panic => ([], Panicked)
  | NoFuel => ([], OutOfFuel)
  end.
Proof.
  intros t buf. unfold raw_all. cbn [drain stream_decode can_recover]. unfold raw_decode.
  destruct (decode t buf) as [[f n]|[]| |] eqn:E; auto.
  pose proof (decode_ok_min _ _ _ _ E). destruct (decode_extend _ _ _ _ E) as [Hn _].
  rewrite (drain_raw_fuel t (length buf) (S (length (skipn n buf)))); auto; rewrite skipn_length; lia.
Qed.

Lemma raw_all_app : forall t n b s, (length b <= n)%nat ->
  raw_all t (b ++ s) =
    match raw_all t b with
    | (evs, Waiting r) => let '(evs', st) := raw_all t (r ++ s) in (evs ++ evs', st)
    | (evs, st) => (evs, st)
    end.
Proof.
  intros t. induction n as [|n IH]; intros b s L.
  - assert (b = []) by (destruct b; [auto|cbn in L; lia]). subst b.
    rewrite (raw_all_unfold t []). destruct (decode t []) as [[f k]|[]| |] eqn:E.
    + apply decode_nil in E. destruct E.
    + cbn [app]. destruct (raw_all t s); reflexivity.
    + rewrite raw_all_unfold, (decode_malformed_extend t [] s E). reflexivity.
    + rewrite raw_all_unfold, (decode_panic_extend t [] s E). reflexivity.
    + apply decode_no_fuel in E. destruct E.
  - rewrite (raw_all_unfold t b). destruct (decode t b) as [[f k]|[]| |] eqn:E.
    + rewrite raw_all_unfold. pose proof (decode_ok_min _ _ _ _ E). destruct (decode_extend _ _ _ _ E) as [Hn X].
      assert (decode t (b ++ s) = Ok (f, k)) as ->.
      { rewrite <- (firstn_skipn k b), <- app_assoc. apply X. }
      rewrite skipn_app. replace (k - length b)%nat with O by lia. cbn [skipn].
      rewrite IH by (rewrite skipn_length; lia).
      destruct (raw_all t (skipn k b)) as [evs [r| | |]]; auto. destruct (raw_all t (r ++ s)). reflexivity.
    + destruct (raw_all t (b ++ s)); reflexivity.
    + rewrite raw_all_unfold, (decode_malformed_extend t b s E). reflexivity.
    + rewrite raw_all_unfold, (decode_panic_extend t b s E). reflexivity.
    + apply decode_no_fuel in E. destruct E.
Qed.

Lemma raw_all_waiting : forall t n b evs r, (length b <= n)%nat -> raw_all t b = (evs, Waiting r) ->
  raw_all t r = ([], Waiting r).
Proof.
  intros t. induction n as [|n IH]; intros b evs r L H; rewrite raw_all_unfold in H;
    destruct (decode t b) as [[f k]|[]| |] eqn:E; inversion H; subst.
  - assert (b = []) by (destruct b; [auto|cbn in L; lia]). subst b. apply decode_nil in E. destruct E.
  - rewrite raw_all_unfold, E. reflexivity.
  - pose proof (decode_ok_min _ _ _ _ E). destruct (decode_extend _ _ _ _ E) as [Hn X].
    destruct (raw_all t (skipn k b)) as [e2 st] eqn:R. inversion H1; subst. eapply IH; [|exact R].
    rewrite skipn_length. lia.
  - rewrite raw_all_unfold, E. reflexivity.
Qed.

(** The read loop on the raw encoding does as if all data arrived at once. *)
Lemma host_run_raw : forall t chunks buf, raw_all t buf = ([], Waiting buf) ->
  host_run EncRaw t buf chunks = raw_all t (buf ++ concat chunks).
Proof.
  intros t. induction chunks as [|c cs IH]; intros buf H; cbn [host_run List.concat].
  - rewrite app_nil_r, H. reflexivity.
  - cbn [received]. unfold raw_received. fold (raw_all t (buf ++ c)).
    rewrite app_assoc, (raw_all_app t (length (buf ++ c)) (buf ++ c)) by auto.
    destruct (raw_all t (buf ++ c)) as [evs [r| | |]] eqn:E; auto.
    rewrite IH; [|eapply raw_all_waiting; eauto]. reflexivity.
Qed.

Lemma host_run_raw_spec : forall t chunks,
  host_run EncRaw t [] chunks = host_run EncRaw t [] [concat chunks].
Proof.
  intros t chunks.
  destruct (decode t []) as [[f n]|[]| |] eqn:E.
  - apply decode_nil in E. destruct E.
  - rewrite !host_run_raw by (rewrite raw_all_unfold, E; reflexivity). cbn [List.concat app]. rewrite app_nil_r. reflexivity.
  - exfalso. unfold decode, decode_fuel in E. cbn in E. discriminate.
  - exfalso. unfold decode, decode_fuel in E. cbn in E. discriminate.
  - apply decode_no_fuel in E. destruct E.
Qed.

Lemma raw_frames : forall t bs frs rest, 
  Forall2 (fun b fr => decode t b = Ok (fr, length b)) bs frs ->
  raw_all t (concat bs ++ rest) = let '(evs, st) := raw_all t rest in (map EvFrame frs ++ evs, st).
Proof.
  intros t bs frs rest H. induction H as [|b fr bs frs Hb H IH]; cbn [List.concat map app].
  - destruct (raw_all t rest); reflexivity.
  - rewrite <- app_assoc, raw_all_unfold. destruct (decode_extend _ _ _ _ Hb) as [_ X].
    assert (decode t (b ++ concat bs ++ rest) = Ok (fr, length b)) as ->.
    { rewrite <- (X (concat bs ++ rest)). f_equal. f_equal. symmetry. apply firstn_all. }
    rewrite skipn_app_exact, IH. destruct (raw_all t rest); reflexivity.
Qed.

Lemma C09_lemma : forall t bs frs part chunks,
  Forall2 (fun b fr => decode t b = Ok (fr, length b)) bs frs ->
  decode t part = Err UnexpectedEof ->
  concat chunks = concat bs ++ part ->
  host_run EncRaw t [] chunks = (map EvFrame frs, Waiting part).
Proof.
  intros t bs frs part chunks H Hp E.
  assert (N : raw_all t [] = ([], Waiting [])).
  { rewrite raw_all_unfold. rewrite (decode_eof_truncate t [] part Hp). reflexivity. }
  rewrite host_run_raw by auto. cbn [app]. rewrite E, (raw_frames _ _ _ _ H), raw_all_unfold, Hp.
  rewrite app_nil_r. reflexivity.
Qed.

(* ------------------------------------------------------------------ *)
(** * Progress *)

Lemma C08_lemma : forall t ops rs raw, run_ops t [] ops = (rs, raw) ->
  (match raw with 0 :: _ => False | _ => True end) /\
  (forall r raw', rz_decode t raw = (r, raw') ->
     (r = Err UnexpectedEof /\ raw' = raw /\ ~ In 0 raw) \/
     (r <> Err UnexpectedEof /\ In 0 raw /\ (length raw' < length raw)%nat /\
      exists p, ~ In 0 p /\ r = message_result t p)).
Proof.
  intros t ops rs raw H. pose proof (run_ops_spec t ops [] I) as S. rewrite H in S. destruct S as [S _].
  split; auto. intros r raw' E.
  destruct (rz_decode_step t raw S) as [[NZ E']|(p & raw1 & NE & NZ & E' & I1 & L & F)]; rewrite E' in E;
    inversion E; subst.
  - left. auto.
  - right. split; [|split; [|split]].
    + intro X. pose proof (message_result_not_eof t p) as Y. rewrite X in Y. discriminate.
    + destruct (in_dec Z.eq_dec 0 raw); auto. exfalso. rewrite (feed_nonzero raw []) in F by auto.
      inversion F.
    + lia.
    + exists p. auto.
Qed.

(* ------------------------------------------------------------------ *)
(** * The read loop without assumptions on the table *)

Lemma message_result_no_fuel : forall t p, message_result t p <> NoFuel.
Proof.
  intros t p. unfold message_result. destruct (rzcobs_decode_total p) as [[d ->]| ->]; try discriminate.
  pose proof (decode_no_fuel t d). destruct (decode t d) as [[f n]| | |]; try discriminate. contradiction.
Qed.

Lemma drain_rz_gen : forall t fuel raw, rz_inv raw -> (length raw < fuel)%nat ->
  drain EncRzcobs t fuel raw = show_messages t (fst (feed [] raw)) (snd (feed [] raw)).
Proof.
  intros t. induction fuel as [|fuel IH]; intros raw H L; [lia|]. cbn [drain stream_decode can_recover].
  destruct (rz_decode_step t raw H) as [[NZ E]|(p & raw1 & NE & NZ & E & I1 & L1 & F)]; rewrite E.
  - rewrite (feed_nonzero raw []) by auto. reflexivity.
  - rewrite F. cbn [fst snd show_messages]. rewrite (IH raw1 I1) by lia.
    pose proof (message_result_not_eof t p). destruct (message_result t p) as [f|[]| |]; auto. discriminate.
Qed.

Lemma show_messages_app : forall t m1 m2 r1 r2,
  show_messages t (m1 ++ m2) r2 =
    match show_messages t m1 r1 with
    | (evs, Waiting _) => let '(evs', st) := show_messages t m2 r2 in (evs ++ evs', st)
    | (evs, st) => (evs, st)
    end.
Proof.
  intros t m1 m2 r1 r2. induction m1 as [|m m1 IH]; cbn [app show_messages].
  - destruct (show_messages t m2 r2); reflexivity.
  - destruct (message_result t m); auto; rewrite IH; destruct (show_messages t m1 r1) as [evs [r| | |]]; auto;
      destruct (show_messages t m2 r2); reflexivity.
Qed.

Lemma show_messages_rest : forall t ms r evs r', show_messages t ms r = (evs, Waiting r') -> r' = r.
Proof.
  intros t ms r. induction ms as [|m ms IH]; intros evs r' H; cbn [show_messages] in H.
  - inversion H; auto.
  - destruct (message_result t m); try (inversion H; fail); destruct (show_messages t ms r) as [evs0 s0];
      inversion H; subst; eauto.
Qed.

Lemma host_run_rz_gen : forall t chunks raw, ~ In 0 raw ->
  host_run EncRzcobs t raw chunks =
    show_messages t (fst (feed raw (concat chunks))) (snd (feed raw (concat chunks))).
Proof.
  intros t. induction chunks as [|c cs IH]; intros raw NZ; cbn [host_run List.concat].
  - reflexivity.
  - cbn [received].
    assert (I : rz_inv raw). { destruct raw; [exact I|]. apply rz_inv_cons. intro; subst. apply NZ; cbn; auto. }
    rewrite drain_rz_gen by (auto using rz_received_inv).
    rewrite rz_received_feed, feed_app, (feed_nonzero raw []) by auto. cbn [app].
    pose proof (incomplete_no_zero c raw NZ) as NZ'.
    rewrite feed_app. destruct (feed raw c) as [m1 r1]. cbn [fst snd app] in *.
    specialize (IH r1 NZ'). destruct (feed r1 (concat cs)) as [m2 r2]. cbn [fst snd] in *.
    rewrite (show_messages_app t m1 m2 r1 r2).
    destruct (show_messages t m1 r1) as [evs [r| | |]] eqn:E; auto.
    apply show_messages_rest in E. subst r. rewrite IH. reflexivity.
Qed.

Lemma C07_run_lemma : forall t chunks,
  host_run EncRzcobs t [] chunks = show_messages t (messages (concat chunks)) (incomplete (concat chunks)).
Proof. intros t chunks. rewrite host_run_rz_gen by auto. rewrite feed_spec. reflexivity. Qed.

Lemma C07_independent_lemma : forall enc t chunks1 chunks2, concat chunks1 = concat chunks2 ->
  host_run enc t [] chunks1 = host_run enc t [] chunks2.
Proof.
  intros [|] t c1 c2 E.
  - rewrite (host_run_raw_spec t c1), (host_run_raw_spec t c2), E. reflexivity.
  - rewrite !C07_run_lemma, E. reflexivity.
Qed.

Lemma C07_history_lemma : forall t ops rs raw, run_ops t [] ops = (rs, raw) ->
  exists pending,
    map (message_result t) (messages (ops_bytes ops)) =
      filter (fun r => match r with Err UnexpectedEof => false | _ => true end) rs ++
      map (message_result t) pending /\
    messages raw = pending /\ incomplete raw = incomplete (ops_bytes ops).
Proof.
  intros t ops rs raw H. pose proof (run_ops_spec t ops [] I) as S. rewrite H in S.
  destruct S as (_ & done & F & R). cbn [app] in F. rewrite !feed_spec in F. cbn [fst snd] in F.
  injection F as F1 F2. exists (messages raw). rewrite F1, map_app, <- R. repeat split; auto.
  f_equal. clear. induction rs as [|r rs IH]; cbn [filter]; auto.
  rewrite IH. destruct r as [|[]| |]; reflexivity.
Qed.

Lemma C08_drain_lemma : forall t ops rs raw fuel, run_ops t [] ops = (rs, raw) -> (length raw < fuel)%nat ->
  snd (drain EncRzcobs t fuel raw) <> OutOfFuel /\
  (length (fst (drain EncRzcobs t fuel raw)) <= length raw)%nat.
Proof.
  intros t ops rs raw fuel H L. pose proof (run_ops_spec t ops [] I) as S. rewrite H in S. destruct S as [S _].
  clear - S L. revert raw S L. induction fuel as [|fuel IH]; intros raw S L; [lia|].
  cbn [drain stream_decode can_recover].
  destruct (rz_decode_step t raw S) as [[NZ E]|(p & raw1 & NE & NZ & E & I1 & L1 & F)]; rewrite E.
  - cbn. split; [discriminate|lia].
  - specialize (IH raw1 I1 ltac:(lia)). pose proof (message_result_not_eof t p) as Q.
    pose proof (message_result_no_fuel t p).
    destruct (message_result t p) as [f|[]| |]; try discriminate Q; try contradiction;
      try (destruct (drain EncRzcobs t fuel raw1) as [evs st]; cbn [fst snd length] in *; split; [tauto|lia]).
    cbn. split; [discriminate|lia].
Qed.
