(** What the terminal shows of a session. *)
From Verif Require Import Base Utf8 ParserModel DecoderModel DecoderPanic EncodeModel EncodeSpec EncodeProofs EncodeTop DisplayModel TextSpec RzcobsModel RzcobsProofs StreamModel StreamSpec StreamProofs
  LogFormatModel LogFormatSpec LogFormatBuiltin SymbolModel LocationModel SinkModel SinkSpec SinkProofs SinkMain HostModel HostSpec HostProofs
  LoggerModel LoggerSpec LoggerProofs LoggerMain DeviceModel DeviceSpec DeviceProofs DeviceLive DeviceMain AttachModel AttachProofs AttachLife AttachLive.
From Verif Require RttModel RttProofs.

(* ------------------------------------------------------------------ *)
(** * Reading from the middle of a stream *)

Lemma feed_late : forall s cur, cur <> [] -> exists junk t, (length junk <= 1)%nat /\ fst (feed [] s) = junk ++ t /\
  ((fst (feed cur s) = [] /\ junk = [] /\ t = []) \/ exists x, fst (feed cur s) = x :: t).
Proof.
  intros s cur N. destruct (feed_split s cur) as (p & ps & E & F). destruct (feed_split s []) as (p' & ps' & E' & F'). rewrite E in E'. injection E' as <- <-.
  rewrite F, F'. cbn [fst app]. destruct ps as [|q ps].
  - exists [], []. cbn. split; [lia|]. auto.
  - cbn [removelast]. change (match ps with [] => [] | _ :: _ => q :: removelast ps end) with (removelast (q :: ps)).
    exists (filter non_empty [p]), (filter non_empty (removelast (q :: ps))). cbn [filter].
    split; [destruct (non_empty p); cbn; lia|]. split; [destruct (non_empty p); reflexivity|]. right. exists (cur ++ p).
    destruct cur as [|c cur]; [congruence|]. reflexivity.
Qed.

Lemma feed_keeps : forall s cur, cur <> [] -> fst (feed cur s) = [] -> snd (feed cur s) <> [].
Proof.
  induction s as [|x s IH]; intros cur N H; cbn [feed] in *; auto. destruct (x =? 0).
  - destruct cur as [|c cur]; [congruence|]. cbn [non_empty] in H. destruct (feed [] s). discriminate.
  - apply IH; auto. destruct cur; discriminate.
Qed.

Lemma frames_app : forall a b e, frames_chunks e (a ++ b) =
  let '(e1, o1) := frames_chunks e a in let '(e2, o2) := frames_chunks e1 b in (e2, o1 ++ o2).
Proof.
  induction a as [|f a IH]; intros b e; cbn [frames_chunks app]; [destruct (frames_chunks e b); reflexivity|].
  destruct (frame_chunks e f) as [e1 o1]. rewrite IH. destruct (frames_chunks e1 a) as [e2 o2]. destruct (frames_chunks e2 b) as [e3 o3]. now rewrite app_assoc.
Qed.

(** The bytes of the messages sent so far. *)
Definition sent (open : option (list bytes)) (done : list (list bytes)) : bytes :=
  match open with None => transmitted EncRzcobs done | Some w => transmitted_part EncRzcobs done w end.

Lemma sent_prefix : forall open a b, exists z, sent open (a ++ b) = transmitted EncRzcobs a ++ z.
Proof.
  intros open a b. unfold sent, transmitted, transmitted_part. rewrite frames_app. destruct (frames_chunks enc_new a) as [e1 o1]. destruct (frames_chunks e1 b) as [e2 o2]. cbn [snd].
  destruct open as [w|]; [|eauto]. destruct (start_frame e2). rewrite <- app_assoc. eauto.
Qed.

Definition stands_for (f body : bytes) : Prop := exists k, (k <= 6)%nat /\ rzcobs_decode body = Ok (f ++ repeat 0 k).

Lemma sent_feed : forall open done, exists bodies rest, feed [] (sent open done) = (bodies, rest) /\ (open = None -> rest = []) /\
  Forall2 (fun (f : list bytes) (body : bytes) => stands_for (concat f) body) (filter not_empty done) bodies.
Proof.
  intros open done. destruct (frames_feed_any done enc_new idle_new) as (bodies & A & B). unfold sent, transmitted, transmitted_part.
  destruct open as [w|].
  - pose proof (frames_idle done enc_new idle_new) as I. destruct (frames_chunks enc_new done) as [e o]. cbn [fst snd] in *.
    destruct (part_feed e w I) as [rest P]. destruct (start_frame e) as [e0 o0]. cbn [fst snd] in P.
    exists bodies, rest. rewrite feed_app, A, P, app_nil_r. split; auto. split; [discriminate|exact B].
  - exists bodies, []. auto.
Qed.

Lemma split_filter : forall {A} (f : A -> bool) l n, (n <= length (filter f l))%nat -> exists a b, l = a ++ b /\ length (filter f a) = n.
Proof.
  intros A f. induction l as [|x l IH]; intros n L; cbn [filter length] in L; [exists [], []; split; auto; cbn; lia|].
  destruct n as [|n]; [exists [], (x :: l); auto|]. destruct (f x) eqn:Q.
  - cbn [length] in L. destruct (IH n ltac:(lia)) as (a & b & -> & E). exists (x :: a), b. split; auto. cbn [filter]. rewrite Q. cbn [length]. auto.
  - destruct (IH (S n) L) as (a & b & -> & E). exists (x :: a), b. split; auto. cbn [filter]. now rewrite Q.
Qed.

Lemma stands_events : forall t fs bodies frs, Forall2 (fun (f : list bytes) (body : bytes) => stands_for (concat f) body) fs bodies -> Forall2 (decodes t) fs frs ->
  map (message_event t) bodies = map EvFrame frs.
Proof.
  intros t fs bodies frs B. revert frs. induction B as [|f body fs bodies (k & _ & K) B IH]; intros frs H; inversion H; subst; auto. cbn [map].
  rewrite (decodes_padded _ _ _ _ _ H2 K). f_equal. auto.
Qed.

Lemma Forall2_len : forall {A B} (R : A -> B -> Prop) a b, Forall2 R a b -> length a = length b.
Proof. intros A B R a b H. induction H; cbn; auto. Qed.

(** A piece of the stream: after at most one wrong event, the messages whose bytes are all in it. *)
Lemma piece_shown : forall open done lost del rest, sent open done = lost ++ del ++ rest ->
  exists unseen seen later, done = unseen ++ seen ++ later /\
    (forall a x z, unseen = a ++ x :: z -> not_empty x = true -> (length (transmitted EncRzcobs a) < length lost)%nat) /\
    (rest = [] -> filter not_empty later = []) /\
    (lost = [] -> filter not_empty unseen = []) /\
    forall t frs, table_safe t -> Forall2 (decodes t) (filter not_empty seen) frs ->
      exists junk buf, (length junk <= 1)%nat /\ (lost = [] -> junk = []) /\
        forall chunks, concat chunks = del -> host_run EncRzcobs t [] chunks = (junk ++ map EvFrame frs, Waiting buf).
Proof.
  intros open done lost del rest E. destruct (sent_feed open done) as (bodies & r & A & _ & B).
  rewrite E, feed_app in A. destruct (feed [] lost) as [m1 r1] eqn:F1. rewrite feed_app in A. destruct (feed r1 del) as [m2 r2] eqn:F2. destruct (feed r2 rest) as [m3 r3] eqn:F3.
  injection A as <- <-. 
  assert (G : exists junk head m2', (length junk <= 1)%nat /\ fst (feed [] del) = junk ++ m2' /\ m2 = head ++ m2' /\ (length head <= 1)%nat /\
    (r1 = [] -> junk = [] /\ head = []) /\ (r1 <> [] -> (length head <= 1)%nat)).
  { destruct r1 as [|c r1].
    - exists [], [], m2. rewrite F2. cbn. repeat split; auto; lia.
    - destruct (feed_late del (c :: r1)) as (junk & t & L & Ej & [(E2 & -> & ->)|(x & E2)]); [discriminate| |]; rewrite F2 in E2; cbn [fst] in E2; subst m2.
      + exists [], [], []. rewrite Ej. cbn. repeat split; auto; discriminate.
      + exists junk, [x], t. rewrite Ej. cbn. repeat split; auto; discriminate. }
  destruct G as (junk & head & m2' & Lj & Ed & -> & Lh & G1 & G2).
  pose proof (Forall2_len _ _ _ B) as LB. rewrite !app_length in LB.
  destruct (split_filter not_empty done (length m1 + length head)) as (unseen & others & -> & Lu); [lia|].
  rewrite filter_app, app_length in LB.
  destruct (split_filter not_empty others (length m2')) as (seen & later & -> & Ls); [lia|].
  rewrite filter_app, app_length in LB.
  exists unseen, seen, later. split; [reflexivity|]. split; [|split; [|split]].
  - intros a x z -> Nx. destruct (Nat.lt_ge_cases (length (transmitted EncRzcobs a)) (length lost)) as [Q|Q]; auto. exfalso.
    destruct (sent_prefix open a ((x :: z) ++ seen ++ later)) as (w & Ew). rewrite <- app_assoc in E. rewrite E in Ew.
    assert (P : exists y, transmitted EncRzcobs a = lost ++ y).
    { exists (skipn (length lost) (transmitted EncRzcobs a)). rewrite <- (firstn_skipn (length lost) (transmitted EncRzcobs a)) at 1. f_equal.
      apply (f_equal (firstn (length lost))) in Ew. rewrite !firstn_app, Nat.sub_diag, firstn_all in Ew. cbn [firstn] in Ew.
      replace (length lost - length (transmitted EncRzcobs a))%nat with O in Ew by lia. cbn [firstn] in Ew. rewrite !app_nil_r in Ew. auto. }
    destruct P as (y & Ey). destruct (sent_feed None a) as (ba & ra & Fa & Ra & Ba). cbn [sent] in Fa. rewrite (Ra eq_refl), Ey, feed_app, F1 in Fa.
    destruct (feed r1 y) as [my ry] eqn:Fy. injection Fa as <- ->. apply Forall2_len in Ba. rewrite app_length in Ba.
    rewrite filter_app, app_length in Lu. cbn [filter] in Lu. rewrite Nx in Lu. cbn [length] in Lu.
    destruct r1 as [|c r1]; [destruct (G1 eq_refl) as [_ ->]; cbn [length] in Lu; lia|].
    destruct my as [|b my]; [|cbn [length] in Ba; lia].
    pose proof (feed_keeps y (c :: r1) ltac:(discriminate)) as K. rewrite Fy in K. now specialize (K eq_refl).
  - intros ->. cbn [feed] in F3. injection F3 as <- <-. cbn [length] in LB. assert (L0 : length (filter not_empty later) = O) by lia. now destruct (filter not_empty later).
  - intros ->. cbn [feed] in F1. injection F1 as <- <-. destruct (G1 eq_refl) as [_ ->]. cbn [length Nat.add] in Lu. now destruct (filter not_empty unseen).
  - intros t frs Ht D. rewrite !filter_app in B. apply Forall2_app_inv_l in B as (b1 & b2 & B1 & B2 & Eb). apply Forall2_app_inv_l in B2 as (b3 & b4 & B3 & B4 & ->).
    assert (E3 : b3 = m2').
    { apply Forall2_len in B1, B3. rewrite app_assoc in Eb. rewrite app_assoc in Eb.
      apply (f_equal (fun l => firstn (length m2') (skipn (length m1 + length head) l))) in Eb. rewrite Lu in B1. rewrite Ls in B3.
      rewrite <- !app_assoc in Eb.
      assert (S1 : forall (p q s : list bytes) n m, length p = n -> length q = m -> firstn m (skipn n (p ++ q ++ s)) = q).
      { intros p q s n m <- <-. rewrite skipn_app, skipn_all, Nat.sub_diag. cbn [skipn app]. rewrite firstn_app, Nat.sub_diag, firstn_all. cbn. apply app_nil_r. }
      rewrite (S1 b1 b3 b4) in Eb by lia. rewrite (app_assoc m1 head), (S1 (m1 ++ head) m2' m3) in Eb by (rewrite ?app_length; lia). auto. }
    subst b3. exists (map (message_event t) junk), (snd (feed [] del)). split; [now rewrite map_length|]. split.
    { intros ->. cbn [feed] in F1. injection F1 as <- <-. destruct (G1 eq_refl) as [-> _]. reflexivity. }
    intros chunks C. rewrite host_run_rz by auto. rewrite C, Ed, map_app. now rewrite (stands_events _ _ _ _ B3 D).
Qed.

Lemma print_app : forall v X tbl locs dir skipped show sink a b o, print_events v X tbl locs dir skipped show sink a = Ok o ->
  forall o', print_events v X tbl locs dir skipped show sink b = Ok o' -> print_events v X tbl locs dir skipped show sink (a ++ b) = Ok (o ++ o').
Proof.
  intros v X tbl locs dir skipped show sink. induction a as [|[now ev] a IH]; intros b o H o' H'; cbn [print_events app] in *.
  - injection H as <-. exact H'.
  - destruct (print_event v X tbl locs dir skipped show sink now ev) as [o1|e| |]; try discriminate. cbn [bind] in *.
    destruct (print_events v X tbl locs dir skipped show sink a) as [o2|e| |]; try discriminate. cbn [bind] in H. injection H as <-.
    rewrite (IH b o2 eq_refl o' H'). cbn [bind]. now rewrite app_assoc.
Qed.

Lemma of_context_app : forall i a b, of_context i (a ++ b) = of_context i a ++ of_context i b.
Proof. intros i a b. unfold of_context. now rewrite filter_app, map_app. Qed.

Lemma combine_app : forall {A B} (a a' : list A) (b b' : list B), length a = length b -> combine (a ++ a') (b ++ b') = combine a b ++ combine a' b'.
Proof. intros A B. induction a as [|x a IH]; intros a' [|y b] b' H; cbn in *; try discriminate; auto. f_equal. apply IH. lia. Qed.

(* ------------------------------------------------------------------ *)
(** * Sessions *)

(** Messages with something in them. *)
Definition told (h : nat * list bytes) : bool := non_empty (concat (snd h)).

(** Every message of [unseen] had begun when the first [n] bytes had been sent. *)
Definition begun_within (n : nat) (unseen : list (nat * list bytes)) : Prop :=
  forall a x z, unseen = a ++ x :: z -> told x = true -> (length (transmitted EncRzcobs (map snd a)) < n)%nat.

Lemma run_session : forall size k msg run who d n, run O = d -> session_fair size k msg run who -> session size k msg d (run n).
Proof. intros size k msg run who d n <- (H & _). induction n as [|n IH]; [constructor|]. econstructor; [exact IH|apply H]. Qed.

Lemma reset_lives : forall size k msg progs d0 d, reset size progs d0 -> session size k msg d0 d -> lives size k msg progs d.
Proof. intros size k msg progs d0 d R H. exists d0. split; auto. induction H as [d|m d d' d'' H IH St]; [constructor|]. econstructor 2; eauto. Qed.

Lemma reset_alone : forall size k msg progs d0 d, reset size progs d0 -> session size k msg d0 d -> RttModel.r_connected (d_chan d) = false.
Proof.
  intros size k msg progs d0 d R H. assert (C0 : RttModel.r_connected (d_chan d0) = false) by apply R.
  induction H as [d|m d d' d'' H IH St]; auto. rewrite (session_connected _ _ _ _ _ _ St). auto.
Qed.

(** The frames of a session; [shows] is what they look like on the host. *)
Section Frames.
  Context (addr : bytes -> Z) (tbl : table) (size : Z) (msg : option (list task)) (progs : list (list task)) (items : nat -> list said).
  Context (Hok : programs_ok msg progs) (Ht : table_safe tbl) (Hk : t_encoding tbl = EncRzcobs).
  Context (Hitems : forall i ts, nth_error progs i = Some ts -> Forall2 (says addr tbl) (spoken msg ts) (items i)).
  Context (json : bool) (good : said -> Prop) (shows : list event -> list (nat * said) -> Prop).
  Context (Hread : forall i x, In x (items i) -> good x).
  Context (shows_lines : forall junk order, (forall i x, In (i, x) order -> good x) -> (forall i x, In (i, x) order -> exists w, says addr tbl w x) -> shows junk order).

  Definition spoken_as (h : nat * list bytes) (o : nat * said) : Prop := fst h = fst o /\ says addr tbl (snd h) (snd o).

  Lemma piece_of_history : forall open hist (del lost rest : bytes), sent open (map snd hist) = lost ++ del ++ rest ->
    (forall i w, In (i, w) hist -> (i < length progs)%nat) ->
    (forall i ts, nth_error progs i = Some ts -> exists more, attempts msg ts = complete (by_ctx i hist) ++ more) ->
    exists unseen seen later missed order behind junk buf, hist = unseen ++ seen ++ later /\
      begun_within (length lost) unseen /\ (rest = [] -> filter told later = []) /\
      Forall2 spoken_as (filter told unseen) missed /\ Forall2 spoken_as (filter told seen) order /\ Forall2 spoken_as (filter told later) behind /\
      (forall i, (i < length progs)%nat -> exists more, items i = of_context i (missed ++ order ++ behind) ++ more /\
         length (of_context i (missed ++ order ++ behind)) = length (filter not_empty (by_ctx i hist))) /\
      (length junk <= 1)%nat /\ (lost = [] -> junk = [] /\ missed = []) /\
      (forall chunks, concat chunks = del ->
         host_run EncRzcobs tbl [] chunks = (junk ++ map EvFrame (map (fun o : nat * said => sd_frame (snd o)) order), Waiting buf)) /\
      shows junk order.
  Proof.
    intros open hist del lost rest E Hb Hc. destruct (piece_shown _ _ _ _ _ E) as (un & se & la & Em & Bd & La & Un & Sh).
    apply map_eq_app in Em as (unseen & others & -> & E1 & E2). apply map_eq_app in E2 as (seen & later & -> & E2 & E3). subst un se la.
    set (hist := unseen ++ seen ++ later) in *. set (hist' := filter (fun h : nat * list bytes => not_empty (snd h)) hist).
    assert (Hb' : forall i w, In (i, w) hist' -> (i < length progs)%nat) by (intros i w H; apply filter_In in H as [H _]; eauto).
    destruct (order_of addr tbl hist' items (length progs) Hb') as (all & O1 & O2).
    { intros i L. destruct (nth_error progs i) as [ts|] eqn:Et; [|apply nth_error_None in Et; lia]. destruct (Hc i ts Et) as (more & A).
      pose proof (Hitems i ts Et) as F. unfold spoken in F. rewrite A, filter_app, map_app, filter_app, complete_fst in F.
      change (filter (fun w => match concat w with [] => false | _ => true end) (by_ctx i hist)) with (filter not_empty (by_ctx i hist)) in F.
      rewrite <- by_ctx_filter in F. apply Forall2_app_inv_l in F as (l1 & l2 & F1 & _ & ->). exists l2, l1. split; auto. }
    assert (Ia : forall i x, In (i, x) all -> good x).
    { intros i x H. assert (L : (i < length progs)%nat) by (eapply order_inside; eauto). apply (Hread i). destruct (O2 i L) as (more & Ei & _). rewrite Ei. apply in_or_app. left. now apply in_of_context. }
    assert (Wa : forall i x, In (i, x) all -> exists w, says addr tbl w x).
    { intros i x H. clear - O1 H. induction O1 as [|h [j y] hist' all [_ Eq] O1 IH]; [contradiction|]. destruct H as [H|H]; [injection H as -> ->; eauto|auto]. }
    pose proof O1 as O3. unfold hist', hist in O3. rewrite !filter_app in O3. apply Forall2_app_inv_l in O3 as (missed & o' & M1 & M2 & ->).
    apply Forall2_app_inv_l in M2 as (order & behind & M2 & M3 & ->).
    pose proof (says_decodes addr tbl _ _ M2) as Dec. rewrite <- filter_map_snd in Dec.
    destruct (Sh tbl _ Ht Dec) as (junk & buf & Lj & Jl & Run).
    exists unseen, seen, later, missed, order, behind, junk, buf.
    split; [reflexivity|]. split.
    { intros a x z -> Tx. apply (Bd (map snd a) (snd x) (map snd z)); [now rewrite map_app|exact Tx]. }
    split. { intros R0. specialize (La R0). rewrite filter_map_snd in La. apply map_eq_nil in La. exact La. }
    split; [exact M1|]. split; [exact M2|]. split; [exact M3|]. split.
    { intros i L. destruct (O2 i L) as (more & A & B). exists more. split; auto. rewrite B. unfold hist'. now rewrite by_ctx_filter. }
    split; [exact Lj|]. split.
    { intros L0. split; [auto|]. specialize (Un L0). rewrite filter_map_snd in Un. apply map_eq_nil in Un. rewrite Un in M1. now inversion M1. }
    split; [exact Run|]. apply shows_lines; intros i x H; [apply (Ia i)|apply (Wa i)]; apply in_or_app; right; apply in_or_app; auto.
  Qed.

  (** At any moment of a session. *)
  Lemma session_frames : forall d1 d chunks s, lives size EncRzcobs msg progs d1 -> RttModel.r_connected (d_chan d1) = false ->
    session size EncRzcobs msg (attach d1) d -> concat chunks = RttModel.r_delivered (d_chan d) -> s <> Stdin \/ Forall some_bytes chunks ->
    exists open hist unseen seen later order junk buf, hist = unseen ++ seen ++ later /\
      out (d_sys d) = sent open (map snd hist) /\
      (forall i ts, nth_error progs i = Some ts -> exists more, attempts msg ts = complete (by_ctx i hist) ++ more) /\
      begun_within (length (out (d_sys d1)) - length (RttModel.data (RttModel.r_ops (d_chan d1)))) unseen /\
      Forall2 spoken_as (filter told seen) order /\ (length junk <= 1)%nat /\
      defmt_print false json s (Loads tbl) (HostSpec.reads chunks) =
        (schema json ++ map (Event tbl) (junk ++ map EvFrame (map (fun o : nat * said => sd_frame (snd o)) order)), Running tbl buf) /\
      shows junk order.
  Proof.
    intros d1 d chunks s Lv C0 Se C Hs. destruct (session_piece size EncRzcobs msg progs Hok d1 d Lv C0 Se) as (Rs & _ & lost & x & rest & El & Eo & _).
    destruct (whole_frames Rtt EncRzcobs msg progs (d_sys d) Hok Rs) as (hist & open & Es & _ & Hb & Hc).
    assert (Es' : out (d_sys d) = sent (option_map snd open) (map snd hist)) by (rewrite Es; destruct open as [[i w]|]; reflexivity).
    rewrite Es' in Eo. assert (Hc' : forall i ts, nth_error progs i = Some ts -> exists more, attempts msg ts = complete (by_ctx i hist) ++ more) by (intros i ts Et; destruct (Hc i ts Et) as (more & A & _); eauto).
    destruct (piece_of_history _ hist _ lost rest Eo Hb Hc') as (unseen & seen & later & missed & order & behind & junk & buf & Eh & Bd & _ & _ & M2 & _ & _ & Lj & _ & Run & Sh).
    exists (option_map snd open), hist, unseen, seen, later, order, junk, buf. split; [exact Eh|]. split; [exact Es'|]. split; [exact Hc'|]. split.
    { intros a y z Q T. specialize (Bd a y z Q T). rewrite <- El, !app_length. lia. }
    split; [exact M2|]. split; [exact Lj|]. split; [|exact Sh].
    unfold defmt_print. cbn [begin app]. rewrite <- (app_nil_r (HostSpec.reads chunks)), run_reads, Hk, (Run chunks C) by auto. cbn [run_print]. now rewrite app_nil_r.
  Qed.

  (** When everything has been delivered. *)
  Lemma complete_in_the_end : forall d1 d lost x chunks hs, Forall calm progs -> reachable Rtt EncRzcobs msg progs (d_sys d) -> finished (d_sys d) ->
    lost ++ x ++ RttModel.data (RttModel.r_ops (d_chan d1)) = out (d_sys d1) -> out (d_sys d) = lost ++ RttModel.r_delivered (d_chan d) ->
    concat chunks = RttModel.r_delivered (d_chan d) -> Forall some_bytes chunks ->
    exists unseen seen missed order junk,
      out (d_sys d) = transmitted EncRzcobs (map snd (unseen ++ seen)) /\
      begun_within (length (out (d_sys d1)) - length (RttModel.data (RttModel.r_ops (d_chan d1)))) unseen /\
      Forall2 spoken_as (filter told unseen) missed /\ Forall2 spoken_as (filter told seen) order /\ (length junk <= 1)%nat /\
      (forall i, (i < length progs)%nat -> items i = of_context i missed ++ of_context i order) /\
      (lost = [] -> junk = [] /\ missed = []) /\
      defmt_print false json Stdin (Loads tbl) (HostSpec.reads chunks ++ Read (Ok []) :: hs) =
        (schema json ++ map (Event tbl) (junk ++ map EvFrame (map (fun o : nat * said => sd_frame (snd o)) order)), Finished true) /\
      shows junk order.
  Proof.
    intros d1 d lost x chunks hs Hcalm Rs F El Eo C Hs.
    destruct (calm_delivered Rtt EncRzcobs msg progs Hok Hcalm (d_sys d) Rs F) as (_ & _ & _ & hist & Ho & Hb & Hc).
    assert (E' : sent None (map snd hist) = lost ++ RttModel.r_delivered (d_chan d) ++ []) by (cbn [sent]; rewrite app_nil_r, <- Eo; now symmetry).
    assert (Hc' : forall i ts, nth_error progs i = Some ts -> exists more, attempts msg ts = complete (by_ctx i hist) ++ more).
    { intros i ts Et. exists []. rewrite app_nil_r, (Hc i ts Et). apply attempts_calm. rewrite Forall_forall in Hcalm. apply Hcalm. eapply nth_error_In; eauto. }
    destruct (piece_of_history None hist _ lost [] E' Hb Hc') as (unseen & seen & later & missed & order & behind & junk & buf & Eh & Bd & La & M1 & M2 & M3 & It & Lj & L0 & Run & Sh).
    specialize (La eq_refl). rewrite La in M3. inversion M3; subst behind. rewrite app_nil_r in It.
    exists unseen, (seen ++ later), missed, order, junk. split; [now rewrite <- Eh|]. split.
    { intros a y z Q T. specialize (Bd a y z Q T). rewrite <- El, !app_length. lia. }
    split; [exact M1|]. split; [now rewrite filter_app, La, app_nil_r|]. split; [exact Lj|]. split.
    { intros i L. destruct (It i L) as (more & Ei & Li). rewrite of_context_app in *. destruct (nth_error progs i) as [ts|] eqn:Et; [|apply nth_error_None in Et; lia].
      pose proof (Hitems i ts Et) as Fi. apply Forall2_len in Fi. unfold spoken in Fi. rewrite (attempts_calm msg ts) in Fi by (rewrite Forall_forall in Hcalm; apply Hcalm; eapply nth_error_In; eauto).
      rewrite complete_fst in Fi. change (fun w : list bytes => match concat w with [] => false | _ => true end) with not_empty in Fi.
      rewrite (Hc i ts Et) in Li. rewrite Ei in Fi. rewrite app_length in Fi.
      change (length (filter not_empty (messages ts)) = (length (of_context i missed ++ of_context i order) + length more)%nat) in Fi.
      destruct more as [|y more]; [now rewrite Ei, app_nil_r|]. cbn [length] in Fi. lia. }
    split; [exact L0|]. split; [|exact Sh].
    rewrite stdin_run, Hk by auto. rewrite (Run [concat chunks]); [reflexivity|]. cbn [concat]. now rewrite app_nil_r.
  Qed.

  (** From the log statements to the lines, for a host that attaches late. *)
  Lemma late_frames : forall run who d1, Forall calm progs -> 2 <= size -> lives size EncRzcobs msg progs d1 -> RttModel.r_connected (d_chan d1) = false ->
    run O = attach d1 -> session_fair size EncRzcobs msg run who ->
    exists n, forall chunks hs, concat chunks = RttModel.r_delivered (d_chan (run n)) -> Forall some_bytes chunks ->
      exists unseen seen missed order junk,
        out (d_sys (run n)) = transmitted EncRzcobs (map snd (unseen ++ seen)) /\
        begun_within (length (out (d_sys d1)) - length (RttModel.data (RttModel.r_ops (d_chan d1)))) unseen /\
        Forall2 spoken_as (filter told unseen) missed /\ Forall2 spoken_as (filter told seen) order /\ (length junk <= 1)%nat /\
        (forall i, (i < length progs)%nat -> items i = of_context i missed ++ of_context i order) /\
        defmt_print false json Stdin (Loads tbl) (HostSpec.reads chunks ++ Read (Ok []) :: hs) =
          (schema json ++ map (Event tbl) (junk ++ map EvFrame (map (fun o : nat * said => sd_frame (snd o)) order)), Finished true) /\
        shows junk order.
  Proof.
    intros run who d1 Hcalm Hs Lv C0 E0 Hf. destruct (late_arrives size EncRzcobs msg progs run who d1 Hok Hcalm Hs Lv C0 E0 Hf) as (n & lost & x & El & F & _ & Eo).
    exists n. intros chunks hs C Hb. assert (Se : session size EncRzcobs msg (attach d1) (run n)) by (eapply run_session; eauto).
    destruct (session_piece size EncRzcobs msg progs Hok d1 (run n) Lv C0 Se) as (Rs & _).
    destruct (complete_in_the_end d1 (run n) lost x chunks hs Hcalm Rs F El Eo C Hb) as (unseen & seen & missed & order & junk & A1 & A2 & A3 & A4 & A5 & A6 & _ & A7 & A8).
    exists unseen, seen, missed, order, junk. auto 10.
  Qed.

  (** Nothing is missing when all that was logged before fits into the buffer. *)
  Lemma early_frames : forall run who d0 d1, Forall calm progs -> 2 <= size -> reset size progs d0 -> session size EncRzcobs msg d0 d1 ->
    Z.of_nat (length (out (d_sys d1))) < size -> run O = attach d1 -> session_fair size EncRzcobs msg run who ->
    exists n, forall chunks hs, concat chunks = RttModel.r_delivered (d_chan (run n)) -> Forall some_bytes chunks ->
      exists order, (forall i, (i < length progs)%nat -> items i = of_context i order) /\
        defmt_print false json Stdin (Loads tbl) (HostSpec.reads chunks ++ Read (Ok []) :: hs) =
          (schema json ++ map (Event tbl) (map EvFrame (map (fun o : nat * said => sd_frame (snd o)) order)), Finished true) /\
        shows [] order.
  Proof.
    intros run who d0 d1 Hcalm Hs Rst S1 Sm E0 Hf. destruct (early_arrives size EncRzcobs msg progs run who d0 d1 Hok Hcalm Hs Rst S1 Sm E0 Hf) as (n & F & _ & Eo).
    exists n. intros chunks hs C Hb. assert (Se : session size EncRzcobs msg (attach d1) (run n)) by (eapply run_session; eauto).
    assert (Lv : lives size EncRzcobs msg progs d1) by (eapply reset_lives; eauto).
    assert (C0 : RttModel.r_connected (d_chan d1) = false) by (eapply reset_alone; eauto).
    destruct (session_piece size EncRzcobs msg progs Hok d1 (run n) Lv C0 Se) as (Rs & _ & lost & x & rest & El & _).
    assert (C1 : finished (d_sys (run n))) by exact F.
    destruct (complete_in_the_end d1 (run n) [] (lost ++ x) chunks hs Hcalm Rs F) as (unseen & seen & missed & order & junk & A1 & A2 & A3 & A4 & A5 & A6 & A0 & A7 & A8); auto.
    { cbn [app]. rewrite <- El. now rewrite app_assoc. }
    destruct (A0 eq_refl) as [-> ->]. exists order. split; [exact A6|]. split; [exact A7|]. exact A8.
  Qed.
End Frames.

Section Shown.
  Context (X : externals) (Y : external) (addr : bytes -> Z) (tbl : table) (host_segs : list segment) (locs : option (list (Z * location)))
    (current_dir skipped : bytes).
  Context (size : Z) (msg : option (list task)) (progs : list (list task)) (items : nat -> list said).
  Context (Hok : programs_ok msg progs) (Ht : table_safe tbl) (Hk : t_encoding tbl = EncRzcobs) (HX : external_ok Y) (HW : wide_enough Y).
  Context (Hitems : forall i ts, nth_error progs i = Some ts -> Forall2 (says addr tbl) (spoken msg ts) (items i)).
  Context (Hread : forall i x, In x (items i) -> readable X Y tbl x).

  Notation term := (terminal X Y tbl host_segs locs current_dir skipped).
  Notation spoken_as := (spoken_as addr tbl).

  (** The frames of a session and their lines. *)
  Definition shows (junk : list event) (order : list (nat * said)) : Prop :=
    forall jt times o0, length jt = length junk -> length times = length order -> term (combine jt junk) = Ok o0 ->
      exists o, term (combine (jt ++ times) (junk ++ map EvFrame (map (fun o : nat * said => sd_frame (snd o)) order))) = Ok (o0 ++ o) /\ stderr_of o = [] /\
        stdout_of o = as_lines (map (fun o : nat * said => line_for tbl (snd o)) order).

  Lemma shows_lines : forall junk order, (forall i x, In (i, x) order -> readable X Y tbl x) -> (forall i x, In (i, x) order -> exists w, says addr tbl w x) -> shows junk order.
  Proof.
    intros junk order R W jt times o0 L1 L2 J. destruct (terminal_shows X Y addr tbl host_segs locs current_dir skipped HX HW order times R W L2) as (o & E1 & E2 & E3).
    exists o. split; auto. rewrite combine_app by auto. unfold terminal in *. eapply print_app; eauto.
  Qed.

  (** At any moment of a session. *)
  Theorem session_shown : forall d1 d chunks s, lives size EncRzcobs msg progs d1 -> RttModel.r_connected (d_chan d1) = false ->
    session size EncRzcobs msg (attach d1) d -> concat chunks = RttModel.r_delivered (d_chan d) -> s <> Stdin \/ Forall some_bytes chunks ->
    exists open hist unseen seen later order junk buf, hist = unseen ++ seen ++ later /\
      out (d_sys d) = sent open (map snd hist) /\
      (forall i ts, nth_error progs i = Some ts -> exists more, attempts msg ts = complete (by_ctx i hist) ++ more) /\
      begun_within (length (out (d_sys d1)) - length (RttModel.data (RttModel.r_ops (d_chan d1)))) unseen /\
      Forall2 spoken_as (filter told seen) order /\ (length junk <= 1)%nat /\
      defmt_print false false s (Loads tbl) (HostSpec.reads chunks) =
        (map (Event tbl) (junk ++ map EvFrame (map (fun o : nat * said => sd_frame (snd o)) order)), Running tbl buf) /\
      shows junk order.
  Proof. exact (session_frames addr tbl size msg progs items Hok Ht Hk Hitems false (readable X Y tbl) shows Hread shows_lines). Qed.

  (** From the log statements to the lines, for a host that attaches late. *)
  Theorem late_terminal : forall run who d1, Forall calm progs -> 2 <= size -> lives size EncRzcobs msg progs d1 -> RttModel.r_connected (d_chan d1) = false ->
    run O = attach d1 -> session_fair size EncRzcobs msg run who ->
    exists n, forall chunks hs, concat chunks = RttModel.r_delivered (d_chan (run n)) -> Forall some_bytes chunks ->
      exists unseen seen missed order junk,
        out (d_sys (run n)) = transmitted EncRzcobs (map snd (unseen ++ seen)) /\
        begun_within (length (out (d_sys d1)) - length (RttModel.data (RttModel.r_ops (d_chan d1)))) unseen /\
        Forall2 spoken_as (filter told unseen) missed /\ Forall2 spoken_as (filter told seen) order /\ (length junk <= 1)%nat /\
        (forall i, (i < length progs)%nat -> items i = of_context i missed ++ of_context i order) /\
        defmt_print false false Stdin (Loads tbl) (HostSpec.reads chunks ++ Read (Ok []) :: hs) =
          (map (Event tbl) (junk ++ map EvFrame (map (fun o : nat * said => sd_frame (snd o)) order)), Finished true) /\
        shows junk order.
  Proof. exact (late_frames addr tbl size msg progs items Hok Ht Hk Hitems false (readable X Y tbl) shows Hread shows_lines). Qed.

  (** Nothing is missing when all that was logged before fits into the buffer. *)
  Theorem early_terminal : forall run who d0 d1, Forall calm progs -> 2 <= size -> reset size progs d0 -> session size EncRzcobs msg d0 d1 ->
    Z.of_nat (length (out (d_sys d1))) < size -> run O = attach d1 -> session_fair size EncRzcobs msg run who ->
    exists n, forall chunks hs, concat chunks = RttModel.r_delivered (d_chan (run n)) -> Forall some_bytes chunks ->
      exists order, (forall i, (i < length progs)%nat -> items i = of_context i order) /\
        defmt_print false false Stdin (Loads tbl) (HostSpec.reads chunks ++ Read (Ok []) :: hs) =
          (map (Event tbl) (map EvFrame (map (fun o : nat * said => sd_frame (snd o)) order)), Finished true) /\
        forall times, length times = length order ->
          exists o, term (combine times (map EvFrame (map (fun o : nat * said => sd_frame (snd o)) order))) = Ok o /\ stderr_of o = [] /\
            stdout_of o = as_lines (map (fun o : nat * said => line_for tbl (snd o)) order).
  Proof.
    intros run who d0 d1 Hcalm Hs Rst S1 Sm E0 Hf.
    destruct (early_frames addr tbl size msg progs items Hok Ht Hk Hitems false (readable X Y tbl) shows Hread shows_lines run who d0 d1 Hcalm Hs Rst S1 Sm E0 Hf) as (n & N). exists n. intros chunks hs C Hb.
    destruct (N chunks hs C Hb) as (order & A1 & A2 & A8). exists order. split; [exact A1|]. split; [exact A2|].
    intros times L. destruct (A8 [] times [] eq_refl L) as (o & B1 & B2 & B3); [reflexivity|]. cbn [app] in B1. eauto.
  Qed.
End Shown.
