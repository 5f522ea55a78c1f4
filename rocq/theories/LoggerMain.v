(** Whole frames, delivery, mutual exclusion and termination (C31, C43). *)
From Verif Require Import Base RzcobsModel RzcobsProofs DecoderModel DecoderPanic StreamModel StreamSpec StreamProofs
  LoggerModel LoggerSpec LoggerProofs.

Definition reachable (lg : logger) (k : encoding) (msg : option (list task)) (progs : list (list task)) (s : sys) : Prop :=
  exists n, runs lg k msg n (boot lg progs) s.

Definition programs_ok (msg : option (list task)) (progs : list (list task)) : Prop :=
  Forall (nested false 0) progs /\ forall body, msg = Some body -> nested true 0 body.

Lemma inside_open : forall lg msg cl t c w cd ls todo, inside lg msg cl t c (Some w) cd ls todo ->
  t = true /\ exists w2 fl more, todo = (w ++ w2, fl) :: more.
Proof.
  intros lg msg cl t c w cd ls todo H. inversion H; subst; try discriminate.
  - injection H1 as ->. split; eauto.
  - injection H1 as ->. split; eauto.
  - injection H1 as ->. split; auto. exists [], true. rewrite app_nil_r. eauto.
  - injection H2 as ->. split; eauto.
Qed.

Lemma whole_frames : forall lg k msg progs s, programs_ok msg progs -> reachable lg k msg progs s ->
  exists hist open,
    out s = match open with None => transmitted k (map snd hist) | Some (_, w) => transmitted_part k (map snd hist) w end /\
    (forall i w, open = Some (i, w) -> owner s = Some i /\ taken s = true /\ (i < length progs)%nat) /\
    (forall i w, In (i, w) hist -> (i < length progs)%nat) /\
    forall i ts, nth_error progs i = Some ts -> exists more,
      attempts msg ts = complete (by_ctx i hist) ++ more /\
      forall w, open = Some (i, w) -> exists w2 fl more', more = (w ++ w2, fl) :: more'.
Proof.
  intros lg k msg progs s [N M] [n R]. destruct (inv_runs lg k msg false M progs n s N ltac:(discriminate) R) as (hist & cur & V).
  destruct cur as [w|].
  - destruct (owner s) as [i|] eqn:Ho; [|destruct (inv_idle _ _ _ _ _ _ _ _ V Ho); discriminate].
    pose proof (inv_owner _ _ _ _ _ _ _ _ V i Ho) as Li.
    assert (X : exists w2 fl more todo c, nth_error (ctxs s) i = Some c /\ todo = (w ++ w2, fl) :: more /\ ctx_log msg progs s hist i todo /\ taken s = true).
    { destruct (nth_error (ctxs s) i) as [c|] eqn:E; [|apply nth_error_None in E; lia].
      destruct (inv_ctx _ _ _ _ _ _ _ _ V i c E) as (todo & [(_ & In)|(Q & _)] & Lg); [|congruence].
      destruct (inside_open _ _ _ _ _ _ _ _ _ In) as (T & w2 & fl & more & ->). exists w2, fl, more, ((w ++ w2, fl) :: more), c. auto. }
    destruct X as (w2 & fl & more & todo & c & Ec & Et & Lg & T).
    exists hist, (Some (i, w)). split.
    { pose proof (inv_enc _ _ _ _ _ _ _ _ V) as E. cbn in E. rewrite transmitted_part_eq.
      destruct (k_frames k enc_new (map snd hist)) as [e o]. cbn [fst snd]. destruct (k_part k e w) as [e1 o1]. apply E. }
    split; [|split; [apply (inv_hist _ _ _ _ _ _ _ _ V)|]].
    { intros j w' Q. injection Q as <- <-. split; auto. split; auto. rewrite <- (inv_length _ _ _ _ _ _ _ _ V). exact Li. }
    intros j ts Hj. destruct (Nat.eq_dec i j) as [<-|Nj].
    + destruct Lg as (ts' & more' & L1 & L2 & _). assert (ts' = ts) by congruence. subst ts' todo. exists (((w ++ w2, fl) :: more) ++ more').
      split; [exact L2|]. intros w' Q. injection Q as <-. cbn [app]. eauto.
    + destruct (nth_error (ctxs s) j) as [cj|] eqn:Ej.
      2:{ apply nth_error_None in Ej. rewrite (inv_length _ _ _ _ _ _ _ _ V) in Ej. apply nth_error_None in Ej. congruence. }
      destruct (inv_ctx _ _ _ _ _ _ _ _ V j cj Ej) as (todoj & _ & (ts' & more' & L1 & L2 & _)). assert (ts' = ts) by congruence. subst ts'.
      exists (todoj ++ more'). split; [exact L2|]. intros w' Q. congruence.
  - exists hist, None. split.
    { pose proof (inv_enc _ _ _ _ _ _ _ _ V) as E. cbn in E. rewrite transmitted_eq. now rewrite <- E. }
    split; [discriminate|]. split; [apply (inv_hist _ _ _ _ _ _ _ _ V)|].
    intros j ts Hj. destruct (nth_error (ctxs s) j) as [cj|] eqn:Ej.
    2:{ apply nth_error_None in Ej. rewrite (inv_length _ _ _ _ _ _ _ _ V) in Ej. apply nth_error_None in Ej. congruence. }
    destruct (inv_ctx _ _ _ _ _ _ _ _ V j cj Ej) as (todoj & _ & (ts' & more' & L1 & L2 & _)). assert (ts' = ts) by congruence. subst ts'.
    exists (todoj ++ more'). split; [exact L2|]. discriminate.
Qed.

(* ------------------------------------------------------------------ *)
(** * What the host shows *)

Definition not_empty (f : list bytes) : bool := non_empty (concat f).

Lemma empty_frame : forall e f, idle e -> concat f = [] ->
  snd (frame_chunks e f) = (if started e then [] else [0]) ++ [0] /\ idle (fst (frame_chunks e f)) /\ started (fst (frame_chunks e f)) = true.
Proof.
  intros e f [Hr Hz] Hf. rewrite frame_chunks_concat, Hf. unfold frame_chunks, start_frame, idle. destruct e as [r z st]. cbn [run zeros started] in *. subst.
  destruct st; cbn; auto.
Qed.

Lemma frames_feed_any : forall fs e, idle e ->
  exists bodies, feed [] (snd (frames_chunks e fs)) = (bodies, []) /\
    Forall2 (fun f body => exists k, (k <= 6)%nat /\ rzcobs_decode body = Ok (concat f ++ repeat 0 k)) (filter not_empty fs) bodies.
Proof.
  induction fs as [|f fs IH]; intros e I; cbn [frames_chunks filter].
  - exists []. split; [reflexivity|constructor].
  - unfold not_empty at 1. destruct (concat f) as [|x r] eqn:Ef; cbn [non_empty].
    + destruct (empty_frame e f I Ef) as (A & I1 & _). destruct (frame_chunks e f) as [e1 o1]. cbn [fst snd] in *. specialize (IH e1 I1).
      destruct (frames_chunks e1 fs) as [e2 o2]. cbn [snd] in *. destruct IH as (bodies & F & G). exists bodies. split; auto.
      rewrite A.
      rewrite feed_zeros; auto. destruct (started e); repeat constructor.
    + assert (Hn : concat f <> []) by congruence.
      destruct (frame_spec e f I) as (body & k & A & B & C & D & E & _ & I1 & S1).
      destruct (frame_chunks e f) as [e1 o1]. cbn [fst snd] in *. specialize (IH e1 I1).
      destruct (frames_chunks e1 fs) as [e2 o2]. cbn [snd] in *. destruct IH as (bodies & F & G).
      exists (body :: bodies). split.
      * rewrite A. rewrite <- !app_assoc. rewrite feed_zeros by (destruct (started e); repeat constructor). rewrite feed_app.
        rewrite feed_nonzero; [|rewrite Forall_forall in D; intro X; apply (D 0 X); reflexivity].
        cbn [app feed]. change (0 =? 0) with true. cbn iota. rewrite F. destruct body; [exfalso; apply E; auto|]. reflexivity.
      * constructor; auto. exists k. auto.
Qed.

Lemma frames_events_any : forall t fs frs e, Forall2 (decodes t) (filter not_empty fs) frs -> idle e ->
  exists bodies, feed [] (snd (frames_chunks e fs)) = (bodies, []) /\ map (message_event t) bodies = map EvFrame frs.
Proof.
  intros t fs frs e H I. destruct (frames_feed_any fs e I) as (bodies & A & B). exists bodies. split; auto. clear - H B. revert frs H.
  induction B as [|f body fs' bodies (k & _ & K) B IH]; intros frs H; inversion H; subst; auto. cbn [map].
  rewrite (decodes_padded _ _ _ _ _ H2 K). f_equal. auto.
Qed.

Lemma part_feed : forall e w, idle e -> exists rest, feed [] (snd (start_frame e) ++ snd (writes (fst (start_frame e)) w)) = ([], rest).
Proof.
  intros e w [Hr Hz]. destruct (start_frame e) as [e0 o0] eqn:Es. cbn [fst snd].
  assert (H0 : run e0 = 0 /\ zeros e0 = 0 /\ o0 = if started e then [] else [0]).
  { unfold start_frame in Es. destruct (started e) eqn:S; inversion Es; subst; cbn; auto. }
  destruct H0 as (Hr0 & Hz0 & Ho0). rewrite writes_concat.
  pose proof (inv_write (concat w) e0 [] [] (inv_init e0 Hr0 Hz0)) as HI. destruct (write e0 (concat w)) as [e1 o1]. destruct HI as [HI _]. cbn [app snd] in *.
  destruct HI as [(m1 & cur & out1 & _ & Ho & _ & Hnz & _)]. exists o1.
  rewrite feed_zeros by (rewrite Ho0; destruct (started e); repeat constructor). rewrite feed_nonzero; auto.
  subst o1. intros X. apply in_app_or in X as [X|X]; [rewrite Forall_forall in Hnz; now apply (Hnz 0)|].
  pose proof (nz_nonzero cur) as Y. rewrite Forall_forall in Y. now apply (Y 0).
Qed.

(** The host shows the complete messages, in order, and waits. *)
Lemma host_shows : forall t done open frs chunks, table_safe t ->
  Forall2 (decodes t) (filter not_empty done) frs ->
  concat chunks = match open with None => transmitted EncRzcobs done | Some w => transmitted_part EncRzcobs done w end ->
  exists rest, host_run EncRzcobs t [] chunks = (map EvFrame frs, Waiting rest).
Proof.
  intros t done open frs chunks Ht H E. rewrite host_run_rz by auto. rewrite E.
  destruct (frames_events_any t done frs enc_new H idle_new) as (bodies & A & B).
  destruct open as [w|]; cbn [transmitted transmitted_part].
  - pose proof (frames_idle done enc_new idle_new) as I. destruct (frames_chunks enc_new done) as [e o]. cbn [fst snd] in *.
    destruct (part_feed e w I) as [rest P]. destruct (start_frame e) as [e0 o0]. cbn [fst snd] in P.
    rewrite feed_app, A, P. rewrite app_nil_r. cbn [fst snd]. rewrite B. eauto.
  - rewrite A. cbn [fst snd]. rewrite B. eauto.
Qed.

(* ------------------------------------------------------------------ *)
(** * Termination *)

Definition is_halt (o : op) : bool := match o with OHalt => true | _ => false end.
Definition weight (c : list op) : nat := length (filter (fun o => negb (is_halt o)) c).
Definition total (cs : list ctx) : nat := list_sum (map (fun c => weight (code c)) cs).
Definition reserve (lg : logger) (msg : option (list task)) (p : bool) : nat := if p then 0 else weight (comp lg (handler msg false)).

Lemma exec_same : forall k i o s ls s' ls', exec k i o s ls = Next s' ls' -> ctxs s' = ctxs s /\ panicked s' = panicked s /\ o <> OHalt.
Proof.
  intros k i o [w t c e b p cs] ls s' ls' H. destruct o; cbn [exec] in H; try discriminate;
    repeat match type of H with
    | context [match ?x with _ => _ end] => destruct x; try discriminate
    | context [let '(_, _) := ?x in _] => destruct x
    end; injection H as <- <-; cbn [ctxs panicked]; split; auto; split; auto; discriminate.
Qed.

Lemma exec_panics : forall k i o s ls, exec k i o s ls = Panics -> o <> OHalt.
Proof. intros k i o [w t c e b p cs] ls H. destruct o; cbn [exec] in H; discriminate. Qed.

Lemma total_upd : forall cs i c c', nth_error cs i = Some c -> (total (upd i c' cs) + weight (code c) = total cs + weight (code c'))%nat.
Proof.
  unfold total. induction cs as [|a cs IH]; intros [|i] c c' H; cbn in H; try discriminate; cbn [upd map list_sum fold_right].
  - injection H as <-. unfold list_sum. lia.
  - specialize (IH i c c' H). unfold list_sum in *. cbn [fold_right map]. lia.
Qed.

Lemma weight_cons : forall o c, o <> OHalt -> weight (o :: c) = S (weight c).
Proof. intros o c H. unfold weight. cbn [filter]. destruct o; try reflexivity. congruence. Qed.

Lemma step_total : forall lg k msg i s s', step lg k msg i s = Some s' ->
  (S (total (ctxs s') + reserve lg msg (panicked s')) <= total (ctxs s) + reserve lg msg (panicked s))%nat.
Proof.
  intros lg k msg i s s' E. unfold step in E. destruct (nth_error (ctxs s) i) as [[[|o rest] ls]|] eqn:Nc; try discriminate.
  destruct (exec k i o s ls) as [s1 ls1| |] eqn:X; try discriminate; injection E as <-; cbn [ctxs panicked set_ctx set_panicked].
  - apply exec_same in X as (-> & -> & H). pose proof (total_upd (ctxs s) i _ (MkCtx rest ls1) Nc) as T. cbn [code] in T. rewrite (weight_cons o rest H) in T. lia.
  - apply exec_panics in X. pose proof (total_upd (ctxs s) i _ (MkCtx (comp lg (handler msg (panicked s))) ls) Nc) as T. cbn [code] in T.
    rewrite (weight_cons o rest X) in T. unfold reserve. destruct (panicked s); [change (weight (comp lg (handler msg true))) with 0%nat in T|]; lia.
Qed.

Lemma runs_bounded : forall lg k msg n s s', runs lg k msg n s s' ->
  (n + total (ctxs s') + reserve lg msg (panicked s') <= total (ctxs s) + reserve lg msg (panicked s))%nat.
Proof. intros lg k msg n s s' R. induction R; [lia|]. apply step_total in H. lia. Qed.

Lemma weight_le : forall c, (weight c <= length c)%nat.
Proof. unfold weight. induction c as [|o c IH]; cbn [filter length]; auto. destruct (negb (is_halt o)); cbn [length]; lia. Qed.

Lemma total_boot : forall lg progs, (total (ctxs (boot lg progs)) <= list_sum (map (fun ts => length (comp lg ts)) progs))%nat.
Proof.
  intros lg progs. unfold total. cbn [boot ctxs]. rewrite map_map. cbn [code]. induction progs as [|ts progs IH]; cbn [map list_sum fold_right]; auto.
  unfold list_sum in *. cbn [fold_right]. assert (weight (comp lg ts) <= length (comp lg ts))%nat by apply weight_le. lia.
Qed.

(* ------------------------------------------------------------------ *)
(** * The rules of the [Logger] trait *)

Definition uses_logger (o : op) : bool :=
  match o with OTake | OSave | OStart | OWrite _ | OFlush | OEnd | OLoad | OFree | OCheckFree | OCheckTaken => true | _ => false end.
Definition inside_frame (o : op) : bool := match o with OWrite _ | OFlush | OEnd => true | _ => false end.

Lemma outside_head : forall lg msg cl o rest ls todo, outside lg msg cl (o :: rest) ls todo -> uses_logger o = false /\ o <> OLeave.
Proof.
  intros lg msg cl o rest ls todo (ts & Q & _ & N & _). inversion N; subst; cbn [comp flat_map comp_task app acquire_ops] in Q; try discriminate;
    injection Q as -> _; split; auto; discriminate.
Qed.

Lemma section_head : forall lg b ts o rest, nested false (S b) ts -> comp lg ts = o :: rest -> uses_logger o = false.
Proof.
  intros lg b ts o rest N Q. inversion N; subst; cbn [comp flat_map comp_task app acquire_ops] in Q; injection Q as <- _; auto.
Qed.

Lemma inside_head : forall lg msg cl t c cur o rest ls todo, inside lg msg cl t c cur (o :: rest) ls todo ->
  (inside_frame o = true -> t = true /\ exists w, cur = Some w) /\ (o = OCheckTaken -> t = true) /\ (o = OStart -> t = true /\ cur = None) /\
  (o = OCheckFree -> t = true -> cl = false /\ exists w, cur = Some w).
Proof.
  intros lg msg cl t c cur o rest ls todo H. remember (o :: rest) as cd eqn:Q. destruct H.
  - pose proof (section_head _ _ _ _ _ H1 Q) as U. split; [intros X; destruct o; discriminate|]. split; [intros ->; discriminate|]. split; [intros ->; discriminate|]. intros ->; discriminate.
  - injection Q as <- _. split; [discriminate|]. split; [discriminate|]. split; [discriminate|]. congruence.
  - injection Q as <- _. split; [discriminate|]. split; [discriminate|]. split; discriminate.
  - injection Q as <- _. split; [discriminate|]. split; [discriminate|]. split; discriminate.
  - injection Q as <- _. split; [discriminate|]. split; [discriminate|]. split; [auto|discriminate].
  - split; [eauto|]. split; [auto|].
    assert (O : o <> OStart /\ o <> OCheckFree).
    { inversion H2; subst; cbn [comp flat_map comp_task app acquire_ops] in Q; try (injection Q as <- _; split; discriminate).
      - destruct lg; injection Q as <- _; split; discriminate.
      - destruct lg; injection Q as <- _; split; discriminate. }
    destruct O as [O1 O2]. split; [intros X; contradiction|intros X; contradiction].
  - injection Q as <- _. split; [eauto|]. split; [discriminate|]. split; discriminate.
  - injection Q as <- _. split; [eauto|]. split; [discriminate|]. split; discriminate.
  - destruct H0 as [<-|[<-|[<-|[<-|[<-|[]]]]]]; injection Q as <- _; (split; [discriminate|]; split; [discriminate|]; split; discriminate).
  - subst cd. destruct o; cbn [doomed_code] in H2; try contradiction; (split; [discriminate|]; split; [discriminate|]; split; [discriminate|]; eauto).
Qed.

Lemma contract : forall lg k msg progs s i o, programs_ok msg progs -> reachable lg k msg progs s -> next_op s i = Some o ->
  (uses_logger o = true -> owner s = Some i) /\
  (inside_frame o = true -> taken s = true) /\ (o = OCheckTaken -> taken s = true).
Proof.
  intros lg k msg progs s i o [N M] [n R] Q. destruct (inv_runs lg k msg false M progs n s N ltac:(discriminate) R) as (hist & cur & V).
  unfold next_op in Q. destruct (nth_error (ctxs s) i) as [[[|o' rest] ls]|] eqn:E; try discriminate. injection Q as ->.
  destruct (inv_ctx _ _ _ _ _ _ _ _ V i _ E) as (todo & [(Ho & In)|(Ho & Out)] & _); cbn [code locals] in *.
  - apply inside_head in In as (A & B & _). split; auto. split; auto. intros X. apply A in X. tauto.
  - apply outside_head in Out as [A _]. split; [congruence|]. split; [intros X; destruct o; discriminate|intros ->; discriminate].
Qed.

(** A log statement inside a log statement: nothing is transmitted any more. *)
Definition stuck (lg : logger) (msg : option (list task)) (i : nat) (s : sys) : Prop :=
  owner s = Some i /\ taken s = true /\ (exists c, nth_error (ctxs s) i = Some c /\ doomed_code (code c)) /\
  forall j c, j <> i -> nth_error (ctxs s) j = Some c -> exists todo, outside lg msg false (code c) (locals c) todo.

Lemma stuck_step : forall lg k msg i s j s', (forall body, msg = Some body -> nested true 0 body) ->
  stuck lg msg i s -> step lg k msg j s = Some s' -> stuck lg msg i s' /\ out s' = out s.
Proof.
  intros lg k msg i s j s' M (Ho & Ht & (c & Ec & Dc) & Oth) E. unfold step in E. destruct (nth_error (ctxs s) j) as [[[|o rest] ls]|] eqn:Nc; try discriminate.
  destruct (Nat.eq_dec j i) as [->|Nj].
  - rewrite Ec in Nc. injection Nc as ->. cbn [code] in Dc. destruct s as [w t cc e b p cs]. cbn [owner taken ctxs panicked] in *. subst w t.
    assert (G : forall cd ls' p', doomed_code cd -> stuck lg msg i (MkSys (Some i) true cc e b p' (upd i (MkCtx cd ls') cs))).
    { intros cd ls' p' H. split; [reflexivity|]. split; [reflexivity|]. split; [eexists; split; [apply (upd_same _ _ _ _ _ Ec)|exact H]|].
      cbn [ctxs]. intros l cl Hl. rewrite upd_other by auto. apply Oth; auto. }
    destruct o; cbn [doomed_code] in Dc; try contradiction; cbn [exec] in E.
    + rewrite Nat.eqb_refl in E. injection E as <-. destruct rest as [|[] rest]; try contradiction. split; [apply G; exact Logic.I|reflexivity].
    + injection E as <-. split; [apply G; apply doomed_handler; exact M|reflexivity].
    + discriminate.
  - destruct (Oth j _ Nj Nc) as (todo & Out). cbn [code locals] in Out.
    pose proof (outside_step lg k msg false M j s o rest ls todo Out) as X. specialize (X ltac:(congruence)).
    assert (G : forall cd ls' p', (exists todo', outside lg msg false cd ls' todo') ->
      stuck lg msg i (MkSys (owner s) (taken s) (cell s) (enc s) (out s) p' (upd j (MkCtx cd ls') (ctxs s)))).
    { intros cd ls' p' H. split; [exact Ho|]. split; [exact Ht|]. cbn [ctxs]. split; [exists c; rewrite upd_other by auto; auto|].
      intros l c' Hl. destruct (Nat.eq_dec j l) as [<-|Njl].
      - rewrite (upd_same _ _ _ _ _ Nc). intros Q. injection Q as <-. exact H.
      - rewrite upd_other by auto. apply Oth; auto. }
    destruct X as [(_ & _ & X)|[(X & _)|[(X & Out')|[(Ow & _)|(X & _ & more & todo' & _ & _ & Out')]]]]; try rewrite X in E; try discriminate; [| congruence |].
    + injection E as <-. split; [apply G; eauto|reflexivity].
    + injection E as <-. split; [apply G; eauto|reflexivity].
Qed.

Lemma reentrant : forall lg k msg progs s i, programs_ok msg progs -> reachable lg k msg progs s -> next_op s i = Some OCheckFree -> taken s = true ->
  owner s = Some i /\ (exists s', step lg k msg i s = Some s' /\ panicked s' = true) /\
  forall n s', runs lg k msg n s s' -> out s' = out s.
Proof.
  intros lg k msg progs s i [N M] [n0 R] Q T. destruct (inv_runs lg k msg false M progs n0 s N ltac:(discriminate) R) as (hist & cur & V).
  unfold next_op in Q. destruct (nth_error (ctxs s) i) as [[[|o' rest] ls]|] eqn:E; try discriminate. injection Q as ->.
  destruct (inv_ctx _ _ _ _ _ _ _ _ V i _ E) as (todo & [(Ho & In)|(Ho & Out)] & _); cbn [code locals] in *.
  2:{ apply outside_head in Out as [A _]. discriminate. }
  split; auto. split.
  - unfold step. rewrite E. destruct s as [w t c e b p cs]. cbn [taken owner] in *. subst. cbn [exec]. eexists. split; reflexivity.
  - assert (St : stuck lg msg i s).
    { split; auto. split; auto. split; [exists (MkCtx (OCheckFree :: rest) ls); split; [exact E|exact Logic.I]|]. intros j c Nj Ej.
      destruct (inv_ctx _ _ _ _ _ _ _ _ V j _ Ej) as (todoj & [(Hj & _)|(_ & Out)] & _); [congruence|eauto]. }
    assert (G : forall n s1 s2, runs lg k msg n s1 s2 -> stuck lg msg i s1 -> stuck lg msg i s2 /\ out s2 = out s1).
    { intros n s1 s2 R'. induction R'; intros S1; auto. destruct (IHR' S1) as [S2 O2]. destruct (stuck_step _ _ _ _ _ _ _ M S2 H) as [S3 O3]. split; auto. congruence. }
    intros n s' R'. now apply (G n s s').
Qed.

(* ------------------------------------------------------------------ *)
(** * Programs that do not misuse the logger *)

(** The messages such a program sends. *)
Definition written (body : list task) : list bytes := flat_map (fun t => match t with TWrite b => [b] | _ => [] end) body.
Definition messages (ts : list task) : list (list bytes) := flat_map (fun t => match t with TLog body => [written body] | _ => [] end) ts.

Lemma attempt_calm : forall body, calm_body body -> attempt body = (written body, true).
Proof.
  induction body as [|t r IH]; intros H; auto. inversion H; subst. destruct t; try contradiction; cbn [attempt written flat_map app]; rewrite (IH H3); reflexivity.
Qed.

Lemma attempts_calm : forall msg ts, calm ts -> attempts msg ts = complete (messages ts).
Proof.
  intros msg. induction ts as [|t r IH]; intros H; auto. inversion H; subst.
  destruct t; try contradiction; cbn [attempts messages flat_map app]; auto.
  rewrite (attempt_calm _ H2). cbn [snd]. rewrite (IH H3). reflexivity.
Qed.

Lemma complete_inj : forall a b, complete a = complete b -> a = b.
Proof. induction a as [|x a IH]; intros [|y b] H; try discriminate; auto. cbn in H. injection H as -> H. f_equal. auto. Qed.

Lemma comp_nil_nested : forall lg i d ts, nested i d ts -> comp lg ts = [] -> ts = [] /\ d = 0%nat.
Proof.
  intros lg i d ts N Q. inversion N; subst; cbn [comp flat_map comp_task app acquire_ops] in Q; try discriminate; auto.
  exfalso. destruct lg; discriminate.
Qed.

Lemma inside_not_nil : forall lg msg cl t c cur cd ls todo, inside lg msg cl t c cur cd ls todo -> cd <> [].
Proof.
  intros lg msg cl t c cur cd ls todo H. destruct H; try discriminate.
  - intros Q. apply comp_nil_nested with (1 := H1) in Q. lia.
  - intros Q. apply app_eq_nil in Q as [_ Q]. apply app_eq_nil in Q as [Q _]. destruct lg; discriminate.
  - intros Q. apply app_eq_nil in Q as [Q _]. destruct H0 as [<-|[<-|[<-|[<-|[<-|[]]]]]]; discriminate.
  - intros ->. exact H2.
Qed.

Definition finished (s : sys) : Prop := forall c, In c (ctxs s) -> code c = [].

Section Calm.
  Context (lg : logger) (k : encoding) (msg : option (list task)) (progs : list (list task)).
  Context (Hok : programs_ok msg progs) (Hcalm : Forall calm progs).

  Lemma calm_inv : forall s, reachable lg k msg progs s -> exists hist cur, inv lg k msg true progs s hist cur.
  Proof. intros s [n R]. destruct Hok as [N M]. exact (inv_runs lg k msg true M progs n s N (fun _ => Hcalm) R). Qed.

  Lemma calm_progress : forall s, reachable lg k msg progs s -> finished s \/ exists i s', step lg k msg i s = Some s'.
  Proof.
    intros s R. destruct (calm_inv s R) as (hist & cur & V). destruct Hok as [_ M].
    destruct (owner s) as [i|] eqn:Ho.
    - right. exists i. pose proof (inv_owner _ _ _ _ _ _ _ _ V i Ho) as Li.
      destruct (nth_error (ctxs s) i) as [[cd ls]|] eqn:E; [|apply nth_error_None in E; lia].
      destruct (inv_ctx _ _ _ _ _ _ _ _ V i _ E) as (todo & [(_ & In)|(Q & _)] & _); [|congruence]. cbn [code locals] in In.
      pose proof (inside_not_nil _ _ _ _ _ _ _ _ _ In) as Nn. destruct cd as [|o rest]; [congruence|].
      destruct (inside_step lg k msg true M i s cur hist o rest ls todo In Ho (inv_enc _ _ _ _ _ _ _ _ V)) as [G|[(_ & _ & X)|(_ & X & _)]]; try discriminate.
      unfold step. rewrite E. destruct (exec k i o s ls); try contradiction. eauto.
    - destruct (existsb (fun c => match code c with [] => false | _ => true end) (ctxs s)) eqn:X.
      + right. apply existsb_exists in X as ([[|o rest] ls] & Hin & X); [discriminate|]. apply In_nth_error in Hin as [i E]. exists i.
        destruct (inv_ctx _ _ _ _ _ _ _ _ V i _ E) as (todo & [(Q & _)|(Q & Out)] & _); [congruence|]. cbn [code locals] in Out.
        unfold step. rewrite E.
        destruct (outside_step lg k msg true M i s o rest ls todo Out Q) as [(Y & _)|[(_ & _ & Y)|[(Y & _)|[(_ & b & p & cs & c & t & e & _ & Y & _)|(_ & Y & _)]]]];
          try discriminate; try congruence; rewrite Y; eauto.
      + left. intros c Hc. destruct (code c) eqn:Q; auto. exfalso. assert (T : existsb (fun c => match code c with [] => false | _ => true end) (ctxs s) = true).
        { apply existsb_exists. exists c. rewrite Q. auto. } congruence.
  Qed.

  Lemma calm_quiet : forall s, reachable lg k msg progs s -> panicked s = false /\
    forall i s', step lg k msg i s = Some s' -> panicked s' = false.
  Proof.
    intros s R. destruct (calm_inv s R) as (hist & cur & V). split; [apply (inv_calm _ _ _ _ _ _ _ _ V eq_refl)|].
    intros i s' E. assert (R' : reachable lg k msg progs s') by (destruct R as [n R]; exists (S n); eapply Run_step; eauto).
    destruct (calm_inv s' R') as (hist' & cur' & V'). apply (inv_calm _ _ _ _ _ _ _ _ V' eq_refl).
  Qed.

  Lemma calm_delivered : forall s, reachable lg k msg progs s -> finished s ->
    owner s = None /\ taken s = false /\ panicked s = false /\
    exists hist, out s = transmitted k (map snd hist) /\ (forall i w, In (i, w) hist -> (i < length progs)%nat) /\
      forall i ts, nth_error progs i = Some ts -> by_ctx i hist = messages ts.
  Proof.
    intros s R F. destruct (calm_inv s R) as (hist & cur & V).
    assert (Ho : owner s = None).
    { destruct (owner s) as [i|] eqn:Ho; auto. exfalso. pose proof (inv_owner _ _ _ _ _ _ _ _ V i Ho) as Li.
      destruct (nth_error (ctxs s) i) as [[cd ls]|] eqn:E; [|apply nth_error_None in E; lia].
      destruct (inv_ctx _ _ _ _ _ _ _ _ V i _ E) as (todo & [(_ & In)|(Q & _)] & _); [|congruence]. cbn [code locals] in In.
      apply inside_not_nil in In. apply nth_error_In in E. specialize (F _ E). cbn [code] in F. congruence. }
    destruct (inv_idle _ _ _ _ _ _ _ _ V Ho) as [Ht ->]. pose proof (inv_calm _ _ _ _ _ _ _ _ V eq_refl) as Hp.
    split; auto. split; auto. split; auto. exists hist. split.
    { pose proof (inv_enc _ _ _ _ _ _ _ _ V) as E. cbn in E. rewrite transmitted_eq. now rewrite <- E. }
    split; [apply (inv_hist _ _ _ _ _ _ _ _ V)|].
    intros i ts Hi. destruct (nth_error (ctxs s) i) as [c|] eqn:Ei.
    2:{ apply nth_error_None in Ei. rewrite (inv_length _ _ _ _ _ _ _ _ V) in Ei. apply nth_error_None in Ei. congruence. }
    destruct (inv_ctx _ _ _ _ _ _ _ _ V i c Ei) as (todo & [(Q & _)|(_ & (ts' & Q & _ & N & _ & ->))] & (ts'' & more & L1 & L2 & L3)); [congruence|].
    assert (ts'' = ts) by congruence. subst ts''. rewrite (F c (nth_error_In _ _ Ei)) in Q. symmetry in Q.
    destruct (comp_nil_nested _ _ _ _ N Q) as [-> _]. destruct L3 as [->|L3]; [|congruence]. cbn [attempts app] in L2. rewrite app_nil_r in L2.
    rewrite attempts_calm in L2; [|rewrite Forall_forall in Hcalm; apply Hcalm, (nth_error_In _ _ Hi)]. now apply complete_inj in L2.
  Qed.

  Lemma open_comp_body : forall body d e r, nested true d body -> calm_body body -> (d <= e)%nat ->
    open_sections e (comp lg body ++ r) = open_sections (e - d) r.
  Proof.
    induction body as [|t body IH]; intros d e r N C L; inversion N; subst; inversion C; subst; try contradiction; cbn [comp flat_map comp_task app] in *.
    - f_equal. lia.
    - unfold comp in IH. destruct lg; cbn [write_ops app open_sections]; apply IH; auto.
    - unfold comp in IH. cbn [open_sections]. now apply IH.
    - unfold comp in IH. cbn [open_sections]. rewrite (IH (S d)); auto; lia.
    - unfold comp in IH. destruct e as [|e]; [lia|]. cbn [open_sections]. rewrite (IH d0); auto; lia.
    - unfold comp in IH. cbn [open_sections]. now apply IH.
  Qed.

  Lemma open_comp : forall ts d e r, nested false d ts -> calm ts -> (d <= e)%nat -> open_sections e (comp lg ts ++ r) = open_sections (e - d) r.
  Proof.
    induction ts as [|t ts IH]; intros d e r N C L; inversion N; subst; inversion C; subst; try contradiction; cbn [comp flat_map comp_task app] in *.
    - f_equal. lia.
    - unfold acquire_ops. rewrite <- !app_assoc. cbn [app open_sections]. fold (comp lg body). rewrite (open_comp_body body 0); auto; [|lia].
      replace (S e - 0)%nat with (S e) by lia. unfold comp in IH. destruct lg; cbn [release_ops app open_sections]; now apply IH.
    - unfold comp in IH. cbn [open_sections]. rewrite (IH (S d)); auto; lia.
    - unfold comp in IH. destruct e as [|e]; [lia|]. cbn [open_sections]. rewrite (IH d0); auto; lia.
    - unfold comp in IH. cbn [open_sections]. now apply IH.
  Qed.

  Lemma calm_sections : forall s i c, reachable lg k msg progs s -> nth_error (ctxs s) i = Some c -> (0 < open_sections 0 (code c))%nat -> owner s = Some i.
  Proof.
    intros s i c R E P. destruct (calm_inv s R) as (hist & cur & V). destruct (inv_ctx _ _ _ _ _ _ _ _ V i c E) as (todo & [(Ho & _)|(_ & (ts & Q & _ & N & C & _))] & _); auto.
    exfalso. rewrite Q in P. pose proof (open_comp ts 0 0 [] N (C eq_refl) (le_n _)) as X. rewrite app_nil_r in X. rewrite X in P. cbn in P. lia.
  Qed.
End Calm.

(** A log statement takes and frees the logger once, between entering and leaving one section. *)
Definition taken_by (c : list op) : nat := length (filter (fun o => match o with OTake => true | _ => false end) c).
Definition freed_by (c : list op) : nat := length (filter (fun o => match o with OFree => true | _ => false end) c).
Definition ended_by (c : list op) : nat := length (filter (fun o => match o with OEnd => true | _ => false end) c).

Lemma count_calm : forall lg (f : op -> bool) body, f OEnter = false -> f OLeave = false -> f OWork = false -> f OFlush = false -> f OCheckTaken = false ->
  (forall b, f (OWrite b) = false) -> calm_body body -> filter f (comp lg body) = [].
Proof.
  intros lg f body F1 F2 F3 F4 F5 F6. induction body as [|t r IH]; intros C; auto. inversion C; subst. destruct t; try contradiction; cbn [comp flat_map comp_task app filter].
  - destruct lg; cbn [write_ops app filter]; rewrite ?F5, F6; auto.
  - rewrite F4. auto.
  - rewrite F1. auto.
  - rewrite F2. auto.
  - rewrite F3. auto.
Qed.

Lemma once : forall lg body, calm_body body ->
  taken_by (comp lg [TLog body]) = 1%nat /\ freed_by (comp lg [TLog body]) = 1%nat /\ ended_by (comp lg [TLog body]) = 1%nat.
Proof.
  intros lg body C. unfold taken_by, freed_by, ended_by. cbn [comp flat_map comp_task]. rewrite app_nil_r. rewrite !filter_app. fold (comp lg body).
  rewrite !count_calm by auto. destruct lg; repeat split.
Qed.

(** A panic while the panic handler has been entered before stops the context at once. *)
Lemma second_panic : forall lg k msg s i o rest ls, nth_error (ctxs s) i = Some (MkCtx (o :: rest) ls) -> exec k i o s ls = Panics -> panicked s = true ->
  exists s', step lg k msg i s = Some s' /\ nth_error (ctxs s') i = Some (MkCtx [OHalt] ls) /\ out s' = out s.
Proof.
  intros lg k msg s i o rest ls E X P. unfold step. rewrite E, X, P. eexists. split; [reflexivity|]. cbn. split; [apply (upd_same _ _ _ _ _ E)|reflexivity].
Qed.

Lemma step_panicked : forall lg k msg i s s', step lg k msg i s = Some s' -> panicked s = true -> panicked s' = true.
Proof.
  intros lg k msg i s s' E P. unfold step in E. destruct (nth_error (ctxs s) i) as [[[|o rest] ls]|]; try discriminate.
  destruct (exec k i o s ls) eqn:X; try discriminate; injection E as <-; cbn; auto. apply exec_same in X as (_ & X & _). congruence.
Qed.

Lemma runs_panicked : forall lg k msg n s s', runs lg k msg n s s' -> panicked s = true -> panicked s' = true.
Proof. intros lg k msg n s s' R. induction R; auto. intros P. eapply step_panicked; eauto. Qed.

Lemma runs_short : forall lg k msg progs n s, runs lg k msg n (boot lg progs) s ->
  (n <= list_sum (map (fun ts => length (comp lg ts)) progs) + match msg with Some body => length (comp lg [TLog body]) | None => 0 end)%nat.
Proof.
  intros lg k msg progs n s R. apply runs_bounded in R. pose proof (total_boot lg progs) as T.
  assert (W : (reserve lg msg (panicked (boot lg progs)) <= match msg with Some body => length (comp lg [TLog body]) | None => 0 end)%nat).
  { unfold reserve. cbn [boot panicked handler]. destruct msg as [body|]; [|cbn; lia].
    change (comp lg [TLog body; THalt]) with (comp_task lg (TLog body) ++ [OHalt]). change (comp lg [TLog body]) with (comp_task lg (TLog body) ++ []).
    rewrite app_nil_r. unfold weight. rewrite filter_app. cbn [filter negb is_halt]. rewrite app_nil_r. apply weight_le. }
  lia.
Qed.
