(** From a panic to the last line of the terminal. *)
From Verif Require Import Base Utf8 ParserModel DecoderModel DecoderProofs DecoderPanic EncodeModel EncodeSpec EncodeProofs EncodeTop DisplayModel TextSpec RzcobsModel StreamModel StreamSpec StreamProofs
  LogFormatModel LogFormatSpec LogFormatBuiltin SymbolModel LocationModel SinkModel SinkSpec SinkProofs SinkMain HostModel HostSpec HostProofs
  LoggerModel LoggerSpec LoggerProofs LoggerMain DeviceModel DeviceSpec DeviceProofs DeviceLive DeviceMain HaltModel HaltProofs HaltLive.
From Verif Require RttModel RttProofs.

(** What defmt-print makes of whole frames of which each context has made its first ones. *)
Lemma history_shown : forall addr tbl k msg progs items, table_safe tbl -> t_encoding tbl = k ->
  (forall i ts, nth_error progs i = Some ts -> Forall2 (says addr tbl) (spoken msg ts) (items i)) ->
  forall json hist chunks hs, (forall i w, In (i, w) hist -> (i < length progs)%nat) ->
  (forall i ts, nth_error progs i = Some ts -> exists more, attempts msg ts = complete (by_ctx i hist) ++ more) ->
  concat chunks = transmitted k (map snd hist) -> Forall some_bytes chunks ->
  exists order, Forall2 (fun h o => fst h = fst o /\ says addr tbl (snd h) (snd o)) (filter (fun h => not_empty (snd h)) hist) order /\
    (forall i x, In (i, x) order -> (i < length progs)%nat) /\
    (forall i, (i < length progs)%nat -> exists more, items i = of_context i order ++ more) /\
    (forall i ts, nth_error progs i = Some ts -> attempts msg ts = complete (by_ctx i hist) -> items i = of_context i order) /\
    defmt_print false json Stdin (Loads tbl) (HostSpec.reads chunks ++ Read (Ok []) :: hs) = (schema json ++ map (Event tbl) (frames_of order), Finished true).
Proof.
  intros addr tbl k msg progs items Ht Hk Hi json hist chunks hs Hb Ha C Hs. set (hist' := filter (fun h => not_empty (snd h)) hist).
  assert (Hb' : forall i w, In (i, w) hist' -> (i < length progs)%nat) by (intros i w H; apply filter_In in H as [H _]; eauto).
  assert (Sp : forall i ts more, attempts msg ts = complete (by_ctx i hist) ++ more -> spoken msg ts = by_ctx i hist' ++ filter not_empty (map fst (filter snd more))).
  { intros i ts more E. unfold spoken. rewrite E, filter_app, map_app, filter_app, complete_fst. unfold hist'. now rewrite by_ctx_filter. }
  destruct (order_of addr tbl hist' items (length progs) Hb') as (order & O1 & O2).
  { intros i L. destruct (nth_error progs i) as [ts|] eqn:E; [|apply nth_error_None in E; lia]. destruct (Ha i ts E) as (more & A).
    pose proof (Hi i ts E) as F. rewrite (Sp i ts more A) in F. apply Forall2_app_inv_l in F as (l1 & l2 & G1 & _ & ->). eauto. }
  exists order. split; [exact O1|]. split; [exact (order_inside addr tbl (length progs) hist' order Hb' O1)|]. split; [|split].
  - intros i L. destruct (O2 i L) as (more & E & _). eauto.
  - intros i ts N A. assert (L : (i < length progs)%nat) by (apply nth_error_Some; congruence). destruct (O2 i L) as (more & E & Le).
    pose proof (Hi i ts N) as F. rewrite (Sp i ts [] ltac:(now rewrite app_nil_r)) in F. cbn [filter map] in F. rewrite app_nil_r in F.
    assert (La : length (by_ctx i hist') = length (items i)) by (clear - F; induction F; cbn; auto). rewrite E, app_length in La.
    destruct more; [now rewrite app_nil_r in E|]. cbn [length] in La. lia.
  - assert (Hr : exists rest, host_run k tbl [] [concat chunks] = (frames_of order, Waiting rest)).
    { destruct k eqn:K.
      - exists []. apply (C09_lemma tbl (map (@concat Z) (map snd hist')) _ [] [concat chunks]); [exact (says_whole addr tbl _ _ O1)|apply decode_empty|].
        cbn [concat]. rewrite !app_nil_r, C. cbn [transmitted]. rewrite raw_transmitted. unfold hist'. now rewrite <- filter_map_snd.
      - pose proof (says_decodes addr tbl hist' order O1) as Dec. unfold hist' in Dec. rewrite <- filter_map_snd in Dec.
        apply (host_shows tbl (map snd hist) None (map (fun o : nat * said => sd_frame (snd o)) order) [concat chunks] Ht Dec). cbn [concat]. rewrite app_nil_r. congruence. }
    destruct Hr as (rest & Hr). rewrite stdin_run, Hk, Hr by auto. reflexivity.
Qed.

(** The frames at rest: that of the panic message is the last. *)
Lemma panic_frames : forall addr tbl size msg progs items k run who,
  programs_ok msg progs -> Forall brave progs -> (forall body, msg = Some body -> calm_body body) ->
  2 <= size -> table_safe tbl -> t_encoding tbl = k ->
  (forall i ts, nth_error progs i = Some ts -> Forall2 (says addr tbl) (spoken msg ts) (items i)) ->
  device_boot size progs (run O) -> core_fair size k msg run who -> single_core run who ->
  exists n, forall json chunks hs, concat chunks = RttModel.r_delivered (d_chan (run n)) -> Forall some_bytes chunks ->
    exists order, (forall i x, In (i, x) order -> (i < length progs)%nat) /\
      (forall i, (i < length progs)%nat -> exists more, items i = of_context i order ++ more) /\
      defmt_print false json Stdin (Loads tbl) (HostSpec.reads chunks ++ Read (Ok []) :: hs) = (schema json ++ map (Event tbl) (frames_of order), Finished true) /\
      (forall i x, In (i, x) order -> exists w, says addr tbl w x) /\
      (((forall t i, ~ panics_at run who t i) /\ forall i ts, nth_error progs i = Some ts -> panics ts = false /\ items i = of_context i order) \/
       exists t i, panics_at run who t i /\ next_op (d_sys (run n)) i = Some OHalt /\ items i = of_context i order /\
         match msg with
         | Some body => concat (fst (attempt body)) <> [] -> exists above x, order = above ++ [(i, x)] /\ says addr tbl (fst (attempt body)) x
         | None => True
         end).
Proof.
  intros addr tbl size msg progs items k run who Hok Hbr Hm Hs Ht Hk Hi Hb Hf Hc.
  destruct (comes_to_rest size k msg progs run who Hok Hbr Hm Hs Hb Hf Hc) as (n & _ & D & Cs). exists n. intros json chunks hs C Sb.
  assert (G : exists hist, out (d_sys (run n)) = transmitted k (map snd hist) /\ (forall j w, In (j, w) hist -> (j < length progs)%nat) /\
    (forall j tj, nth_error progs j = Some tj -> exists more, attempts msg tj = complete (by_ctx j hist) ++ more) /\
    ((panicked (d_sys (run n)) = false /\ finished (d_sys (run n)) /\ forall i ts, nth_error progs i = Some ts -> panics ts = false /\ attempts msg ts = complete (by_ctx i hist)) \/
     exists t i ts h, (t < n)%nat /\ panics_at run who t i /\ next_op (d_sys (run n)) i = Some OHalt /\ nth_error progs i = Some ts /\ attempts msg ts = complete (by_ctx i hist) /\
       hist = h ++ last_words msg i)).
  { destruct Cs as [(P & F & hist & Eo & Bd & At)|(t & i & ts & hist & L & Pt & Nh & Ni & _ & Eo & Bd & Ai & Aj)].
    - exists hist. split; [exact Eo|]. split; [exact Bd|]. split; [|left; auto]. intros j tj Nj. exists []. rewrite app_nil_r. apply At. exact Nj.
    - exists (hist ++ last_words msg i). split; [exact Eo|]. split.
      + intros j w H. apply in_app_or in H as [H|H]; [eauto|]. unfold last_words in H. destruct msg; [|contradiction]. destruct H as [H|[]]. injection H as <- _.
        apply nth_error_Some. congruence.
      + split; [exact Aj|]. right. exists t, i, ts, hist. auto 7. }
  destruct G as (hist & Eo & Bd & Aj & Cs'). rewrite D, Eo in C.
  destruct (history_shown addr tbl k msg progs items Ht Hk Hi json hist chunks hs Bd Aj C Sb) as (order & O1 & In1 & O2 & O3 & Run).
  exists order. split; [exact In1|]. split; [exact O2|]. split; [exact Run|]. split.
  - intros i x H. eapply order_says; eauto.
  - destruct Cs' as [(P & F & At)|(t & i & ts & h & L & Pt & Nh & Ni & Ai & ->)].
    + left. split.
      * intros t i (H1 & H2 & H3). destruct (Nat.lt_ge_cases t n) as [L|L].
        -- pose proof (stays_panicked size k msg run who Hf (S t) n L H2). congruence.
        -- assert (Q : forall m, (n <= m)%nat -> d_sys (run m) = d_sys (run n)).
           { intros m Lm. induction Lm as [|m Lm IH]; auto. destruct (sys_step size k msg run who Hf m) as [E|(j & _ & St)]; [congruence|]. exfalso. rewrite IH in St.
             unfold step in St. destruct (nth_error (ctxs (d_sys (run n))) j) as [c|] eqn:E; [|discriminate]. pose proof (F c (nth_error_In _ _ E)) as Z0. destruct c as [cd ls]. cbn [code] in Z0. subst cd. discriminate. }
           rewrite (Q (S t)) in H2 by lia. congruence.
      * intros i ts N. destruct (At i ts N) as (A1 & A2). split; auto. eapply O3; eauto.
    + right. exists t, i. split; auto. split; auto. split; [eapply O3; eauto|]. destruct msg as [body|]; [|exact Logic.I]. intros Ne.
      cbn [last_words] in O1. rewrite filter_app in O1. apply Forall2_app_inv_l in O1 as (above & l2 & _ & F2 & ->). cbn [filter snd] in F2.
      assert (NE : not_empty (fst (attempt body)) = true) by (unfold not_empty, non_empty; destruct (concat (fst (attempt body))); congruence). rewrite NE in F2.
      inversion F2 as [|a [j x] ? l2' [Fa Fs] Fr]; subst. inversion Fr; subst. cbn [fst snd] in *. subst j. eauto.
Qed.

(** The terminal at rest: the panic message is its last line, below everything else of its context. *)
Theorem panic_shown : forall X Y addr tbl host_segs locs current_dir skipped size msg progs items k run who,
  programs_ok msg progs -> Forall brave progs -> (forall body, msg = Some body -> calm_body body) ->
  2 <= size -> table_safe tbl -> t_encoding tbl = k -> external_ok Y -> wide_enough Y ->
  (forall i ts, nth_error progs i = Some ts -> Forall2 (says addr tbl) (spoken msg ts) (items i)) ->
  (forall i x, In x (items i) -> readable X Y tbl x) ->
  device_boot size progs (run O) -> core_fair size k msg run who -> single_core run who ->
  exists n, forall chunks hs, concat chunks = RttModel.r_delivered (d_chan (run n)) -> Forall some_bytes chunks ->
    exists order evs, (forall i x, In (i, x) order -> (i < length progs)%nat) /\
      (forall i, (i < length progs)%nat -> exists more, items i = of_context i order ++ more) /\
      defmt_print false false Stdin (Loads tbl) (HostSpec.reads chunks ++ Read (Ok []) :: hs) = (map (Event tbl) evs, Finished true) /\
      (forall times, length times = length order -> exists o, terminal X Y tbl host_segs locs current_dir skipped (combine times evs) = Ok o /\ stderr_of o = [] /\
        stdout_of o = as_lines (map (fun o => line_for tbl (snd o)) order)) /\
      (((forall t i, ~ panics_at run who t i) /\ forall i ts, nth_error progs i = Some ts -> panics ts = false /\ items i = of_context i order) \/
       exists t i, panics_at run who t i /\ next_op (d_sys (run n)) i = Some OHalt /\ items i = of_context i order /\
         match msg with
         | Some body => concat (fst (attempt body)) <> [] -> exists above x, order = above ++ [(i, x)] /\ says addr tbl (fst (attempt body)) x
         | None => True
         end).
Proof.
  intros X Y addr tbl host_segs locs current_dir skipped size msg progs items k run who Hok Hbr Hm Hs Ht Hk HX HW Hi Hr Hb Hf Hc.
  destruct (panic_frames addr tbl size msg progs items k run who Hok Hbr Hm Hs Ht Hk Hi Hb Hf Hc) as (n & N). exists n. intros chunks hs C Sb.
  destruct (N false chunks hs C Sb) as (order & In1 & O2 & Run & Sy & Cs). exists order, (frames_of order). split; [exact In1|]. split; [exact O2|]. split; [exact Run|]. split; [|exact Cs].
  intros times L. eapply (terminal_shows X Y addr tbl host_segs locs current_dir skipped); eauto.
  intros i x H. apply (Hr i). destruct (O2 i (In1 i x H)) as (more & E). rewrite E. apply in_or_app. left. now apply in_of_context.
Qed.
