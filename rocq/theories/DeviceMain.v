(** From all contexts of the device to the terminal of the host. *)
From Verif Require Import Base Utf8 ParserModel DecoderModel DecoderProofs DecoderPanic EncodeModel EncodeSpec EncodeProofs EncodeTop DisplayModel TextSpec RzcobsModel StreamModel StreamSpec StreamProofs
  LogFormatModel LogFormatSpec LogFormatBuiltin SymbolModel LocationModel SinkModel SinkSpec SinkProofs SinkMain HostModel HostSpec HostProofs
  LoggerModel LoggerSpec LoggerProofs LoggerMain DeviceModel DeviceSpec DeviceProofs DeviceLive.
From Verif Require RttModel RttProofs.

(* ------------------------------------------------------------------ *)
(** * An order of the statements of all contexts *)

Section Order.
  Context (addr : bytes -> Z) (tbl : table).

  Lemma by_ctx_cons : forall i j w h, by_ctx i ((j, w) :: h) = (if Nat.eqb j i then [w] else []) ++ by_ctx i h.
  Proof. intros i j w h. unfold by_ctx. cbn [filter fst]. destruct (Nat.eqb j i); reflexivity. Qed.
  Lemma of_context_cons : forall i j x o, of_context i ((j, x) :: o) = (if Nat.eqb j i then [x] else []) ++ of_context i o.
  Proof. intros i j x o. unfold of_context. cbn [filter fst]. destruct (Nat.eqb j i); reflexivity. Qed.

  Lemma order_of : forall hist items n, (forall i w, In (i, w) hist -> (i < n)%nat) ->
    (forall i, (i < n)%nat -> exists more its, items i = its ++ more /\ Forall2 (says addr tbl) (by_ctx i hist) its) ->
    exists order, Forall2 (fun h o => fst h = fst o /\ says addr tbl (snd h) (snd o)) hist order /\
      forall i, (i < n)%nat -> exists more, items i = of_context i order ++ more /\ length (of_context i order) = length (by_ctx i hist).
  Proof.
    induction hist as [|[j w] hist IH]; intros items n B H.
    - exists []. split; [constructor|]. intros i L. exists (items i). auto.
    - assert (Lj : (j < n)%nat) by (eapply B; left; reflexivity).
      destruct (H j Lj) as (more & its & E & F). rewrite by_ctx_cons, Nat.eqb_refl in F. inversion F as [|? x ? its' Fx Fr]; subst.
      destruct (IH (fun i => if Nat.eqb j i then its' ++ more else items i) n) as (order & O1 & O2).
      { intros i w' I. eapply B. right. exact I. }
      { intros i L. destruct (Nat.eqb j i) eqn:Q.
        - apply Nat.eqb_eq in Q. subst j. eauto.
        - destruct (H i L) as (more' & its2 & E2 & F2). rewrite by_ctx_cons, Q in F2. eauto. }
      exists ((j, x) :: order). split; [constructor; auto|]. intros i L. destruct (O2 i L) as (more2 & E2 & E3).
      rewrite of_context_cons, by_ctx_cons. destruct (Nat.eqb j i) eqn:Q.
      + apply Nat.eqb_eq in Q. subst j. exists more2. rewrite E. cbn [app length]. split; [now rewrite E2|now rewrite E3].
      + exists more2. cbn [app]. split; auto.
  Qed.

  Lemma order_inside : forall n (hist : list (nat * list bytes)) order, (forall i w, In (i, w) hist -> (i < n)%nat) ->
    Forall2 (fun h o => fst h = fst o /\ says addr tbl (snd h) (snd o)) hist order -> forall i x, In (i, x) order -> (i < n)%nat.
  Proof.
    intros n hist order B F. induction F as [|[j w] [j' x'] hist order [E _] F IH]; intros i x H; [contradiction|]. cbn [fst] in E. subst j'.
    destruct H as [H|H]; [injection H as -> ->; eapply B; left; reflexivity|]. eapply IH; eauto. intros i' w' I. eapply B. right. exact I.
  Qed.

  Lemma by_ctx_filter : forall i hist, by_ctx i (filter (fun h => not_empty (snd h)) hist) = filter not_empty (by_ctx i hist).
  Proof.
    intros i. induction hist as [|[j w] hist IH]; auto. cbn [filter snd]. destruct (not_empty w) eqn:N; rewrite !by_ctx_cons, ?IH; destruct (Nat.eqb j i); cbn [app filter]; rewrite ?N; reflexivity.
  Qed.

  Lemma says_decodes : forall (hist : list (nat * list bytes)) order, Forall2 (fun h o => fst h = fst o /\ says addr tbl (snd h) (snd o)) hist order ->
    Forall2 (decodes tbl) (map snd hist) (map (fun o : nat * said => sd_frame (snd o)) order).
  Proof.
    intros hist order F. induction F as [|h o hist order [_ [E M]] F IH]; constructor; auto.
    exists (length (concat (snd h))). rewrite E. rewrite <- (app_nil_r (encode_frame _ _ _ _ _ _)) at 1. apply decode_frame. exact M.
  Qed.
End Order.

Lemma filter_map_snd : forall hist : list (nat * list bytes), filter not_empty (map snd hist) = map snd (filter (fun h => not_empty (snd h)) hist).
Proof. induction hist as [|h hist IH]; auto. cbn [map filter]. destruct (not_empty (snd h)); cbn [map]; now rewrite IH. Qed.

Lemma complete_fst : forall ws, map fst (filter snd (complete ws)) = ws.
Proof. induction ws as [|w ws IH]; auto. cbn. f_equal. exact IH. Qed.

(** A part of the bytes shows a part of the frames. *)
Lemma host_part : forall t a b evs r, table_safe t -> host_run EncRzcobs t [] [a ++ b] = (evs, Waiting r) ->
  forall chunks, concat chunks = a -> exists evs1 evs2 r1, host_run EncRzcobs t [] chunks = (evs1, Waiting r1) /\ evs = evs1 ++ evs2.
Proof.
  intros t a b evs r Ht H chunks E. rewrite host_run_rz in * by auto. rewrite E. cbn [concat] in H. rewrite app_nil_r, feed_app in H.
  destruct (feed [] a) as [m1 r1]. destruct (feed r1 b) as [m2 r2]. cbn [fst snd] in *. injection H as <- _. rewrite map_app. eauto.
Qed.

Lemma map_app_inv : forall {A B} (f : A -> B) l a b, map f l = a ++ b -> exists n, a = map f (firstn n l) /\ (n <= length l)%nat.
Proof.
  intros A B f l a. revert l. induction a as [|y a IH]; intros l b H; [exists O; split; auto; lia|].
  destruct l as [|x l]; [discriminate|]. cbn [map app] in H. injection H as <- H. destruct (IH _ _ H) as (n & -> & L). exists (S n). split; auto. cbn [length]. lia.
Qed.

(** The frames of a raw stream that has come in part. *)
Lemma raw_part : forall t bs frs, Forall2 (fun b fr => decode t b = Ok (fr, length b)) bs frs -> forall a b, a ++ b = concat bs ->
  exists n part, a = concat (firstn n bs) ++ part /\ decode t part = Err UnexpectedEof.
Proof.
  intros t bs frs F. induction F as [|b0 fr bs frs D F IH]; intros a b E.
  - exists O, []. apply app_eq_nil in E as [-> _]. split; [reflexivity|apply decode_empty].
  - cbn [concat] in E. destruct (Nat.lt_ge_cases (length a) (length b0)) as [L|L].
    + exists O, a. split; [reflexivity|]. replace a with (firstn (length a) b0); [apply (decode_truncate t b0 fr (length b0)); auto|].
      pose proof (f_equal (firstn (length a)) E) as Q. rewrite !firstn_app, Nat.sub_diag, firstn_all in Q. replace (length a - length b0)%nat with O in Q by lia.
      rewrite !firstn_O, !app_nil_r in Q. now symmetry.
    + pose proof (f_equal (firstn (length b0)) E) as Q. pose proof (f_equal (skipn (length b0)) E) as Q2.
      rewrite !firstn_app, Nat.sub_diag, firstn_all, !firstn_O, app_nil_r in Q. replace (length b0 - length a)%nat with O in Q by lia. rewrite firstn_O, app_nil_r in Q.
      rewrite !skipn_app, Nat.sub_diag, skipn_all, !skipn_O in Q2. replace (length b0 - length a)%nat with O in Q2 by lia. rewrite skipn_O in Q2. cbn [app] in Q2.
      destruct (IH _ _ Q2) as (n & part & E2 & P). exists (S n), part. split; [|exact P]. cbn [firstn concat]. rewrite <- app_assoc, <- E2. rewrite <- (firstn_skipn (length b0) a) at 1. now rewrite Q.
Qed.

Lemma raw_transmitted : forall done, concat (map raw_frame_chunks done) = concat (map (@concat Z) (filter not_empty done)).
Proof.
  induction done as [|w done IH]; [reflexivity|]. cbn [map concat filter]. rewrite IH. unfold raw_frame_chunks, raw_start_frame, raw_end_frame, raw_write.
  replace (concat (map (fun b : bytes => b) w)) with (concat w) by now rewrite map_id. unfold not_empty, non_empty. destruct (concat w) as [|x l] eqn:E; cbn [app map concat]; rewrite ?app_nil_r, ?E; reflexivity.
Qed.

(** The frames that the host gets, in either encoding. *)
Section Frames.
  Context (addr : bytes -> Z) (tbl : table) (k : encoding) (size : Z) (msg : option (list task)) (progs : list (list task)) (items : nat -> list said).
  Context (Hok : programs_ok msg progs) (Ht : table_safe tbl) (Hk : t_encoding tbl = k).
  Context (Hitems : forall i ts, nth_error progs i = Some ts -> Forall2 (says addr tbl) (spoken msg ts) (items i)).

  Definition frames_of (order : list (nat * said)) : list event := map EvFrame (map (fun o : nat * said => sd_frame (snd o)) order).

  Lemma says_whole : forall (hist : list (nat * list bytes)) order, Forall2 (fun h o => fst h = fst o /\ says addr tbl (snd h) (snd o)) hist order ->
    Forall2 (fun b fr => decode tbl b = Ok (fr, length b)) (map (@concat Z) (map snd hist)) (map (fun o : nat * said => sd_frame (snd o)) order).
  Proof.
    intros hist order F. induction F as [|h o hist order [_ [E M]] F IH]; constructor; auto.
    rewrite E. rewrite <- (app_nil_r (encode_frame _ _ _ _ _ _)) at 1. apply decode_frame. exact M.
  Qed.

  Lemma order_says : forall (hist : list (nat * list bytes)) order, Forall2 (fun h o => fst h = fst o /\ says addr tbl (snd h) (snd o)) hist order ->
    forall i x, In (i, x) order -> exists w, says addr tbl w x.
  Proof.
    intros hist order F i x H. induction F as [|h [j y] hist order [_ E] F IH]; [contradiction|]. destruct H as [H|H]; [injection H as -> ->; eauto|auto].
  Qed.

  Lemma by_ctx_app : forall i a b, by_ctx i (a ++ b) = by_ctx i a ++ by_ctx i b.
  Proof. intros i a b. unfold by_ctx. now rewrite filter_app, map_app. Qed.

  (** At any moment: statements that were made, those of each context from its first one on; the rest is kept. *)
  Theorem frames_so_far : forall json d chunks s, k = EncRzcobs \/ Forall calm progs ->
    device_reaches size k msg progs d -> concat chunks = RttModel.r_delivered (d_chan d) -> s <> Stdin \/ Forall some_bytes chunks ->
    exists order buf, (forall i x, In (i, x) order -> (i < length progs)%nat) /\ (forall i x, In (i, x) order -> exists w, says addr tbl w x) /\
      (forall i, (i < length progs)%nat -> exists more, items i = of_context i order ++ more) /\
      defmt_print false json s (Loads tbl) (HostSpec.reads chunks) = (schema json ++ map (Event tbl) (frames_of order), Running tbl buf).
  Proof.
    intros json d chunks s Cm R C Hs. destruct (device_lossless size k msg progs Hok d R) as (Rs & _ & unread & _ & _ & Ed).
    destruct (whole_frames Rtt k msg progs (d_sys d) Hok Rs) as (hist & open & Eo & Op & Hb & Hc).
    assert (M : exists hist', (forall i w, In (i, w) hist' -> (i < length progs)%nat) /\
      (forall i ts, nth_error progs i = Some ts -> exists more, spoken msg ts = by_ctx i hist' ++ more) /\
      forall order, Forall2 (fun h o => fst h = fst o /\ says addr tbl (snd h) (snd o)) hist' order ->
        exists n buf, host_run k tbl [] chunks = (frames_of (firstn n order), Waiting buf)).
    { assert (Sp : forall i ts, nth_error progs i = Some ts -> exists more, attempts msg ts = complete (by_ctx i hist) ++ more /\
        (forall w, open = Some (i, w) -> exists w2 fl more', more = (w ++ w2, fl) :: more') /\
        spoken msg ts = by_ctx i (filter (fun h => not_empty (snd h)) hist) ++ filter not_empty (map fst (filter snd more))).
      { intros i ts N. destruct (Hc i ts N) as (more & A & B). exists more. split; [exact A|]. split; [exact B|].
        unfold spoken. rewrite A, filter_app, map_app, filter_app, complete_fst. rewrite by_ctx_filter. reflexivity. }
      destruct k eqn:K.
      - (* raw *) destruct Cm as [Cm|Cm]; [discriminate|].
        set (last := match open with Some (i, w) => match nth_error progs i with
          | Some ts => match skipn (length (by_ctx i hist)) (attempts msg ts) with (v, _) :: _ => if not_empty v then [(i, v)] else [] | [] => [] end
          | None => [] end | None => [] end).
        exists (filter (fun h => not_empty (snd h)) hist ++ last). split; [|split].
        + intros i w I. apply in_app_or in I as [I|I]; [apply filter_In in I as [I _]; eauto|]. unfold last in I. destruct open as [[j w']|]; [|contradiction].
          destruct (nth_error progs j) as [ts|] eqn:N; [|contradiction]. destruct (skipn _ _) as [|[v fl] l]; [contradiction|]. destruct (not_empty v); [|contradiction].
          destruct I as [I|[]]. injection I as <- _. apply nth_error_Some. congruence.
        + intros i ts N. destruct (Sp i ts N) as (more & A & B & E). rewrite by_ctx_app.
          assert (L : exists rest, filter not_empty (map fst (filter snd more)) = by_ctx i last ++ rest).
          { unfold last. destruct open as [[j w]|]; [|eexists; reflexivity]. destruct (Nat.eq_dec i j) as [->|Ne].
            - rewrite N. rewrite A. replace (length (by_ctx j hist)) with (length (complete (by_ctx j hist))) by apply map_length.
              rewrite skipn_app, skipn_all, Nat.sub_diag. cbn [app skipn]. destruct (B w eq_refl) as (w2 & fl & more' & ->).
              assert (fl = true) as ->.
              { assert (Cj : calm ts) by (rewrite Forall_forall in Cm; apply Cm, (nth_error_In _ _ N)). rewrite (attempts_calm msg ts Cj) in A.
                assert (I : In (w ++ w2, fl) (complete (messages ts))) by (rewrite A; apply in_or_app; right; now left).
                apply in_map_iff in I as (? & I & _). now injection I. }
              cbn [filter snd map fst]. destruct (not_empty (w ++ w2)); unfold by_ctx; cbn [filter fst map snd]; rewrite ?Nat.eqb_refl; cbn [map snd app]; eexists; reflexivity.
            - destruct (nth_error progs j) as [tj|]; [|eexists; reflexivity]. destruct (skipn _ _) as [|[v fl] l]; [eexists; reflexivity|]. destruct (not_empty v); [|eexists; reflexivity].
              unfold by_ctx. cbn [filter fst]. replace (Nat.eqb j i) with false by (symmetry; apply Nat.eqb_neq; auto). eexists. reflexivity. }
          destruct L as (rest & L). exists rest. rewrite E, L. apply app_assoc.
        + intros order F. pose proof (says_whole _ _ F) as Dec.
          assert (Pre : exists more, out (d_sys d) ++ more = concat (map (@concat Z) (map snd (filter (fun h => not_empty (snd h)) hist ++ last)))).
          { rewrite Eo, !map_app, concat_app, <- filter_map_snd. cbn [transmitted transmitted_part]. rewrite raw_transmitted. unfold last. destruct open as [[j w]|].
            - destruct (Op j w eq_refl) as (_ & _ & Lj). destruct (nth_error progs j) as [ts|] eqn:N; [|apply nth_error_None in N; lia].
              destruct (Sp j ts N) as (more & A & B & _). destruct (B w eq_refl) as (w2 & fl & more' & ->). rewrite A.
              replace (length (by_ctx j hist)) with (length (complete (by_ctx j hist))) by apply map_length.
              rewrite skipn_app, skipn_all, Nat.sub_diag. cbn [app skipn]. exists (concat w2). rewrite <- app_assoc. f_equal.
              rewrite <- concat_app. unfold not_empty, non_empty. destruct (concat (w ++ w2)) eqn:Z0; [exact Z0|]. cbn [map snd concat]. symmetry. apply app_nil_r.
            - exists []. reflexivity. }
          destruct Pre as (more & Pre). rewrite <- Ed, <- app_assoc in Pre. destruct (raw_part _ _ _ Dec _ _ Pre) as (n & part & E1 & E2).
          exists n, part. unfold frames_of. rewrite <- firstn_map. rewrite <- C in E1. apply (C09_lemma tbl (firstn n (map (@concat Z) (map snd (filter (fun h => not_empty (snd h)) hist ++ last)))) _ part chunks); [|exact E2|exact E1].
          clear - Dec. revert Dec. generalize (map (@concat Z) (map snd (filter (fun h => not_empty (snd h)) hist ++ last))) (map (fun o : nat * said => sd_frame (snd o)) order).
          induction n as [|n IH]; intros l l' D; [constructor|]. destruct D; cbn [firstn]; constructor; auto.
      - (* rzcobs *) exists (filter (fun h => not_empty (snd h)) hist). split; [intros i w I; apply filter_In in I as [I _]; eauto|]. split.
        + intros i ts N. destruct (Sp i ts N) as (more & _ & _ & E). eauto.
        + intros order F. pose proof (says_decodes addr tbl _ order F) as Dec. rewrite <- filter_map_snd in Dec.
          destruct (host_shows tbl (map snd hist) (option_map snd open) (map (fun o : nat * said => sd_frame (snd o)) order) [out (d_sys d)] Ht Dec) as [rest Hr].
          { cbn [concat]. rewrite app_nil_r, Eo. destruct open as [[i w]|]; reflexivity. }
          rewrite <- Ed in Hr. destruct (host_part tbl _ _ _ _ Ht Hr chunks C) as (evs1 & evs2 & r1 & Hh & Es).
          destruct (map_app_inv _ _ _ _ Es) as (n & En & _). exists n, r1. unfold frames_of. rewrite <- firstn_map. congruence. }
    destruct M as (hist' & Hb' & Sp & Run).
    destruct (order_of addr tbl hist' items (length progs) Hb') as (order & O1 & O2).
    { intros i L. destruct (nth_error progs i) as [ts|] eqn:E; [|apply nth_error_None in E; lia]. destruct (Sp i ts E) as (more & A).
      pose proof (Hitems i ts E) as F. rewrite A in F. apply Forall2_app_inv_l in F as (l1 & l2 & F1 & _ & ->). exists l2, l1. split; auto. }
    destruct (Run order O1) as (n & buf & Hh).
    assert (Pre : forall i x, In (i, x) (firstn n order) -> In (i, x) order) by (intros i x H; rewrite <- (firstn_skipn n order); apply in_or_app; auto).
    exists (firstn n order), buf. split; [|split; [|split]].
    - intros i x H. apply Pre in H. revert i x H. eapply order_inside; eauto.
    - intros i x H. apply Pre in H. eapply order_says; eauto.
    - intros i L. destruct (O2 i L) as (more & E & _). exists (of_context i (skipn n order) ++ more). rewrite E, app_assoc. f_equal.
      unfold of_context. rewrite <- map_app, <- filter_app, firstn_skipn. reflexivity.
    - unfold defmt_print. cbn [begin]. fold (schema json). rewrite <- (app_nil_r (HostSpec.reads chunks)), run_reads, Hk, Hh by auto. cbn [run_print]. now rewrite app_nil_r.
  Qed.

  (** At the end: all statements. *)
  Theorem frames_in_the_end : forall json d chunks hs, device_reaches size k msg progs d -> Forall calm progs -> finished (d_sys d) ->
    RttModel.r_delivered (d_chan d) = out (d_sys d) -> concat chunks = RttModel.r_delivered (d_chan d) -> Forall some_bytes chunks ->
    exists order, (forall i x, In (i, x) order -> (i < length progs)%nat) /\ (forall i x, In (i, x) order -> exists w, says addr tbl w x) /\
      (forall i, (i < length progs)%nat -> items i = of_context i order) /\
      defmt_print false json Stdin (Loads tbl) (HostSpec.reads chunks ++ Read (Ok []) :: hs) = (schema json ++ map (Event tbl) (frames_of order), Finished true).
  Proof.
    intros json d chunks hs R Cm Fi Del C Hs. destruct (device_lossless size k msg progs Hok d R) as (Rs & _).
    destruct (calm_delivered Rtt k msg progs Hok Cm (d_sys d) Rs Fi) as (_ & _ & _ & hist & Eo & Hb & Hc).
    set (hist' := filter (fun h => not_empty (snd h)) hist).
    assert (Hb' : forall i w, In (i, w) hist' -> (i < length progs)%nat) by (intros i w H; apply filter_In in H as [H _]; eauto).
    assert (All : forall i, (i < length progs)%nat -> Forall2 (says addr tbl) (by_ctx i hist') (items i)).
    { intros i L. destruct (nth_error progs i) as [ts|] eqn:E; [|apply nth_error_None in E; lia].
      pose proof (Hitems i ts E) as F. unfold spoken in F. rewrite attempts_calm in F by (rewrite Forall_forall in Cm; apply Cm, (nth_error_In _ _ E)).
      rewrite complete_fst, <- (Hc i ts E) in F. unfold hist'. rewrite by_ctx_filter. exact F. }
    destruct (order_of addr tbl hist' items (length progs) Hb') as (order & O1 & O2).
    { intros i L. exists [], (items i). rewrite app_nil_r. split; auto. }
    assert (Hr : exists rest, host_run k tbl [] [concat chunks] = (frames_of order, Waiting rest)).
    { destruct k eqn:K.
      - exists []. apply (C09_lemma tbl (map (@concat Z) (map snd hist')) _ [] [concat chunks]); [exact (says_whole _ _ O1)|apply decode_empty|].
        cbn [concat]. rewrite !app_nil_r, C, Del, Eo. cbn [transmitted]. rewrite raw_transmitted. unfold hist'. now rewrite <- filter_map_snd.
      - pose proof (says_decodes addr tbl hist' order O1) as Dec. unfold hist' in Dec. rewrite <- filter_map_snd in Dec.
        apply (host_shows tbl (map snd hist) None (map (fun o : nat * said => sd_frame (snd o)) order) [concat chunks] Ht Dec). cbn [concat]. rewrite app_nil_r. congruence. }
    destruct Hr as (rest & Hr). exists order. split; [eapply order_inside; eauto|]. split; [eapply order_says; eauto|]. split.
    - intros i L. destruct (O2 i L) as (more & E & Le). rewrite E. assert (La : length (by_ctx i hist') = length (items i)) by (generalize (All i L); clear; intros F; induction F; cbn; auto). rewrite E, app_length in La.
      destruct more; [now rewrite app_nil_r|]. cbn [length] in La. lia.
    - rewrite stdin_run, Hk, Hr by auto. reflexivity.
  Qed.
End Frames.

Section Whole.
  Context (X : externals) (Y : external) (addr : bytes -> Z) (tbl : table) (host_segs : list segment) (locs : option (list (Z * location)))
    (current_dir skipped : bytes).
  Context (size : Z) (msg : option (list task)) (progs : list (list task)) (items : nat -> list said).
  Context (k : encoding) (Hok : programs_ok msg progs) (Ht : table_safe tbl) (Hk : t_encoding tbl = k) (HX : external_ok Y) (HW : wide_enough Y).
  Context (Hitems : forall i ts, nth_error progs i = Some ts -> Forall2 (says addr tbl) (spoken msg ts) (items i)).
  Context (Hread : forall i x, In x (items i) -> readable X Y tbl x).

  Definition terminal (evs : list (Z * event)) : outcome unit (list output) :=
    print_events false X tbl locs current_dir skipped false
      (no_clock (text_sink Y false (builtin_segments FDefault false (match t_timestamp tbl with Some _ => true | None => false end) false) host_segs false)) evs.

  Lemma in_of_context : forall i x order, In (i, x) order -> In x (of_context i order).
  Proof. intros i x order H. unfold of_context. apply in_map_iff. exists (i, x). split; auto. apply filter_In. split; auto. cbn. apply Nat.eqb_refl. Qed.

  Lemma terminal_shows : forall order times, (forall i x, In (i, x) order -> readable X Y tbl x) -> (forall i x, In (i, x) order -> exists w, says addr tbl w x) ->
    length times = length order ->
    exists o, terminal (combine times (map EvFrame (map (fun o : nat * said => sd_frame (snd o)) order))) = Ok o /\ stderr_of o = [] /\
      stdout_of o = as_lines (map (fun o : nat * said => line_for tbl (snd o)) order).
  Proof.
    intros order times R S L.
    destruct (default_events X Y addr tbl host_segs locs current_dir skipped (map (fun o : nat * said => sd_frame (snd o)) order) (map (fun o : nat * said => (sd_time (snd o), sd_message (snd o))) order) times HX HW)
      as (o & E1 & E2 & E3).
    - clear L. induction order as [|[i x] order IH]; constructor.
      + cbn [fst snd]. destruct (R i x (or_introl eq_refl)) as (R1 & _). destruct (S i x (or_introl eq_refl)) as (w & _ & M). eapply timestamp_says; eauto.
      + apply IH; intros j y H; [apply (R j)|apply (S j)]; now right.
    - clear - R. apply Forall_forall. intros t H. apply in_map_iff in H as ([i x] & <- & H). cbn [fst snd]. apply (R i x H).
    - clear - R. apply Forall_forall. intros t H. apply in_map_iff in H as ([i x] & <- & H). cbn [fst snd]. destruct (R i x H) as (_ & _ & A & B). split; auto.
    - now rewrite map_length.
    - exists o. split; [exact E1|]. split; [exact E2|]. rewrite E3. f_equal. clear. induction order as [|[i x] order IH]; [reflexivity|]. cbn [map combine fst snd]. now rewrite IH.
  Qed.

  (** At any moment. *)
  Theorem shown_so_far : forall d chunks s, k = EncRzcobs \/ Forall calm progs -> device_reaches size k msg progs d -> concat chunks = RttModel.r_delivered (d_chan d) ->
    s <> Stdin \/ Forall some_bytes chunks ->
    exists order evs buf, (forall i x, In (i, x) order -> (i < length progs)%nat) /\
      (forall i, (i < length progs)%nat -> exists more, items i = of_context i order ++ more) /\
      defmt_print false false s (Loads tbl) (HostSpec.reads chunks) = (map (Event tbl) evs, Running tbl buf) /\
      forall times, length times = length order -> exists o, terminal (combine times evs) = Ok o /\ stderr_of o = [] /\
        stdout_of o = as_lines (map (fun o : nat * said => line_for tbl (snd o)) order).
  Proof.
    intros d chunks s Cm R C Hs. destruct (frames_so_far addr tbl k size msg progs items Hok Ht Hk Hitems false d chunks s Cm R C Hs) as (order & buf & In1 & Sy & O2 & Run).
    exists order, (frames_of order), buf. split; [exact In1|]. split; [exact O2|]. split; [exact Run|]. intros times L. apply terminal_shows; auto.
    intros i x H. apply (Hread i). destruct (O2 i (In1 i x H)) as (more & E). rewrite E. apply in_or_app. left. apply in_of_context. auto.
  Qed.

  (** At the end. *)
  Theorem shown_in_the_end : forall d chunks hs, device_reaches size k msg progs d -> Forall calm progs -> finished (d_sys d) ->
    RttModel.r_delivered (d_chan d) = out (d_sys d) -> concat chunks = RttModel.r_delivered (d_chan d) -> Forall some_bytes chunks ->
    exists order evs, (forall i x, In (i, x) order -> (i < length progs)%nat) /\
      (forall i, (i < length progs)%nat -> items i = of_context i order) /\
      defmt_print false false Stdin (Loads tbl) (HostSpec.reads chunks ++ Read (Ok []) :: hs) = (map (Event tbl) evs, Finished true) /\
      forall times, length times = length order -> exists o, terminal (combine times evs) = Ok o /\ stderr_of o = [] /\
        stdout_of o = as_lines (map (fun o : nat * said => line_for tbl (snd o)) order).
  Proof.
    intros d chunks hs R Cm Fi Del C Hs.
    destruct (frames_in_the_end addr tbl k size msg progs items Hok Ht Hk Hitems false d chunks hs R Cm Fi Del C Hs) as (order & In1 & Sy & O2 & Run).
    exists order, (frames_of order). split; [exact In1|]. split; [exact O2|]. split; [exact Run|]. intros times L. apply terminal_shows; auto.
    intros i x H. apply (Hread i). rewrite (O2 i (In1 i x H)). apply in_of_context. auto.
  Qed.
End Whole.

(** Every fair run gets to the end. *)
Theorem terminal_complete : forall X Y addr tbl host_segs locs current_dir skipped size msg progs items k run who,
  programs_ok msg progs -> Forall calm progs -> 2 <= size -> table_safe tbl -> t_encoding tbl = k -> external_ok Y -> wide_enough Y ->
  (forall i ts, nth_error progs i = Some ts -> Forall2 (says addr tbl) (spoken msg ts) (items i)) ->
  (forall i x, In x (items i) -> readable X Y tbl x) ->
  device_boot size progs (run O) -> device_fair size k msg run who ->
  exists n, forall chunks hs, concat chunks = RttModel.r_delivered (d_chan (run n)) -> Forall some_bytes chunks ->
    exists order evs, (forall i x, In (i, x) order -> (i < length progs)%nat) /\
      (forall i, (i < length progs)%nat -> items i = of_context i order) /\
      defmt_print false false Stdin (Loads tbl) (HostSpec.reads chunks ++ Read (Ok []) :: hs) = (map (Event tbl) evs, Finished true) /\
      forall times, length times = length order -> exists o, terminal X Y tbl host_segs locs current_dir skipped (combine times evs) = Ok o /\ stderr_of o = [] /\
        stdout_of o = as_lines (map (fun o => line_for tbl (snd o)) order).
Proof.
  intros X Y addr tbl host_segs locs current_dir skipped size msg progs items k run who Hok Hc Hs Ht Hk HX HW Hi Hr Hb Hf.
  destruct (everything_arrives size k msg progs run who Hok Hc Hs Hb Hf) as (n & F & _ & D). exists n. intros chunks hs C Hb'.
  eapply (shown_in_the_end X Y addr tbl host_segs locs current_dir skipped size msg progs items k); eauto.
  exists (run O). split; auto. clear - Hf. induction n as [|n IH]; [constructor|]. econstructor; [exact IH|]. destruct Hf as (H & _). apply H.
Qed.
