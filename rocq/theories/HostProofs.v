(** The main loops of the host programs. *)
From Verif Require Import Base ParserModel DecoderModel DecoderPanic RzcobsModel StreamModel StreamSpec StreamProofs DisplayModel HostModel HostSpec.

(* ------------------------------------------------------------------ *)
(** * defmt-print *)

Lemma run_reads : forall watch json s file t hs chunks buf, s <> Stdin \/ Forall some_bytes chunks ->
  run_print watch json s file (Running t buf) (reads chunks ++ hs) =
  match host_run (t_encoding t) t buf chunks with
  | (evs, Waiting b) => let '(out, d) := run_print watch json s file (Running t b) hs in (map (Event t) evs ++ out, d)
  | (evs, Aborted) => (map (Event t) evs, Finished false)
  | (evs, _) => (map (Event t) evs, Crashed)
  end.
Proof.
  intros watch json s file t hs. induction chunks as [|c chunks IH]; intros buf H.
  - cbn [reads map app host_run]. destruct (run_print watch json s file (Running t buf) hs). reflexivity.
  - assert (H' : s <> Stdin \/ Forall some_bytes chunks) by (destruct H as [H|H]; [auto|inversion H; auto]).
    cbn [reads map app run_print host_run]. unfold turn.
    assert (E : source_read s c = (c, false)).
    { destruct s; [|reflexivity|reflexivity]. destruct H as [H|H]; [congruence|]. inversion H as [|? ? Hc _]; subst.
      destruct c; [destruct Hc; reflexivity|reflexivity]. }
    rewrite E. cbv iota beta. set (buf1 := received (t_encoding t) buf c).
    destruct (drain (t_encoding t) t (S (length buf1)) buf1) as [evs [b| | |]] eqn:D.
    + fold (reads chunks). rewrite IH by exact H'. destruct (host_run (t_encoding t) t b chunks) as [evs' [b'| | |]].
      * destruct (run_print watch json s file (Running t b') hs). rewrite map_app, <- app_assoc. reflexivity.
      * rewrite map_app. reflexivity.
      * rewrite map_app. reflexivity.
      * rewrite map_app. reflexivity.
    + destruct (map (fun c0 => Read (Ok c0)) chunks ++ hs); cbn [run_print app]; rewrite app_nil_r; reflexivity.
    + destruct (map (fun c0 => Read (Ok c0)) chunks ++ hs); cbn [run_print app]; rewrite app_nil_r; reflexivity.
    + destruct (map (fun c0 => Read (Ok c0)) chunks ++ hs); cbn [run_print app]; rewrite app_nil_r; reflexivity.
Qed.

Lemma run_ended : forall watch json s file d hs, (forall t b, d <> Running t b) -> run_print watch json s file d hs = ([], d).
Proof. intros watch json s file d hs H. destruct d as [t b| |]; [destruct (H t b eq_refl)| |]; destruct hs; reflexivity. Qed.

Definition schema (json : bool) : list shown := if json then [Schema] else [].

(** The standard input: everything is shown, then the program ends. *)
Lemma stdin_run : forall json t chunks hs, Forall some_bytes chunks ->
  defmt_print false json Stdin (Loads t) (reads chunks ++ Read (Ok []) :: hs) =
  let '(evs, st) := host_run (t_encoding t) t [] [concat chunks] in
  (schema json ++ map (Event t) evs,
   match st with Waiting _ => Finished true | Aborted => Finished false | _ => Crashed end).
Proof.
  intros json t chunks hs H. unfold defmt_print. cbn [begin]. fold (schema json). rewrite run_reads by auto.
  rewrite (C07_independent_lemma (t_encoding t) t chunks [concat chunks]) by (cbn [concat]; rewrite app_nil_r; reflexivity).
  destruct (host_run (t_encoding t) t [] [concat chunks]) as [evs [b| | |]]; try reflexivity.
  cbn [run_print turn source_read]. rewrite run_ended by discriminate. rewrite app_nil_r. reflexivity.
Qed.

(** Without [--watch-elf], changes of the file do not matter. *)
Lemma unwatched : forall json s hs file file' d,
  run_print false json s file d hs = run_print false json s file' d (filter (fun h => match h with Read _ => true | _ => false end) hs).
Proof.
  induction hs as [|h hs IH]; intros file file' d; [destruct d; reflexivity|].
  destruct d as [t b|ok|]; [|cbn [run_print]; destruct (filter _ (h :: hs)); reflexivity|cbn [run_print]; destruct (filter _ (h :: hs)); reflexivity].
  destruct h as [r|e]; cbn [filter run_print].
  - destruct (turn s t b r) as [out d1]. destruct d1 as [t1 b1|[|]|]; rewrite (IH file file'); reflexivity.
  - rewrite (IH e file' (Running t b)). destruct (run_print false json s file' (Running t b) _). reflexivity.
Qed.

Lemma concat_repeat_nil : forall n, concat (repeat (@nil Z) n) = [].
Proof. induction n as [|n IH]; [reflexivity|exact IH]. Qed.

(** A network or serial connection: everything is shown, but the program does not end. *)
Lemma closed_run : forall watch json s t chunks n, s <> Stdin ->
  defmt_print watch json s (Loads t) (reads chunks ++ closed n) =
  let '(evs, st) := host_run (t_encoding t) t [] [concat chunks] in
  (schema json ++ map (Event t) evs,
   match st with Waiting b => Running t b | Aborted => Finished false | _ => Crashed end).
Proof.
  intros watch json s t chunks n H. unfold defmt_print. cbn [begin]. fold (schema json).
  assert (E : reads chunks ++ closed n = reads (chunks ++ repeat [] n) ++ []).
  { rewrite app_nil_r. unfold reads, closed. rewrite map_app. f_equal. induction n as [|n IH]; [reflexivity|]. cbn [repeat map]. f_equal. exact IH. }
  rewrite E, run_reads by auto.
  rewrite (C07_independent_lemma (t_encoding t) t (chunks ++ repeat [] n) [concat chunks])
    by (rewrite concat_app, concat_repeat_nil; cbn [concat]; rewrite !app_nil_r; reflexivity).
  destruct (host_run (t_encoding t) t [] [concat chunks]) as [evs [b| | |]]; try reflexivity.
  cbn [run_print]. rewrite app_nil_r. reflexivity.
Qed.

(** [--watch-elf]. *)
Lemma phases_run : forall json s phases file t buf, Forall phase_fine phases ->
  s <> Stdin \/ Forall (fun p => Forall some_bytes (ph_chunks p)) phases ->
  exists t' buf', run_print true json s file (Running t buf) (flat_map phase_happens phases) =
    (flat_map (phase_shown json) phases, Running t' buf').
Proof.
  intros json s. induction phases as [|p phases IH]; intros file t buf F C; [exists t, buf; reflexivity|].
  inversion F as [|? ? Fp Fr]; subst. destruct Fp as [rest Ep].
  assert (C1 : s <> Stdin \/ Forall some_bytes (ph_chunks p)) by (destruct C as [C|C]; [auto|inversion C; auto]).
  assert (C2 : s <> Stdin \/ Forall (fun p => Forall some_bytes (ph_chunks p)) phases) by (destruct C as [C|C]; [auto|inversion C; auto]).
  destruct (IH (Loads (ph_table p)) (ph_table p) rest Fr C2) as (t' & b' & E'). exists t', b'.
  cbn [flat_map phase_happens app run_print begin]. rewrite run_reads by exact C1. rewrite Ep, E'.
  unfold phase_shown at 2. rewrite <- app_assoc. reflexivity.
Qed.

Lemma watch_run : forall json s p phases, Forall phase_fine (p :: phases) ->
  s <> Stdin \/ Forall (fun p => Forall some_bytes (ph_chunks p)) (p :: phases) ->
  exists t buf, defmt_print true json s (Loads (ph_table p)) (reads (ph_chunks p) ++ flat_map phase_happens phases) =
    (flat_map (phase_shown json) (p :: phases), Running t buf).
Proof.
  intros json s p phases F C. inversion F as [|? ? [rest Ep] Fr]; subst.
  assert (C1 : s <> Stdin \/ Forall some_bytes (ph_chunks p)) by (destruct C as [C|C]; [auto|inversion C; auto]).
  assert (C2 : s <> Stdin \/ Forall (fun p => Forall some_bytes (ph_chunks p)) phases) by (destruct C as [C|C]; [auto|inversion C; auto]).
  destruct (phases_run json s phases (Loads (ph_table p)) (ph_table p) rest Fr C2) as (t & b & E). exists t, b.
  unfold defmt_print. cbn [begin]. rewrite run_reads by exact C1. rewrite Ep, E. cbn [flat_map]. unfold phase_shown at 2.
  rewrite <- app_assoc. reflexivity.
Qed.

(** A file that cannot be used ends the program, whatever comes later. *)
Lemma unusable_run : forall json s p hs, phase_fine p -> s <> Stdin \/ Forall some_bytes (ph_chunks p) ->
  defmt_print true json s (Loads (ph_table p)) (reads (ph_chunks p) ++ Replaced Unusable :: hs) = (phase_shown json p, Finished false).
Proof.
  intros json s p hs [rest Ep] C. unfold defmt_print. cbn [begin]. rewrite run_reads by exact C. rewrite Ep.
  cbn [run_print begin]. rewrite run_ended by discriminate. cbn [app]. rewrite app_nil_r. reflexivity.
Qed.

(** The end of the standard input restarts a watching program, again and again. *)
Lemma stdin_watch_run : forall json p n, phase_fine p -> Forall some_bytes (ph_chunks p) ->
  exists buf, defmt_print true json Stdin (Loads (ph_table p)) (reads (ph_chunks p) ++ closed n) =
    (phase_shown json p ++ flat_map (fun _ => schema json) (closed n), Running (ph_table p) buf).
Proof.
  intros json p n [rest Ep] C. unfold defmt_print. cbn [begin].
  assert (E : forall k b, exists b', run_print true json Stdin (Loads (ph_table p)) (Running (ph_table p) b) (closed k) =
    (flat_map (fun _ => schema json) (closed k), Running (ph_table p) b')).
  { induction k as [|k IH]; intros b; [exists b; reflexivity|]. destruct (IH []) as (b' & E'). exists b'.
    unfold closed in *. cbn [repeat run_print turn source_read begin flat_map]. rewrite E'. reflexivity. }
  destruct (E n rest) as (b' & E'). exists b'. rewrite run_reads by auto. rewrite Ep, E'.
  unfold phase_shown. rewrite app_assoc. reflexivity.
Qed.

(* ------------------------------------------------------------------ *)
(** * qemu-run *)

Section Qemu.
  Context (X : externals) (t : table).

  (** The lines for what a stream shows: up to the first frame that is malformed. *)
  Fixpoint lines (evs : list event) (st : status) : list bytes * status :=
    match evs with
    | [] => ([], st)
    | EvSkipped :: _ => ([], Aborted)
    | EvFrame f :: evs' =>
        match display_frame X t true f with
        | Some l => let '(ls, st') := lines evs' st in ((l ++ [10]) :: ls, st')
        | None => ([], Panicked)
        end
    end.

  Lemma decode_lines : forall fuel buf, qemu_decode X t fuel buf = let '(evs, st) := drain (t_encoding t) t fuel buf in lines evs st.
  Proof.
    induction fuel as [|fuel IH]; intros buf; [reflexivity|]. cbn [qemu_decode drain].
    destruct (stream_decode (t_encoding t) t buf) as [[f|[]| |] buf'].
    - rewrite IH. destruct (drain (t_encoding t) t fuel buf') as [evs st]. reflexivity.
    - reflexivity.
    - destruct (can_recover (t_encoding t)); [|reflexivity]. destruct (drain (t_encoding t) t fuel buf') as [evs st]. reflexivity.
    - reflexivity.
    - reflexivity.
  Qed.

  Lemma lines_app : forall evs evs' b st, lines (evs ++ evs') st =
    match lines evs (Waiting b) with
    | (ls, Waiting _) => let '(ls', st') := lines evs' st in (ls ++ ls', st')
    | (ls, r) => (ls, r)
    end.
  Proof.
    induction evs as [|[f|] evs IH]; intros evs' b st; cbn [app lines].
    - destruct (lines evs' st). reflexivity.
    - destruct (display_frame X t true f) as [l|]; [|reflexivity]. rewrite (IH evs' b st).
      destruct (lines evs (Waiting b)) as [ls [b'| | |]]; try reflexivity. destruct (lines evs' st). reflexivity.
    - reflexivity.
  Qed.

  (** A buffer in which it can wait. *)
  Lemma lines_waiting : forall evs b ls b', lines evs (Waiting b) = (ls, Waiting b') -> b' = b.
  Proof.
    induction evs as [|[f|] evs IH]; intros b ls b' H; cbn [lines] in H; [congruence| |discriminate].
    destruct (display_frame X t true f); [|discriminate]. destruct (lines evs (Waiting b)) as [ls' st'] eqn:E. injection H as _ ->. eauto.
  Qed.

  Lemma lines_stops : forall evs st ls r, (forall b, st <> Waiting b) -> lines evs st = (ls, r) -> forall b, r <> Waiting b.
  Proof.
    induction evs as [|[f|] evs IH]; intros st ls r N H b; cbn [lines] in H; [congruence| |injection H as _ <-; discriminate].
    destruct (display_frame X t true f); [|injection H as _ <-; discriminate]. destruct (lines evs st) as [ls' st'] eqn:E. injection H as _ ->. eauto.
  Qed.

  Definition finish (s : exit_status) (st : status) : qresult :=
    match st with Waiting _ => QReturns (status_code s) | _ => qemu_stop st end.

  Lemma loop_lines : forall last s rest pieces buf,
    qemu_loop X t buf (qemu_turns pieces last s rest) =
    let '(evs, st) := host_run (t_encoding t) t buf (pieces ++ [last; rest]) in
    let '(ls, r) := lines evs st in (ls, finish s r).
  Proof.
    intros last s rest. induction pieces as [|c pieces IH]; intros buf.
    - cbn [qemu_turns map app qemu_loop q_read q_status q_rest host_run]. unfold qemu_received. rewrite !decode_lines.
      set (b1 := received (t_encoding t) buf last). destruct (drain (t_encoding t) t (S (length b1)) b1) as [evs [b| | |]] eqn:D.
      + destruct (lines evs (Waiting b)) as [ls [b'| | |]] eqn:L.
        * pose proof (lines_waiting _ _ _ _ L). subst b'. rewrite decode_lines. set (b2 := received (t_encoding t) b rest).
          destruct (drain (t_encoding t) t (S (length b2)) b2) as [evs' [b'| | |]] eqn:D2.
          -- rewrite app_nil_r. rewrite (lines_app evs evs' b), L. destruct (lines evs' (Waiting b')) as [ls' [b''| | |]]; reflexivity.
          -- rewrite (lines_app evs evs' b), L. destruct (lines evs' Aborted) as [ls' r] eqn:L'.
             assert (N : forall b, r <> Waiting b) by (eapply lines_stops; [|exact L']; discriminate). destruct r; [destruct (N buf0 eq_refl)| | |]; reflexivity.
          -- rewrite (lines_app evs evs' b), L. destruct (lines evs' Panicked) as [ls' r] eqn:L'.
             assert (N : forall b, r <> Waiting b) by (eapply lines_stops; [|exact L']; discriminate). destruct r; [destruct (N buf0 eq_refl)| | |]; reflexivity.
          -- rewrite (lines_app evs evs' b), L. destruct (lines evs' OutOfFuel) as [ls' r] eqn:L'.
             assert (N : forall b, r <> Waiting b) by (eapply lines_stops; [|exact L']; discriminate). destruct r; [destruct (N buf0 eq_refl)| | |]; reflexivity.
        * set (b2 := received (t_encoding t) b rest). destruct (drain (t_encoding t) t (S (length b2)) b2) as [evs' [b'| | |]];
            rewrite ?app_nil_r, (lines_app evs evs' b), L; reflexivity.
        * set (b2 := received (t_encoding t) b rest). destruct (drain (t_encoding t) t (S (length b2)) b2) as [evs' [b'| | |]];
            rewrite ?app_nil_r, (lines_app evs evs' b), L; reflexivity.
        * set (b2 := received (t_encoding t) b rest). destruct (drain (t_encoding t) t (S (length b2)) b2) as [evs' [b'| | |]];
            rewrite ?app_nil_r, (lines_app evs evs' b), L; reflexivity.
      + destruct (lines evs Aborted) as [ls r] eqn:L.
        assert (N : forall b, r <> Waiting b) by (eapply lines_stops; [|exact L]; discriminate). destruct r; [destruct (N buf0 eq_refl)| | |]; reflexivity.
      + destruct (lines evs Panicked) as [ls r] eqn:L.
        assert (N : forall b, r <> Waiting b) by (eapply lines_stops; [|exact L]; discriminate). destruct r; [destruct (N buf0 eq_refl)| | |]; reflexivity.
      + destruct (lines evs OutOfFuel) as [ls r] eqn:L.
        assert (N : forall b, r <> Waiting b) by (eapply lines_stops; [|exact L]; discriminate). destruct r; [destruct (N buf0 eq_refl)| | |]; reflexivity.
    - unfold qemu_turns in *. cbn [map app qemu_loop q_read q_status q_rest host_run]. unfold qemu_received. rewrite decode_lines.
      set (b1 := received (t_encoding t) buf c). destruct (drain (t_encoding t) t (S (length b1)) b1) as [evs [b| | |]] eqn:D.
      + destruct (lines evs (Waiting b)) as [ls r] eqn:L.
        assert (R : r = Waiting b \/ forall b', r <> Waiting b').
        { destruct r as [b'| | |]; [left; f_equal; exact (lines_waiting _ _ _ _ L)|right; discriminate|right; discriminate|right; discriminate]. }
        destruct R as [->|N].
        * rewrite IH. destruct (host_run (t_encoding t) t b (pieces ++ [last; rest])) as [evs' st].
          rewrite (lines_app evs evs' b), L. destruct (lines evs' st). reflexivity.
        * destruct (host_run (t_encoding t) t b (pieces ++ [last; rest])) as [evs' st]. rewrite (lines_app evs evs' b), L.
          destruct r; [destruct (N buf0 eq_refl)| | |]; reflexivity.
      + destruct (lines evs Aborted) as [ls r] eqn:L.
        assert (N : forall b, r <> Waiting b) by (eapply lines_stops; [|exact L]; discriminate). destruct r; [destruct (N buf0 eq_refl)| | |]; reflexivity.
      + destruct (lines evs Panicked) as [ls r] eqn:L.
        assert (N : forall b, r <> Waiting b) by (eapply lines_stops; [|exact L]; discriminate). destruct r; [destruct (N buf0 eq_refl)| | |]; reflexivity.
      + destruct (lines evs OutOfFuel) as [ls r] eqn:L.
        assert (N : forall b, r <> Waiting b) by (eapply lines_stops; [|exact L]; discriminate). destruct r; [destruct (N buf0 eq_refl)| | |]; reflexivity.
  Qed.

  Lemma run_lines : forall pieces last s rest,
    qemu_run X t (qemu_turns pieces last s rest) =
    let '(evs, st) := host_run (t_encoding t) t [] [qemu_output pieces last rest] in
    let '(ls, r) := lines evs st in (ls, process_code (finish s r)).
  Proof.
    intros pieces last s rest. unfold qemu_run. rewrite loop_lines.
    rewrite (C07_independent_lemma (t_encoding t) t (pieces ++ [last; rest]) [qemu_output pieces last rest])
      by (unfold qemu_output; rewrite concat_app; cbn [concat]; rewrite !app_nil_r; reflexivity).
    destruct (host_run (t_encoding t) t [] [qemu_output pieces last rest]) as [evs st]. destruct (lines evs st). reflexivity.
  Qed.

  Lemma lines_frames : forall frs ls evs st, Forall2 (line_of X t) frs ls ->
    lines (map EvFrame frs ++ evs) st = let '(ls', r) := lines evs st in (ls ++ ls', r).
  Proof.
    intros frs ls evs st H. induction H as [|f l frs ls (s & E & ->) _ IH]; cbn [map app lines]; [destruct (lines evs st); reflexivity|].
    rewrite E, IH. destruct (lines evs st). reflexivity.
  Qed.

  Lemma lines_inv : forall evs b ls b', lines evs (Waiting b) = (ls, Waiting b') -> exists frs, evs = map EvFrame frs /\ Forall2 (line_of X t) frs ls.
  Proof.
    induction evs as [|[f|] evs IH]; intros b ls b' H; cbn [lines] in H; [injection H as <- _; exists []; split; [reflexivity|constructor]| |discriminate].
    destruct (display_frame X t true f) as [l|] eqn:D; [|discriminate]. destruct (lines evs (Waiting b)) as [ls' st'] eqn:E. injection H as <- ->.
    destruct (IH _ _ _ E) as (frs & -> & F). exists (f :: frs). split; [reflexivity|]. constructor; [exists l; auto|exact F].
  Qed.

  Theorem qemu_prints : forall pieces last s rest frs ls r,
    host_run (t_encoding t) t [] [qemu_output pieces last rest] = (map EvFrame frs, Waiting r) -> Forall2 (line_of X t) frs ls ->
    qemu_run X t (qemu_turns pieces last s rest) = (ls, Some match s with Exit c => c | Signal _ => 0 end).
  Proof.
    intros pieces last s rest frs ls r H F. rewrite run_lines, H. rewrite <- (app_nil_r (map EvFrame frs)), (lines_frames _ _ _ _ F).
    cbn [lines]. rewrite app_nil_r. destruct s; reflexivity.
  Qed.

  Theorem qemu_damaged : forall pieces last s rest frs ls evs st,
    host_run (t_encoding t) t [] [qemu_output pieces last rest] = (map EvFrame frs ++ evs, st) -> Forall2 (line_of X t) frs ls ->
    (exists evs', evs = EvSkipped :: evs') \/ (evs = [] /\ st = Aborted) ->
    qemu_run X t (qemu_turns pieces last s rest) = (ls, Some 1).
  Proof.
    intros pieces last s rest frs ls evs st H F C. rewrite run_lines, H, (lines_frames _ _ _ _ F).
    destruct C as [(evs' & ->)|[-> ->]]; cbn [lines]; rewrite app_nil_r; reflexivity.
  Qed.

  Theorem qemu_success : forall pieces last s rest ls,
    qemu_run X t (qemu_turns pieces last s rest) = (ls, Some 0) ->
    (s = Exit 0 \/ exists n, s = Signal n) /\
    exists frs r, host_run (t_encoding t) t [] [qemu_output pieces last rest] = (map EvFrame frs, Waiting r) /\ Forall2 (line_of X t) frs ls.
  Proof.
    intros pieces last s rest ls H. rewrite run_lines in H.
    destruct (host_run (t_encoding t) t [] [qemu_output pieces last rest]) as [evs st]. destruct (lines evs st) as [ls' r] eqn:L.
    injection H as <- H. destruct r as [b| | |]; try discriminate H.
    destruct st as [b0| | |]; try (exfalso; refine (lines_stops _ _ _ _ _ L b eq_refl); discriminate).
    split.
    - destruct s as [c|n]; cbn [finish status_code process_code] in H; [left; congruence|right; eauto].
    - destruct (lines_inv _ _ _ _ L) as (frs & -> & F). exists frs, b0. auto.
  Qed.
End Qemu.

(* ------------------------------------------------------------------ *)
(** * From the frames of the device *)

Lemma decode_empty : forall t, decode t [] = Err UnexpectedEof.
Proof. intros t. reflexivity. Qed.

Lemma sent_shown : forall t fs frs s, table_safe t -> Forall2 (frame_decodes t) fs frs -> sent t fs s ->
  host_run (t_encoding t) t [] [s] = (map EvFrame frs, Waiting []).
Proof.
  intros t fs frs s S F H. unfold frame_decodes, sent in *. destruct (t_encoding t).
  - apply (C09_lemma t (map (@concat Z) fs) frs [] [s]).
    + clear H. induction F; constructor; auto.
    + apply decode_empty.
    + cbn [concat]. rewrite !app_nil_r. exact H.
  - apply (C05_lemma t fs frs [s] S F). cbn [concat]. rewrite app_nil_r. exact H.
Qed.

Theorem stdin_frames : forall json t fs frs chunks hs, table_safe t -> Forall2 (frame_decodes t) fs frs ->
  sent t fs (concat chunks) -> Forall some_bytes chunks ->
  defmt_print false json Stdin (Loads t) (reads chunks ++ Read (Ok []) :: hs) =
  ((if json then [Schema] else []) ++ map (Event t) (map EvFrame frs), Finished true).
Proof.
  intros json t fs frs chunks hs S F H N. rewrite stdin_run by exact N. pose proof (sent_shown t fs frs _ S F H) as E. unfold bytes in *. rewrite E. reflexivity.
Qed.

Theorem connection_frames : forall watch json s t fs frs chunks n, table_safe t -> Forall2 (frame_decodes t) fs frs ->
  sent t fs (concat chunks) -> s <> Stdin ->
  defmt_print watch json s (Loads t) (reads chunks ++ closed n) =
  ((if json then [Schema] else []) ++ map (Event t) (map EvFrame frs), Running t []).
Proof.
  intros watch json s t fs frs chunks n S F H N. rewrite closed_run by exact N. pose proof (sent_shown t fs frs _ S F H) as E. unfold bytes in *. rewrite E. reflexivity.
Qed.

Lemma phase_frames : forall t fs frs chunks, table_safe t -> Forall2 (frame_decodes t) fs frs -> sent t fs (concat chunks) ->
  phase_fine (MkPhase t chunks (map EvFrame frs)).
Proof.
  intros t fs frs chunks S F H. exists []. cbn [ph_table ph_chunks ph_events]. rewrite <- (sent_shown t fs frs _ S F H).
  apply C07_independent_lemma. cbn [concat]. rewrite app_nil_r. reflexivity.
Qed.

Theorem qemu_frames : forall X t fs frs ls pieces last s rest, table_safe t -> Forall2 (frame_decodes t) fs frs ->
  sent t fs (qemu_output pieces last rest) -> Forall2 (line_of X t) frs ls ->
  qemu_run X t (qemu_turns pieces last s rest) = (ls, Some match s with Exit c => c | Signal _ => 0 end).
Proof. intros X t fs frs ls pieces last s rest S F H L. eapply qemu_prints; [|exact L]. exact (sent_shown t fs frs _ S F H). Qed.
