(** The output of the host in any log format, with or without colours (C55, C60). *)
From Verif Require Import Base Utf8 ParserModel DecoderModel DecoderProofs DecoderPanic EncodeModel EncodeSpec EncodeProofs EncodeTop DisplayModel TextSpec RzcobsModel StreamModel StreamSpec StreamProofs
  LogFormatModel LogFormatSpec LogFormatBuiltin SymbolModel LocationModel SinkModel SinkSpec SinkProofs SinkMain HostModel HostSpec HostProofs
  LoggerModel LoggerSpec LoggerProofs LoggerMain DeviceModel DeviceSpec DeviceProofs DeviceLive DeviceMain.
From Verif Require RttModel.

Section Formats.
  Context (X : externals) (Y : external) (tbl : table) (colors : bool) (segs host_segs : list segment) (locs : option (list (Z * location)))
    (dir skipped : bytes) (show verbose : bool).

  (** The line of a frame with these texts: the message of [println!], or the record in the format. *)
  Definition frame_line (ft : frame * (bytes * bytes)) : outcome unit bytes :=
    match f_level (fst ft) with
    | None => Ok (snd (snd ft))
    | Some l =>
        let '(file, line, m) := location_info locs (fst ft) dir in
        format_record Y colors segs (MkRecord false (Some l) (fst (snd ft)) file line m (snd (snd ft)))
    end.

  Definition shows_texts (fr : frame) (t : bytes * bytes) : Prop :=
    (timestamp_text X tbl fr = Some (fst t) /\ display_message X tbl fr = Some (snd t)) /\ byte_text (fst t).

  Definition text_output (evs : list (Z * event)) : outcome unit (list output) :=
    print_events verbose X tbl locs dir skipped show (no_clock (text_sink Y colors segs host_segs verbose)) evs.

  Lemma event_line : forall fr t now, shows_texts fr t ->
    print_event verbose X tbl locs dir skipped show (no_clock (text_sink Y colors segs host_segs verbose)) now (EvFrame fr) =
    bind (frame_line (fr, t)) (fun s => Ok [Stdout (s ++ [10])]).
  Proof.
    intros fr t now [[Dt Dm] Hb]. cbn [print_event]. unfold frame_line. cbn [fst snd]. destruct (location_info locs fr dir) as [[file line] m].
    unfold no_clock. change (bind (log_defmt X tbl fr file line m) (fun lr => text_sink Y colors segs host_segs verbose lr))
      with (bind (log_defmt X tbl fr file line m) (text_sink Y colors segs host_segs verbose)).
    rewrite (text_sink_frame Y colors segs host_segs verbose X tbl fr file line m (fst t) (snd t) Dt Dm Hb).
    destruct (f_level fr) as [l|]; reflexivity.
  Qed.

  (** All frames are printed exactly if all have lines. *)
  Lemma output_ok : forall frs texts times o, Forall2 shows_texts frs texts -> length times = length frs ->
    text_output (combine times (map EvFrame frs)) = Ok o <->
    exists ls, Forall2 (fun ft s => frame_line ft = Ok s) (combine frs texts) ls /\ o = map (fun s => Stdout (s ++ [10])) ls.
  Proof.
    intros frs texts times o D. revert times o. induction D as [|fr t frs texts D1 D IH]; intros times o L; cbn [combine map].
    - destruct times; [|discriminate]. cbn. split.
      + intros H. inversion H. exists []. split; [constructor|reflexivity].
      + intros (ls & F & ->). inversion F. reflexivity.
    - destruct times as [|now times]; [discriminate|]. cbn [combine]. unfold text_output in *. cbn [print_events]. rewrite (event_line fr t now D1).
      destruct (frame_line (fr, t)) as [s|e| |] eqn:E; cbn [bind].
      2, 3, 4: split; [discriminate|intros (ls & F & _); inversion F; congruence].
      specialize (IH times). cbn [length] in L.
      destruct (print_events verbose X tbl locs dir skipped show _ (combine times (map EvFrame frs))) as [r|e| |]; cbn [bind].
      + specialize (IH r ltac:(lia)). destruct IH as [IH _]. destruct (IH eq_refl) as (ls & F & ->). split.
        * intros H. inversion H. exists (s :: ls). split; [now constructor|reflexivity].
        * intros (ls' & F' & ->). inversion F' as [|? s' ? ls2 Es Fs]; subst. rewrite E in Es. inversion Es; subst. cbn [map app]. do 3 f_equal.
          clear - F Fs. revert ls2 Fs. induction F as [|x y xs ys Hx F IHF]; intros ls2 Fs; inversion Fs as [|? y' ? ys' Hx' Fs']; subst; [reflexivity|].
          rewrite Hx in Hx'. inversion Hx'; subst. cbn [map]. f_equal. now apply IHF.
      + split; [discriminate|]. intros (ls & F & ->). inversion F as [|? s' ? ls2 Es Fs]; subst. exfalso.
        assert (H : Err e = Ok (map (fun s => Stdout (s ++ [10])) ls2)) by (apply IH; [lia|exists ls2; auto]). discriminate.
      + split; [discriminate|]. intros (ls & F & ->). inversion F as [|? s' ? ls2 Es Fs]; subst. exfalso.
        assert (H : Panic = Ok (map (fun s => Stdout (s ++ [10])) ls2) :> outcome unit (list output)) by (apply IH; [lia|exists ls2; auto]). discriminate.
      + split; [discriminate|]. intros (ls & F & ->). inversion F as [|? s' ? ls2 Es Fs]; subst. exfalso.
        assert (H : NoFuel = Ok (map (fun s => Stdout (s ++ [10])) ls2) :> outcome unit (list output)) by (apply IH; [lia|exists ls2; auto]). discriminate.
  Qed.

  (** The host panics exactly at the first frame for which the formatter panics. *)
  Lemma output_panics : forall frs texts times, Forall2 shows_texts frs texts -> length times = length frs ->
    text_output (combine times (map EvFrame frs)) = Panic <->
    exists before ft after ls, combine frs texts = before ++ ft :: after /\ Forall2 (fun ft s => frame_line ft = Ok s) before ls /\ frame_line ft = Panic.
  Proof.
    intros frs texts times D. revert times. induction D as [|fr t frs texts D1 D IH]; intros times L; cbn [combine map].
    - destruct times; [|discriminate]. cbn. split; [discriminate|]. intros (before & ft & after & ls & E & _). destruct before; discriminate.
    - destruct times as [|now times]; [discriminate|]. cbn [combine]. unfold text_output in *. cbn [print_events]. rewrite (event_line fr t now D1).
      cbn [length] in L. specialize (IH times ltac:(lia)).
      destruct (frame_line (fr, t)) as [s|e| |] eqn:E; cbn [bind].
      + transitivity (print_events verbose X tbl locs dir skipped show (no_clock (text_sink Y colors segs host_segs verbose)) (combine times (map EvFrame frs)) = Panic).
        { destruct (print_events verbose X tbl locs dir skipped show _ (combine times (map EvFrame frs))); cbn [bind]; split; congruence. }
        rewrite IH. split.
        * intros (before & ft & after & ls & Q & F & P). exists ((fr, t) :: before), ft, after, (s :: ls). rewrite Q. repeat split; [now constructor|exact P].
        * intros (before & ft & after & ls & Q & F & P). destruct before as [|b before]; cbn [app] in Q; inversion Q; subst; [congruence|].
          inversion F as [|? ? ? ls2 F1 F2]; subst. exists before, ft, after, ls2. auto.
      + split; [discriminate|]. intros (before & ft & after & ls & Q & F & P).
        destruct before as [|b before]; cbn [app] in Q; inversion Q; subst; [congruence|]. inversion F; congruence.
      + split; [intros _|reflexivity]. exists [], (fr, t), (combine frs texts), []. repeat split; [constructor|exact E].
      + split; [discriminate|]. intros (before & ft & after & ls & Q & F & P).
        destruct before as [|b before]; cbn [app] in Q; inversion Q; subst; [congruence|]. inversion F; congruence.
  Qed.

  Lemma lines_out : forall ls, stderr_of (map (fun s => Stdout (s ++ [10])) ls) = [] /\ stdout_of (map (fun s => Stdout (s ++ [10])) ls) = as_lines ls.
  Proof. induction ls as [|s ls [E1 E2]]; [split; reflexivity|]. unfold stderr_of, stdout_of, as_lines in *. cbn [map flat_map app]. rewrite E1, E2. split; reflexivity. Qed.
End Formats.

(** From the statements of the program, in any format. *)
Theorem format_run : forall X Y addr tbl colors segs host_segs locs dir skipped show verbose stmts frs chunks texts times,
  table_safe tbl -> executed addr tbl stmts frs chunks -> printed_as X tbl stmts frs texts -> Forall (fun t => byte_text (fst t)) texts -> length times = length frs ->
  let shown := print_events verbose X tbl locs dir skipped show (no_clock (text_sink Y colors segs host_segs verbose))
    (combine times (fst (host_run EncRzcobs tbl [] chunks))) in
  (forall o, shown = Ok o <-> exists ls, Forall2 (fun ft s => frame_line Y colors segs locs dir ft = Ok s) (combine frs texts) ls /\
     o = map (fun s => Stdout (s ++ [10])) ls) /\
  (shown = Panic <-> exists before ft after ls, combine frs texts = before ++ ft :: after /\
     Forall2 (fun ft s => frame_line Y colors segs locs dir ft = Ok s) before ls /\ frame_line Y colors segs locs dir ft = Panic).
Proof.
  intros X Y addr tbl colors segs host_segs locs dir skipped show verbose stmts frs chunks texts times TS (M & writes & Wr & C) P Hb Lt shown.
  unfold shown. rewrite (end_to_end addr tbl stmts frs writes chunks TS M Wr C). cbn [fst].
  assert (D : Forall2 (shows_texts X tbl) frs texts).
  { pose proof (texts_shown X addr tbl stmts frs texts M P) as D. clear - D Hb. induction D as [|fr t frs texts H D IH]; [constructor|].
    inversion Hb; subst. constructor; [split; assumption|auto]. }
  split.
  - intros o. now apply (output_ok X Y tbl colors segs host_segs locs dir skipped show verbose).
  - now apply (output_panics X Y tbl colors segs host_segs locs dir skipped show verbose).
Qed.

(** From all contexts of the device, in any format that has lines for their statements. *)
Definition line_of (Y : external) (colors : bool) (segs : list segment) (locs : option (list (Z * location))) (dir : bytes) (x : said) : outcome unit bytes :=
  frame_line Y colors segs locs dir (sd_frame x, (sd_time x, sd_message x)).

Lemma order_printed : forall X Y addr tbl colors segs host_segs locs dir skipped show verbose (order : list (nat * said)),
  (forall i x, In (i, x) order -> exists w, says addr tbl w x) ->
  (forall i x, In (i, x) order -> says_statement X tbl (sd_time_args x) (sd_args x) (sd_frame x) (sd_time x) (sd_message x) /\ byte_text (sd_time x) /\
     exists s, line_of Y colors segs locs dir x = Ok s) ->
  exists ls, Forall2 (fun o s => line_of Y colors segs locs dir (snd o) = Ok s) order ls /\
    forall times, length times = length order -> exists o,
      print_events verbose X tbl locs dir skipped show (no_clock (text_sink Y colors segs host_segs verbose)) (combine times (frames_of order)) = Ok o /\
      stderr_of o = [] /\ stdout_of o = as_lines ls.
Proof.
  intros X Y addr tbl colors segs host_segs locs dir skipped show verbose order Sy Hr'.
  assert (L : exists ls, Forall2 (fun (o : nat * said) s => line_of Y colors segs locs dir (snd o) = Ok s) order ls).
  { clear - Hr'. induction order as [|[i x] order IH]; [exists []; constructor|]. destruct IH as (ls & F); [intros j y I; apply (Hr' j); now right|].
    destruct (Hr' i x ltac:(now left)) as (_ & _ & s & E). exists (s :: ls). constructor; auto. }
  destruct L as (ls & Fl). exists ls. split; [exact Fl|]. intros times Lt.
  set (texts := map (fun o : nat * said => (sd_time (snd o), sd_message (snd o))) order).
  assert (Dt : Forall2 (shows_texts X tbl) (map (fun o : nat * said => sd_frame (snd o)) order) texts).
  { subst texts. clear - Hr' Sy. induction order as [|[i x] order IH]; constructor.
    - cbn [fst snd]. destruct (Hr' i x (or_introl eq_refl)) as (R1 & B & _). destruct (Sy i x (or_introl eq_refl)) as (w & _ & M). split; [|exact B].
      eapply timestamp_says; eauto.
    - apply IH; intros j y I; [apply (Sy j)|apply (Hr' j)]; now right. }
  assert (E : text_output X Y tbl colors segs host_segs locs dir skipped show verbose (combine times (map EvFrame (map (fun o : nat * said => sd_frame (snd o)) order))) =
    Ok (map (fun s => Stdout (s ++ [10])) ls)).
  { apply (output_ok X Y tbl colors segs host_segs locs dir skipped show verbose _ texts); [exact Dt|now rewrite map_length|]. exists ls. split; [|reflexivity].
    subst texts. clear - Fl. induction Fl as [|[i x] s order ls H Fl IH]; [constructor|]. cbn [map combine]. constructor; [exact H|exact IH]. }
  exists (map (fun s => Stdout (s ++ [10])) ls). split; [exact E|]. apply lines_out.
Qed.

Theorem terminal_format : forall X Y addr tbl colors segs host_segs locs dir skipped show verbose size msg progs items k run who,
  programs_ok msg progs -> Forall calm progs -> 2 <= size -> table_safe tbl -> t_encoding tbl = k ->
  (forall i ts, nth_error progs i = Some ts -> Forall2 (says addr tbl) (spoken msg ts) (items i)) ->
  (forall i x, In x (items i) -> says_statement X tbl (sd_time_args x) (sd_args x) (sd_frame x) (sd_time x) (sd_message x) /\ byte_text (sd_time x) /\
     exists s, line_of Y colors segs locs dir x = Ok s) ->
  device_boot size progs (run O) -> device_fair size k msg run who ->
  exists n, forall chunks hs, concat chunks = RttModel.r_delivered (d_chan (run n)) -> Forall some_bytes chunks ->
    exists order evs ls, (forall i x, In (i, x) order -> (i < length progs)%nat) /\
      (forall i, (i < length progs)%nat -> items i = of_context i order) /\
      defmt_print false false Stdin (Loads tbl) (HostSpec.reads chunks ++ Read (Ok []) :: hs) = (map (Event tbl) evs, Finished true) /\
      Forall2 (fun o s => line_of Y colors segs locs dir (snd o) = Ok s) order ls /\
      forall times, length times = length order -> exists o,
        print_events verbose X tbl locs dir skipped show (no_clock (text_sink Y colors segs host_segs verbose)) (combine times evs) = Ok o /\
        stderr_of o = [] /\ stdout_of o = as_lines ls.
Proof.
  intros X Y addr tbl colors segs host_segs locs dir skipped show verbose size msg progs items k run who Hok Hc Hs Ht Hk Hi Hr Hb Hf.
  destruct (everything_arrives size k msg progs run who Hok Hc Hs Hb Hf) as (n & F & _ & D). exists n. intros chunks hs C Hb'.
  assert (R : device_reaches size k msg progs (run n)).
  { exists (run O). split; auto. clear - Hf. induction n as [|n IH]; [constructor|]. econstructor; [exact IH|]. destruct Hf as (H & _). apply H. }
  destruct (frames_in_the_end addr tbl k size msg progs items Hok Ht Hk Hi false (run n) chunks hs R Hc F D C Hb') as (order & In1 & Sy & O2 & Run).
  assert (Hr' : forall i x, In (i, x) order -> says_statement X tbl (sd_time_args x) (sd_args x) (sd_frame x) (sd_time x) (sd_message x) /\ byte_text (sd_time x) /\
     exists s, line_of Y colors segs locs dir x = Ok s).
  { intros i x I. apply (Hr i). rewrite (O2 i (In1 i x I)). now apply in_of_context. }
  destruct (order_printed X Y addr tbl colors segs host_segs locs dir skipped show verbose order Sy Hr') as (ls & Fl & P).
  exists order, (frames_of order), ls. repeat (split; [assumption|]). exact P.
Qed.

(** At any moment: complete statements, those of each context in order. *)
Theorem format_so_far : forall X Y addr tbl colors segs host_segs locs dir skipped show verbose size msg progs items k,
  programs_ok msg progs -> table_safe tbl -> t_encoding tbl = k ->
  (forall i ts, nth_error progs i = Some ts -> Forall2 (says addr tbl) (spoken msg ts) (items i)) ->
  (forall i x, In x (items i) -> says_statement X tbl (sd_time_args x) (sd_args x) (sd_frame x) (sd_time x) (sd_message x) /\ byte_text (sd_time x) /\
     exists s, line_of Y colors segs locs dir x = Ok s) ->
  forall d chunks s, k = EncRzcobs \/ Forall calm progs -> device_reaches size k msg progs d -> concat chunks = RttModel.r_delivered (d_chan d) ->
  s <> Stdin \/ Forall some_bytes chunks ->
  exists order evs buf ls, (forall i x, In (i, x) order -> (i < length progs)%nat) /\
    (forall i, (i < length progs)%nat -> exists more, items i = of_context i order ++ more) /\
    defmt_print false false s (Loads tbl) (HostSpec.reads chunks) = (map (Event tbl) evs, Running tbl buf) /\
    Forall2 (fun o s => line_of Y colors segs locs dir (snd o) = Ok s) order ls /\
    forall times, length times = length order -> exists o,
      print_events verbose X tbl locs dir skipped show (no_clock (text_sink Y colors segs host_segs verbose)) (combine times evs) = Ok o /\
      stderr_of o = [] /\ stdout_of o = as_lines ls.
Proof.
  intros X Y addr tbl colors segs host_segs locs dir skipped show verbose size msg progs items k Hok Ht Hk Hi Hr d chunks s Cm R C Hs.
  destruct (frames_so_far addr tbl k size msg progs items Hok Ht Hk Hi false d chunks s Cm R C Hs) as (order & buf & In1 & Sy & O2 & Run).
  assert (Hr' : forall i x, In (i, x) order -> says_statement X tbl (sd_time_args x) (sd_args x) (sd_frame x) (sd_time x) (sd_message x) /\ byte_text (sd_time x) /\
     exists s, line_of Y colors segs locs dir x = Ok s).
  { intros i x I. apply (Hr i). destruct (O2 i (In1 i x I)) as (more & ->). apply in_or_app. left. now apply in_of_context. }
  destruct (order_printed X Y addr tbl colors segs host_segs locs dir skipped show verbose order Sy Hr') as (ls & Fl & P).
  exists order, (frames_of order), buf, ls. repeat (split; [assumption|]). exact P.
Qed.
