(** From a test suite to the terminal and the exit code. *)
From Verif Require Import LoggerModel LoggerSpec LoggerProofs LoggerMain.
From Verif Require Import Base Utf8 Numerals FormatSpec ParserModel DecoderModel DecoderPanic EncodeModel EncodeSpec EncodeProofs EncodeTop DisplayModel TextSpec TextMain MacroModel MacroSpec MacroProofs
  HarnessModel HarnessSpec HarnessProofs HarnessMain RzcobsModel StreamModel StreamSpec StreamProofs SinkSpec SinkMain HostModel HostSpec HostProofs
  DeviceSpec SuiteModel SuiteSpec.

(* ------------------------------------------------------------------ *)
(** * The bytes *)

(** One context that finishes: its messages in order. *)
Lemma single_out : forall lg k msg ts s, programs_ok msg [ts] -> calm ts -> reachable lg k msg [ts] s -> finished s ->
  out s = transmitted k (LoggerMain.messages ts).
Proof.
  intros lg k msg ts s P C R F. destruct (calm_delivered lg k msg [ts] P (Forall_cons _ C (Forall_nil _)) s R F) as (_ & _ & _ & hist & E & B & H).
  rewrite E. f_equal. rewrite <- (H O ts eq_refl). clear - B. unfold by_ctx. induction hist as [|[i w] hist IH]; [reflexivity|].
  assert (L : (i < 1)%nat) by (eapply (B i w); left; reflexivity). assert (i = 0%nat) by lia. subst i. cbn [map filter fst snd Nat.eqb]. f_equal.
  apply IH. intros i' w' I. eapply B. right. exact I.
Qed.

Lemma raw_written : forall ws, concat (map raw_frame_chunks ws) = concat (map (@concat Z) (written_frames ws)).
Proof.
  unfold written_frames. induction ws as [|w ws IH]; [reflexivity|]. cbn [map concat filter]. rewrite IH.
  assert (E : raw_frame_chunks w = concat w).
  { unfold raw_frame_chunks, raw_start_frame, raw_end_frame. cbn [app]. rewrite app_nil_r. f_equal. unfold raw_write. apply map_id. }
  rewrite E. destruct (concat w) as [|c r] eqn:Q; [reflexivity|]. cbn [map concat]. now rewrite Q.
Qed.

Lemma transmitted_shown : forall t ws frs s, table_safe t -> Forall2 (frame_decodes t) (written_frames ws) frs -> s = transmitted (t_encoding t) ws ->
  exists r, host_run (t_encoding t) t [] [s] = (map EvFrame frs, Waiting r).
Proof.
  intros t ws frs s S F H. destruct (t_encoding t) eqn:K; cbn [transmitted] in H.
  - exists []. rewrite <- K. apply (sent_shown t (written_frames ws)); auto. unfold sent. rewrite K, H. apply raw_written.
  - apply (host_shows t ws None frs [s] S); [|cbn [concat transmitted]; rewrite app_nil_r; exact H].
    unfold frame_decodes in F. rewrite K in F. exact F.
Qed.

(* ------------------------------------------------------------------ *)
(** * The texts *)

Section Texts.
  Context (X : externals) (addr : bytes -> Z) (tbl : table) (enabled : level -> bool).
  Context {W : Type} (apply : bytes -> bool -> W -> W * ended) (talk : bytes -> bool -> W -> list utterance) (own : bytes -> bool -> W -> list message).
  Notation reads := (MacroSpec.reads X addr tbl).

  (** A statement with its meaning and texts. *)
  Definition heard (x : said) : Prop :=
    frame_means addr tbl (sd_index x) (sd_time_args x) (sd_args x) (sd_frame x) /\
    says_statement X tbl (sd_time_args x) (sd_args x) (sd_frame x) (sd_time x) (sd_message x).

  Lemma heard_reads : forall x, heard x -> reads (f_format (sd_frame x)) (sd_args x) (sd_message x).
  Proof.
    intros x [(_ & _ & _ & (tys & A & M) & _) [(frags & E & S) _]]. exists frags, tys, (f_args (sd_frame x)). auto.
  Qed.

  Lemma heard_line : forall x, heard x -> line_of X tbl (sd_frame x) (qemu_line X tbl x).
  Proof.
    intros x [F S]. destruct (timestamp_says X addr tbl _ _ _ _ _ _ F S) as [T M]. unfold line_of, display_frame, qemu_line.
    unfold SinkModel.timestamp_text, display_timestamp in T. destruct F as (_ & _ & _ & _ & F). destruct (t_timestamp tbl) as [e|].
    - destruct F as [F _]. rewrite F in *. destruct (format_args X tbl (e_string e) (f_timestamp_args (sd_frame x)) None) as [s|]; [|discriminate].
      injection T as ->. rewrite M. cbn [concat_text]. eexists. split; [reflexivity|]. rewrite <- !app_assoc.
      destruct (f_level (sd_frame x)) as [[]|]; cbn [level_name app]; rewrite ?app_nil_r; rewrite <- ?app_assoc; reflexivity.
    - destruct F as [F _]. rewrite F in *. rewrite M. cbn [concat_text]. eexists. split; [reflexivity|].
      destruct (f_level (sd_frame x)) as [[]|]; cbn [level_name app]; rewrite ?app_nil_r; rewrite <- ?app_assoc; reflexivity.
  Qed.

  Definition owns : Prop := forall f st w,
    Forall2 (fun u m => fst (fst u) = fst m /\ reads (snd (fst u)) (snd u) (snd m)) (talk f st w) (own f st w).

  Context (Howns : owns).

  Lemma spoken_message : forall l f args x s, speaks (l, f, args) x -> heard x -> reads f args s -> message_of x = (l, s).
  Proof.
    intros l f args x s (<- & <- & <-) H R. unfold message_of. f_equal. eapply reads_unique; [apply heard_reads; exact H|exact R].
  Qed.

  Lemma own_messages : forall us ms xs, Forall2 (fun u m => fst (fst u) = fst m /\ reads (snd (fst u)) (snd u) (snd m)) us ms ->
    Forall2 speaks us xs -> Forall heard xs -> map message_of xs = ms.
  Proof.
    intros us ms xs F. revert xs. induction F as [|u m us ms [E R] F IH]; intros xs S H; inversion S; subst; [reflexivity|].
    inversion H; subst. cbn [map]. f_equal; [|auto]. destruct u as [[l f] args], m as [lm s]. cbn [fst snd] in *. subst lm. eapply spoken_message; eauto.
  Qed.

  Definition ends_like (handler : exit_status) (v : verdict) : option exit_status :=
    match v with Succeeds => Some (Exit 0) | Stops => Some handler | Sticks => None end.

  Context (Hi : linked addr tbl (lit "{=istr}")) (He : linked addr tbl []) (Hs : linked addr tbl (lit "`#[should_error]` ")).

  Lemma performs_shows : forall handler ss w evs, performs X addr tbl enabled apply ss w evs ->
    (forall f b w w' r, In (Judge f b) ss -> apply (f_name f) (with_state f) w = (w', Returns r) -> ~ judged_ok r b -> exists s, returned_text X addr tbl r s) ->
    forall xs, Forall2 speaks (flat_map (uttered talk) evs) xs -> Forall heard xs ->
    evs <> [] /\ exists v, shows X addr tbl enabled apply own ss w (map message_of xs) v /\ how_ends handler evs = ends_like handler v /\
      (In (Exited W) evs <-> v = Succeeds).
  Proof.
    intros handler ss w evs P. induction P as [s ss w f args evs R P IH|f ss w w' r evs A P IH|f ss w w' e A Q|f b ss w w' r evs A J P IH|f b ss w w' r l A J L|f b ss w w' e A Q|w];
      intros T xs S H; (split; [discriminate|]).
    - cbn [flat_map uttered app] in S. inversion S as [|? x ? xs' Sx Sr]; subst. inversion H; subst.
      destruct (IH ltac:(intros; eapply T; [right|..]; eauto) _ Sr ltac:(assumption)) as (Ne & v & Sh & Ho & In1). exists v. cbn [map].
      rewrite (spoken_message None f args x s) by auto. split; [now constructor|]. split; [destruct evs; [congruence|exact Ho]|].
      cbn [In]. rewrite <- In1. split; [intros [Q|Q]; [discriminate|exact Q]|auto].
    - cbn [flat_map uttered] in S. apply Forall2_app_inv_l in S as (x1 & x2 & S1 & S2 & ->). apply Forall_app in H as [H1 H2].
      destruct (IH ltac:(intros; eapply T; [right|..]; eauto) _ S2 H2) as (Ne & v & Sh & Ho & In1). exists v. rewrite map_app.
      rewrite (own_messages _ _ _ (Howns _ _ _) S1 H1). split; [econstructor; eauto|]. split; [destruct evs; [congruence|exact Ho]|].
      cbn [In]. rewrite <- In1. split; [intros [Q|Q]; [discriminate|exact Q]|auto].
    - cbn [flat_map uttered] in S. rewrite app_nil_r in S. rewrite (own_messages _ _ _ (Howns _ _ _) S H).
      destruct Q as [->| ->]; [exists Stops|exists Sticks]; (split; [eapply Sh_do_stops; [exact A|reflexivity]|]); (split; [reflexivity|]);
        (split; [intros [Q|[]]; discriminate|discriminate]).
    - cbn [flat_map uttered] in S. apply Forall2_app_inv_l in S as (x1 & x2 & S1 & S2 & ->). apply Forall_app in H as [H1 H2].
      destruct (IH ltac:(intros; eapply T; [right|..]; eauto) _ S2 H2) as (Ne & v & Sh & Ho & In1). exists v. rewrite map_app.
      rewrite (own_messages _ _ _ (Howns _ _ _) S1 H1). split; [eapply Sh_passes; eauto|]. split; [destruct evs; [congruence|exact Ho]|].
      cbn [In]. rewrite <- In1. split; [intros [Q|Q]; [discriminate|exact Q]|auto].
    - cbn [flat_map uttered] in S. apply Forall2_app_inv_l in S as (x1 & x2 & S1 & S2 & ->). apply Forall_app in H as [H1 H2].
      exists Stops. rewrite map_app, (own_messages _ _ _ (Howns _ _ _) S1 H1). split.
      + eapply Sh_fails; [exact A|exact J|]. unfold failure_message, failure_logged in *. destruct (enabled LError).
        * destruct L as (f' & args & -> & R). destruct (T f b w w' r (or_introl eq_refl) A J) as [s Rs]. exists s. split; [exact Rs|].
          assert (R' : reads f' args (quoted ((if b then lit "`#[should_error]` " else []) ++ lit "test failed with outcome: " ++ s)))
            by (apply R; auto; destruct b; auto).
          cbn [map app flat_map] in S2. inversion S2 as [|? x ? xs' Sx Sr]; subst. inversion Sr; subst. inversion H2; subst. cbn [map].
          rewrite (spoken_message (Some LError) f' args x _ Sx ltac:(assumption) R'). unfold quoted. rewrite <- !app_assoc. reflexivity.
        * subst l. cbn [map app flat_map] in S2. inversion S2; subst. reflexivity.
      + split; [reflexivity|]. split; [intros [Q|[Q|[]]]; discriminate|discriminate].
    - cbn [flat_map uttered] in S. rewrite app_nil_r in S. rewrite (own_messages _ _ _ (Howns _ _ _) S H).
      destruct Q as [->| ->]; [exists Stops|exists Sticks]; (split; [eapply Sh_stops; [exact A|reflexivity]|]); (split; [reflexivity|]);
        (split; [intros [Q|[]]; discriminate|discriminate]).
    - cbn [flat_map uttered] in S. inversion S; subst. exists Succeeds. split; [constructor|]. split; [reflexivity|]. split; [reflexivity|left; reflexivity].
  Qed.
End Texts.

Lemma says_decodes : forall addr tbl ws xs, Forall2 (says addr tbl) ws xs -> Forall2 (frame_decodes tbl) ws (map sd_frame xs).
Proof.
  intros addr tbl ws xs F. induction F as [|w x ws xs [E M] F IH]; constructor; auto.
  assert (D : decode tbl (concat w) = Ok (sd_frame x, length (concat w))).
  { rewrite E. rewrite <- (app_nil_r (encode_frame _ _ _ _ _ _)) at 1. apply decode_frame. exact M. }
  unfold frame_decodes. destruct (t_encoding tbl); [exact D|eexists; exact D].
Qed.

Theorem suite_terminal : forall cfg X addr tbl enabled W (apply : bytes -> bool -> W -> W * ended) talk own m o u w msg ts xs s handler status pieces last rest,
  table_safe tbl -> linked addr tbl (lit "{=istr}") -> linked addr tbl [] -> linked addr tbl (lit "`#[should_error]` ") ->
  tests_impl true m = Ok o -> suite_of cfg m u ->
  Forall (fun f => no_braces (f_name f)) (u_tests u) -> Z.of_nat (length (u_tests u)) < 2 ^ 32 ->
  owns X addr tbl talk own ->
  (forall f w w' r, In f (u_tests u) -> apply (f_name f) (with_state f) w = (w', Returns r) -> exists s, returned_text X addr tbl r s) ->
  let evs := run_main cfg enabled apply o w in
  Forall2 speaks (flat_map (uttered talk) evs) xs ->
  Forall (fun x => says_statement X tbl (sd_time_args x) (sd_args x) (sd_frame x) (sd_time x) (sd_message x)) xs ->
  programs_ok msg [ts] -> calm ts -> Forall2 (says addr tbl) (written_frames (LoggerMain.messages ts)) xs ->
  reachable Semihosting (t_encoding tbl) msg [ts] s -> finished s ->
  how_ends handler evs = Some status -> qemu_output pieces last rest = out s ->
  exists ss v, actual_script u ss /\ shows X addr tbl enabled apply own ss w (map message_of xs) v /\
    qemu_run X tbl (qemu_turns pieces last status rest) =
      (map (qemu_line X tbl) xs, Some match v with Succeeds => 0 | _ => match handler with Exit c => c | Signal _ => 0 end end) /\
    (v = Succeeds <-> flawless evs) /\
    (v = Succeeds -> forall f, In f (u_tests u) -> ~ marked f "ignore" -> passed evs f).
Proof.
  intros cfg X addr tbl enabled W apply talk own m o u w msg ts xs s handler status pieces last rest St Hi He Hs Hm Hu Hb Hn Ho Hr evs Hx Ht Hp Hc Hw Hre Hf Hend Hout.
  assert (Hd : Forall (heard X addr tbl) xs).
  { clear - Ht Hw. induction Hw as [|w x ws xs [_ M] F IH]; constructor; inversion Ht; subst; [split; assumption|auto]. }
  destruct (run_performs cfg X addr tbl enabled apply m o u w Hm Hu Hb Hn) as (ss & (ts0 & T & Ess) & P). fold evs in P.
  destruct (performs_shows X addr tbl enabled apply talk own Ho Hi He Hs handler ss w evs P) with (xs := xs) as (_ & v & Sh & En & In1); auto.
  { intros f b w1 w2 r J A _. eapply Hr; [|exact A]. rewrite Ess, !in_app_iff in J.
    assert (Nh : forall h, ~ In (Judge f b) (do_hook h)) by (intros [h|] Q; [destruct Q as [Q|[]]; discriminate|destruct Q]).
    destruct J as [J|[J|[[J|[]]|[J|[J|[]]]]]]; try discriminate; try (exfalso; eapply Nh; exact J).
    clear - T J Nh. induction T as [|k f0 fs ss0 rest Ts T IH]; [destruct J|]. apply in_app_iff in J as [J|J]; [|right; auto]. left.
    inversion Ts; subst.
    - destruct J as [J|J]; [discriminate|]. destruct J as [J|[]]. discriminate.
    - destruct J as [J|J]; [discriminate|]. rewrite !in_app_iff in J. destruct J as [J|[J|J]]; try (exfalso; eapply Nh; exact J).
      destruct J as [J|[]]. injection J as <- _. reflexivity. }
  exists ss, v. split; [exists ts0; auto|]. split; [exact Sh|].
  destruct (run_verdict cfg X addr tbl enabled apply m o u w Hm Hu Hb Hn) as [V1 V2]. fold evs in V1, V2.
  split; [|split].
  - destruct (transmitted_shown tbl (LoggerMain.messages ts) (map sd_frame xs) (out s) St (says_decodes _ _ _ _ Hw) (single_out _ _ _ _ _ Hp Hc Hre Hf)) as [r E].
    rewrite <- Hout in E. rewrite (qemu_prints X tbl pieces last status rest _ (map (qemu_line X tbl) xs) r E).
    + f_equal. f_equal. rewrite En in Hend. destruct v; cbn [ends_like] in Hend; try discriminate; injection Hend as <-; reflexivity.
    + clear - Hd. induction Hd; constructor; auto. eapply heard_line; eauto.
  - rewrite <- V1. symmetry. exact In1.
  - intros Q. apply V2. left. apply In1. exact Q.
Qed.

Theorem suite_exit_code : forall cfg X addr tbl enabled W (apply : bytes -> bool -> W -> W * ended) talk own m o u w msg ts xs s c status pieces last rest,
  table_safe tbl -> linked addr tbl (lit "{=istr}") -> linked addr tbl [] -> linked addr tbl (lit "`#[should_error]` ") ->
  tests_impl true m = Ok o -> suite_of cfg m u ->
  Forall (fun f => no_braces (f_name f)) (u_tests u) -> Z.of_nat (length (u_tests u)) < 2 ^ 32 ->
  owns X addr tbl talk own ->
  (forall f w w' r, In f (u_tests u) -> apply (f_name f) (with_state f) w = (w', Returns r) -> exists s, returned_text X addr tbl r s) ->
  let evs := run_main cfg enabled apply o w in
  Forall2 speaks (flat_map (uttered talk) evs) xs ->
  Forall (fun x => says_statement X tbl (sd_time_args x) (sd_args x) (sd_frame x) (sd_time x) (sd_message x)) xs ->
  programs_ok msg [ts] -> calm ts -> Forall2 (says addr tbl) (written_frames (LoggerMain.messages ts)) xs ->
  reachable Semihosting (t_encoding tbl) msg [ts] s -> finished s ->
  c <> 0 -> how_ends (Exit c) evs = Some status -> qemu_output pieces last rest = out s ->
  exists ls code, qemu_run X tbl (qemu_turns pieces last status rest) = (ls, Some code) /\
    (code = 0 <-> flawless evs) /\ (code = 0 -> forall f, In f (u_tests u) -> ~ marked f "ignore" -> passed evs f).
Proof.
  intros cfg X addr tbl enabled W apply talk own m o u w msg ts xs s c status pieces last rest St Hi He Hs Hm Hu Hb Hn Ho Hr evs Hx Ht Hp Hc Hw Hre Hf Nc Hend Hout.
  destruct (suite_terminal cfg X addr tbl enabled W apply talk own m o u w msg ts xs s (Exit c) status pieces last rest St Hi He Hs Hm Hu Hb Hn Ho Hr Hx Ht Hp Hc Hw Hre Hf Hend Hout)
    as (ss & v & _ & _ & E & V & P).
  assert (Q : match v with Succeeds => 0 | _ => c end = 0 <-> v = Succeeds) by (destruct v; split; congruence || auto).
  eexists. eexists. split; [exact E|]. split; [rewrite Q; exact V|]. intros Z0. apply P, Q, Z0.
Qed.
