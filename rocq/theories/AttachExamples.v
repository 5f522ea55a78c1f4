(** Hosts that attach late to the device of [DeviceExamples]. *)
From Verif Require Import Base Utf8 ParserModel DecoderModel DecoderPanic DecoderExamples EncodeModel EncodeSpec EncodeTop EncodeExamples DisplayModel DisplayExamples StreamModel RzcobsModel
  LogFormatModel LogFormatSpec LogFormatExamples SinkModel SinkSpec SinkMain SinkExamples HostModel HostSpec
  LoggerModel LoggerSpec LoggerMain DeviceModel DeviceSpec DeviceProofs DeviceLive DeviceRun DeviceMain DeviceExamples AttachModel AttachRun AttachMain.
From Verif Require RttModel RttLive RttExamples.

(** Turns that are allowed in a session: [phases] as in [take_turn]. *)
Fixpoint session_turns (phases : list nat) (d : device) : option device :=
  match phases with
  | [] => Some d
  | p :: phases' =>
      if match p with S O => RttModel.r_connected (d_chan d) && negb (trimming (RttModel.r_dev (d_chan d))) | _ => true end
      then session_turns phases' (snd (take_turn 4 EncRzcobs None p d)) else None
  end.

Lemma session_trans : forall size k msg a b c, session size k msg a b -> session size k msg b c -> session size k msg a c.
Proof. intros size k msg a b c H1 H2. revert a H1. induction H2 as [d|m d d' d'' H2 IH St]; intros a H1; [exact H1|]. econstructor; [exact (IH a H1)|exact St]. Qed.

Lemma session_turns_ok : forall phases d d', session_turns phases d = Some d' -> session 4 EncRzcobs None d d'.
Proof.
  induction phases as [|p phases IH]; intros d d' H; cbn [session_turns] in H; [injection H as <-; constructor|].
  destruct (match p with S O => _ | _ => true end) eqn:G; [|discriminate]. apply IH in H.
  eapply session_trans; [|exact H]. pose proof (take_turn_step 4 EncRzcobs None p d) as St. apply (Session_step 4 EncRzcobs None (fst (take_turn 4 EncRzcobs None p d)) d d); [constructor|].
  destruct p as [|[|p]].
  - apply Session_device; [discriminate|exact St].
  - apply andb_true_iff in G as [G1 G2]. apply negb_true_iff in G2. destruct (fst (take_turn 4 EncRzcobs None 1 d)) eqn:Q; try (apply Session_device; [congruence|exact St]).
    apply Session_host; auto.
  - apply Session_device; [|exact St]. cbn [take_turn]. destruct (pick _ _ _ _ _) as [[i d0]|]; cbn [fst]; discriminate.
Qed.

Definition late_start : device := MkDevice (boot Rtt dev_progs) None (RttModel.MkRtt [9; 9; 9; 9] 2 2 false RttModel.DNext [] RttModel.HIdle []).

Fixpoint times (n : nat) (l : list nat) : list nat := match n with O => [] | S n' => l ++ times n' l end.
Definition after (o : option device) : device := match o with Some d => d | None => late_start end.

(** The host attaches while the write of the first message is overwriting its own beginning. *)
Definition late_before : device := after (session_turns (times 34 [0; 2]%nat) late_start).
Definition late_after : device := after (session_turns (times 5 [0]%nat ++ times 170 [0; 1; 2]%nat) (attach late_before)).

Lemma late_reset : reset 4 dev_progs late_start.
Proof. repeat split; cbn; lia. Qed.
Lemma late_session1 : session 4 EncRzcobs None late_start late_before.
Proof. apply (session_turns_ok (times 34 [0; 2]%nat)). vm_compute. reflexivity. Qed.
Lemma late_session2 : session 4 EncRzcobs None (attach late_before) late_after.
Proof. apply (session_turns_ok (times 5 [0]%nat ++ times 170 [0; 1; 2]%nat)). vm_compute. reflexivity. Qed.
Lemma late_lives : lives 4 EncRzcobs None dev_progs late_before.
Proof. eapply reset_lives; [exact late_reset|exact late_session1]. Qed.

Lemma late_seen : trimming (RttModel.r_dev (d_chan late_before)) = true /\
  out (d_sys late_before) = [0; 1; 136; 19; 114; 200; 3; 103; 97; 34; 98] /\
  finished (d_sys late_after) /\ RttModel.r_dev (d_chan late_after) = RttModel.DNext /\
  RttModel.r_delivered (d_chan late_after) = [97; 34; 98; 113; 0; 0; 2; 137; 19; 114; 127; 0] /\
  out (d_sys late_after) = [0; 1; 136; 19; 114; 200; 3; 103] ++ RttModel.r_delivered (d_chan late_after) /\
  fst (defmt_print false false Stdin (Loads sink_prog) (HostSpec.reads (map (fun b => [b]) (RttModel.r_delivered (d_chan late_after))) ++ [Read (Ok [])])) =
    map (Event sink_prog) (EvSkipped :: map EvFrame (map sd_frame (dev_items 1))).
Proof. repeat split; try (vm_compute; reflexivity). intros c H. vm_compute in H. destruct H as [<-|[<-|[]]]; reflexivity. Qed.

(** The same device, but the host attaches when three bytes have been logged. *)
Definition early_before : device := after (session_turns (times 20 [0; 2]%nat) late_start).
Definition early_after : device := after (session_turns (times 5 [0]%nat ++ times 170 [0; 1; 2]%nat) (attach early_before)).
Lemma early_session1 : session 4 EncRzcobs None late_start early_before.
Proof. apply (session_turns_ok (times 20 [0; 2]%nat)). vm_compute. reflexivity. Qed.
Lemma early_seen : length (out (d_sys early_before)) = 3%nat /\ finished (d_sys early_after) /\
  RttModel.r_delivered (d_chan early_after) = out (d_sys early_after) /\ length (out (d_sys early_after)) = 20%nat.
Proof. repeat split; try (vm_compute; reflexivity). intros c H. vm_compute in H. destruct H as [<-|[<-|[]]]; reflexivity. Qed.

(** A host that attaches in the middle of a write that does not wait, and reads before it has ended. *)
Definition race_ops : list RttModel.devop := [RttModel.OWrite [1; 2; 3]; RttModel.OWrite [4]; RttModel.OWrite [5; 6; 7]; RttModel.OFlush].
Definition race_start : RttModel.rtt := RttModel.MkRtt [9; 9; 9; 9] 0 0 false RttModel.DNext race_ops RttModel.HIdle [].

(** [true]: a step of the device, [false]: one of the host. *)
Fixpoint race (moves : list bool) (s : RttModel.rtt) : RttModel.rtt :=
  match moves with
  | [] => s
  | true :: moves' => race moves' (RttModel.dev_step 4 false s)
  | false :: moves' => race moves' (RttExamples.eager_host 4 s)
  end.

Lemma eager_host_step : forall s, match RttModel.r_host s with RttModel.HRead w got =>
    nth_error (RttModel.r_mem s) (Z.to_nat ((RttModel.r_read s + Z.of_nat (length got)) mod 4)) <> None | _ => True end ->
  RttModel.host_step 4 s (RttExamples.eager_host 4 s).
Proof.
  intros s H. unfold RttExamples.eager_host. destruct (RttModel.r_host s) as [|w got] eqn:E; [now constructor|].
  destruct (Z.of_nat (length got) <? (w - RttModel.r_read s) mod 4) eqn:L.
  - destruct (nth_error (RttModel.r_mem s) _) as [x|] eqn:N; [|congruence]. econstructor; eauto. lia.
  - unfold RttLive.consumed. eapply RttModel.host_store; eauto.
Qed.

Definition race_attach : RttModel.rtt := race (repeat true 13) race_start.
Definition race_end : RttModel.rtt := race (repeat false 4 ++ repeat true 14 ++ [false] ++ repeat true 2) (attached race_attach).

Lemma race_steps : forall moves s s' s0, RttModel.steps 4 false s0 s ->
  (fix ok (ms : list bool) (r : RttModel.rtt) : Prop := match ms with
     | [] => r = s'
     | true :: ms' => ok ms' (RttModel.dev_step 4 false r)
     | false :: ms' => match RttModel.r_host r with RttModel.HRead w got =>
         nth_error (RttModel.r_mem r) (Z.to_nat ((RttModel.r_read r + Z.of_nat (length got)) mod 4)) <> None | _ => True end /\ ok ms' (RttExamples.eager_host 4 r)
     end) moves s -> RttModel.steps 4 false s0 s'.
Proof.
  induction moves as [|[|] moves IH]; intros s s' s0 H G.
  - now subst.
  - apply (IH (RttModel.dev_step 4 false s) s' s0); [|exact G]. econstructor; [exact H|constructor].
  - destruct G as [G1 G2]. apply (IH (RttExamples.eager_host 4 s) s' s0); [|exact G2]. econstructor; [exact H|]. apply RttModel.step_host. now apply eager_host_step.
Qed.

Lemma race_runs : RttModel.start 4 race_start race_ops /\ RttModel.steps 4 false race_start race_attach /\ RttModel.steps 4 false (attached race_attach) race_end.
Proof.
  split; [repeat split; cbn; lia|]. split.
  - apply (race_steps (repeat true 13) race_start race_attach race_start); [constructor|]. vm_compute. reflexivity.
  - apply (race_steps (repeat false 4 ++ repeat true 14 ++ [false] ++ repeat true 2) (attached race_attach) race_end (attached race_attach)); [constructor|].
    vm_compute. repeat split; discriminate.
Qed.

Lemma race_lost : RttModel.r_ops race_attach = [RttModel.OWrite [5; 6; 7]; RttModel.OFlush] /\ trimming (RttModel.r_dev race_attach) = true /\ RttModel.r_dev race_end = RttModel.DNext /\ RttModel.r_ops race_end = [] /\ RttModel.r_host race_end = RttModel.HIdle /\ RttModel.r_read race_end = RttModel.r_write race_end /\ RttModel.r_delivered race_end = [1; 2; 3].
Proof. repeat split; vm_compute; reflexivity. Qed.
