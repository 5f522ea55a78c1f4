(** A device of which a context panics: outside of a log statement, and inside one. *)
From Verif Require Import Base Utf8 ParserModel DecoderModel DecoderPanic DecoderExamples EncodeModel EncodeSpec EncodeTop EncodeExamples DisplayModel DisplayExamples StreamModel RzcobsModel
  LogFormatModel LogFormatSpec LogFormatExamples SinkModel SinkSpec SinkMain SinkExamples HostModel HostSpec
  LoggerModel LoggerSpec LoggerMain DeviceModel DeviceSpec DeviceProofs DeviceLive DeviceRun DeviceMain DeviceExamples HaltModel HaltProofs HaltLive HaltRun HaltMain.
From Verif Require RttModel.

(** Context 0 logs, enters a critical section and panics there; the message is [hi].  Context 1 would
    log, too, but does not get the core any more. *)
Definition halt_msg : option (list task) :=
  match map (@concat Z) sink_writes with [_; w2] => Some [TWrite w2] | _ => None end.
Definition halt_progs : list (list task) :=
  match map (@concat Z) sink_writes with
  | [w1; w2] => [[TLog [TWrite w1]; TEnter; TPanic; TLeave; TLog [TWrite w1]]; [TWork; TLog [TWrite w1]]]
  | _ => []
  end.
Definition halt_items (i : nat) : list said :=
  match i with O => dev_items 0 ++ dev_items 1 | S O => dev_items 0 | _ => [] end.

Definition halt_start : device := MkDevice (boot Rtt halt_progs) None (RttModel.MkRtt [9; 9; 9; 9] 2 2 true RttModel.DNext [] RttModel.HIdle []).
Definition halt_run : nat -> device := core_turns 4 EncRzcobs halt_msg core_free halt_start.
Definition halt_who : nat -> mover := core_who 4 EncRzcobs halt_msg core_free halt_start.

Lemma halt_ok : programs_ok halt_msg halt_progs.
Proof. split; [repeat constructor|]. intros body H. injection H as <-. repeat constructor. Qed.
Lemma halt_brave : Forall brave halt_progs.
Proof. repeat constructor. Qed.
Lemma halt_calm : forall body, halt_msg = Some body -> calm_body body.
Proof. intros body H. injection H as <-. repeat constructor. Qed.
Lemma halt_boots : device_boot 4 halt_progs halt_start.
Proof. repeat split; cbn; lia. Qed.

Lemma halt_says : forall i ts, nth_error halt_progs i = Some ts -> Forall2 (says sink_addr sink_prog) (spoken halt_msg ts) (halt_items i).
Proof.
  pose proof sink_means as M. inversion M as [|? ? ? ? M1 M']; subst. inversion M' as [|? ? ? ? M2 _]; subst.
  intros [|[|[|i]]] ts E; try (cbn in E; discriminate); injection E as <-.
  - constructor; [split; [vm_compute; reflexivity|exact M1]|]. constructor; [split; [vm_compute; reflexivity|exact M2]|constructor].
  - constructor; [|constructor]. split; [vm_compute; reflexivity|exact M1].
Qed.

Lemma halt_readable : forall i x, In x (halt_items i) -> readable D0 Y0 sink_prog x.
Proof.
  intros [|[|i]] x H; cbn [halt_items] in H; [|exact (dev_readable 0 x H)|contradiction]. apply in_app_or in H as [H|H]; [exact (dev_readable 0 x H)|exact (dev_readable 1 x H)].
Qed.

Lemma halt_fair : core_fair 4 EncRzcobs halt_msg halt_run halt_who /\ single_core halt_run halt_who.
Proof. apply (core_turns_fair 4 EncRzcobs halt_msg halt_progs); [exact halt_ok|repeat constructor|lia|exact halt_boots]. Qed.

Lemma halt_end : (exists t, panics_at halt_run halt_who t 0) /\ next_op (d_sys (halt_run 500)) 0 = Some OHalt /\ next_op (d_sys (halt_run 500)) 1 = Some OWork /\
  fst (defmt_print false false Stdin (Loads sink_prog) (HostSpec.reads (map (fun b => [b]) (RttModel.r_delivered (d_chan (halt_run 500)))) ++ [Read (Ok [])])) =
    map (Event sink_prog) (map EvFrame (map sd_frame (dev_items 0 ++ dev_items 1))) /\
  map (line_for sink_prog) (dev_items 0 ++ dev_items 1) = [lit "0.005000 WARN  x = 200 a""b"; lit "hi"].
Proof.
  split; [|repeat split; vm_compute; reflexivity].
  assert (exists t, (t < 500)%nat /\ panicked (d_sys (halt_run t)) = false /\ panicked (d_sys (halt_run (S t))) = true /\ halt_who t = Context 0).
  { pose (f := fun t => negb (panicked (d_sys (halt_run t))) && panicked (d_sys (halt_run (S t))) && match halt_who t with Context O => true | _ => false end).
    assert (G : existsb f (List.seq 0 400) = true) by (vm_compute; reflexivity). apply existsb_exists in G as (t & T & G). apply in_seq in T. exists t. unfold f in G.
    apply andb_prop in G as [G G3]. apply andb_prop in G as [G1 G2]. split; [lia|]. split; [now apply negb_true_iff|]. split; auto. destruct (halt_who t) as [[|]| | |]; congruence. }
  destruct H as (t & _ & A & B & C). exists t. split; auto.
Qed.

(** A panic in the user code of a log statement. *)
Definition inside_progs : list (list task) := [[TLog [TWrite [1]; TWork; TPanic]; TWork]; [TLog [TWrite [2]]]].

Definition inside_msg : option (list task) := Some [TWrite [3]].

Lemma inside_ex : exists s s1 s2 n, programs_ok inside_msg inside_progs /\ reachable Rtt EncRzcobs inside_msg inside_progs s /\
  next_op s 0 = Some OPanic /\ owner s = Some 0%nat /\ taken s = true /\
  step Rtt EncRzcobs inside_msg 0 s = Some s1 /\ runs Rtt EncRzcobs inside_msg n s1 s2 /\
  next_op s2 0 = Some OHalt /\ (forall i, step Rtt EncRzcobs inside_msg i s2 = None) /\ out s2 = [0; 1].
Proof.
  set (b := boot Rtt inside_progs).
  destruct (solo Rtt EncRzcobs inside_msg 0 7 b) as [s|] eqn:E; [|vm_compute in E; discriminate].
  destruct (step Rtt EncRzcobs inside_msg 0 s) as [s1|] eqn:E1; [|vm_compute in E; injection E as <-; vm_compute in E1; discriminate].
  destruct (solo Rtt EncRzcobs inside_msg 0 2 s1) as [s2|] eqn:E2; [|vm_compute in E; injection E as <-; vm_compute in E1; injection E1 as <-; vm_compute in E2; discriminate].
  exists s, s1, s2, 2%nat.
  split; [split; [repeat constructor|intros body H; injection H as <-; repeat constructor]|].
  split; [eexists; eapply (solo_runs _ _ _ 0); exact E|].
  assert (R : runs Rtt EncRzcobs inside_msg 2 s1 s2) by (eapply (solo_runs _ _ _ 0); exact E2).
  vm_compute in E; injection E as <-; vm_compute in E1; injection E1 as <-; vm_compute in E2; injection E2 as <-.
  do 3 (split; [vm_compute; reflexivity|]). split; [vm_compute; reflexivity|]. split; [exact R|]. split; [vm_compute; reflexivity|]. split; [|vm_compute; reflexivity].
  intros [|[|[|i]]]; vm_compute; reflexivity.
Qed.
