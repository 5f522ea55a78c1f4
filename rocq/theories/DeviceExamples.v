(** A device with two contexts and a buffer of four bytes. *)
From Verif Require Import Base Utf8 ParserModel DecoderModel DecoderPanic DecoderExamples EncodeModel EncodeSpec EncodeTop EncodeExamples DisplayModel DisplayExamples StreamModel RzcobsModel
  LogFormatModel LogFormatSpec LogFormatExamples SinkModel SinkSpec SinkMain SinkExamples HostModel HostSpec
  LoggerModel LoggerSpec LoggerMain DeviceModel DeviceSpec DeviceProofs DeviceLive DeviceRun DeviceMain.
From Verif Require RttModel.

Definition dev_items (i : nat) : list said :=
  match i with
  | O => [MkSaid 1 [AvPrim (VNum 5000)] [AvPrim (VNum 200); AvPrim (VText (lit "a""b"))]
            (MkFrame (Some LWarn) 1 (Some (lit "{=u64:us}")) [AUxx 5000] (lit "x = {=u8} {=str}") [AUxx 200; AStr (lit "a""b")]) (lit "0.005000") (lit "x = 200 a""b")]
  | S O => [MkSaid 2 [AvPrim (VNum 5001)] [] (MkFrame None 2 (Some (lit "{=u64:us}")) [AUxx 5001] (lit "hi") []) (lit "0.005001") (lit "hi")]
  | _ => []
  end.

(** Context 0 logs in two pieces and flushes; context 1 logs once. *)
Definition dev_progs : list (list task) :=
  match map (@concat Z) sink_writes with
  | [w1; w2] => [[TLog [TWrite (firstn 3 w1); TWork; TWrite (skipn 3 w1)]; TLog [TFlush]]; [TWork; TLog [TWrite w2]]]
  | _ => []
  end.

Definition dev_start : device := MkDevice (boot Rtt dev_progs) None (RttModel.MkRtt [9; 9; 9; 9] 2 2 true RttModel.DNext [] RttModel.HIdle []).
Definition dev_run : nat -> device := device_turns 4 EncRzcobs None dev_start.


Lemma dev_ok : programs_ok None dev_progs.
Proof. split; [repeat constructor|discriminate]. Qed.
Lemma dev_calm : Forall calm dev_progs.
Proof. repeat constructor. Qed.
Lemma dev_boots : device_boot 4 dev_progs dev_start.
Proof. repeat split; cbn; lia. Qed.

Lemma dev_says : forall i ts, nth_error dev_progs i = Some ts -> Forall2 (says sink_addr sink_prog) (spoken None ts) (dev_items i).
Proof.
  pose proof sink_means as M. inversion M as [|? ? ? ? M1 M']; subst. inversion M' as [|? ? ? ? M2 _]; subst.
  intros [|[|[|i]]] ts E; try (cbn in E; discriminate); injection E as <-.
  - constructor; [|constructor]. split; [vm_compute; reflexivity|exact M1].
  - constructor; [|constructor]. split; [vm_compute; reflexivity|exact M2].
Qed.

Lemma dev_readable : forall i x, In x (dev_items i) -> readable D0 Y0 sink_prog x.
Proof.
  pose proof sink_printed as P. inversion P as [|? ? ? ? P1 P']; subst. inversion P' as [|? ? ? ? P2 _]; subst.
  pose proof sink_ordinary as O. inversion O as [|? ? O1 O']; subst. inversion O' as [|? ? O2 _]; subst.
  intros [|[|i]] x H; cbn [dev_items In] in H; try contradiction; destruct H as [<-|[]].
  - split; [exact P1|]. split; [exact O1|]. split; [vm_compute; repeat constructor; discriminate|vm_compute; discriminate].
  - split; [exact P2|]. split; [exact O2|]. split; [vm_compute; repeat constructor; discriminate|vm_compute; discriminate].
Qed.

Lemma dev_fair : device_fair 4 EncRzcobs None dev_run (turn_of 4 EncRzcobs None dev_start).
Proof. apply (device_turns_fair 4 EncRzcobs None dev_progs); [exact dev_ok|lia|exact dev_boots]. Qed.

Lemma dev_reaches : forall n, device_reaches 4 EncRzcobs None dev_progs (dev_run n).
Proof.
  intros n. exists dev_start. split; [exact dev_boots|]. induction n as [|n IH]; [constructor|]. econstructor; [exact IH|]. destruct dev_fair as (H & _). apply H.
Qed.

(** In the middle the first message is on its way; in the end both lines are shown. *)
Lemma dev_middle : RttModel.r_delivered (d_chan (dev_run 200)) = firstn 10 (out (d_sys (dev_run 200))) /\ length (out (d_sys (dev_run 200))) = 11%nat /\
  owner (d_sys (dev_run 200)) = Some 0%nat /\ next_op (d_sys (dev_run 200)) 1 = Some OEnter.
Proof. vm_compute. auto. Qed.

Lemma dev_end : finished (d_sys (dev_run 500)) /\ RttModel.r_delivered (d_chan (dev_run 500)) = out (d_sys (dev_run 500)) /\
  fst (defmt_print false false Stdin (Loads sink_prog) (HostSpec.reads (map (fun b => [b]) (RttModel.r_delivered (d_chan (dev_run 500)))) ++ [Read (Ok [])])) =
    map (Event sink_prog) (map EvFrame (map sd_frame (dev_items 0 ++ dev_items 1))) /\
  map (line_for sink_prog) (dev_items 0 ++ dev_items 1) = [lit "0.005000 WARN  x = 200 a""b"; lit "hi"].
Proof.
  split; [|split; [|split]]; try (vm_compute; reflexivity). intros c H. vm_compute in H. destruct H as [<-|[<-|[]]]; reflexivity.
Qed.

(** The flush of context 0 returns. *)
Lemma dev_flush : exists r0, RttModel.r_dev (d_chan (dev_run 264)) = RttModel.DFlushW r0 /\
  device_step 4 EncRzcobs None Channel (dev_run 264) (dev_run 265) /\ RttModel.r_dev (d_chan (dev_run 265)) = RttModel.DNext /\
  length (out (d_sys (dev_run 265))) = 13%nat.
Proof.
  eexists. split; [vm_compute; reflexivity|]. split; [|split; vm_compute; reflexivity].
  destruct dev_fair as (H & _). specialize (H 264%nat). exact H.
Qed.

(** The same device with the raw encoding. *)
Definition raw_prog : table := MkTable (t_timestamp sink_prog) (t_entries sink_prog) (t_bitflags sink_prog) EncRaw.
Definition raw_dev : nat -> device := device_turns 4 EncRaw None dev_start.

Lemma raw_dev_fair : device_fair 4 EncRaw None raw_dev (turn_of 4 EncRaw None dev_start).
Proof. apply (device_turns_fair 4 EncRaw None dev_progs); [exact dev_ok|lia|exact dev_boots]. Qed.

Lemma raw_dev_end : finished (d_sys (raw_dev 600)) /\ RttModel.r_delivered (d_chan (raw_dev 600)) = concat (map (@concat Z) sink_writes) /\
  length (RttModel.r_delivered (d_chan (raw_dev 400))) = 21%nat /\
  fst (defmt_print false false Tcp (Loads raw_prog) (HostSpec.reads [RttModel.r_delivered (d_chan (raw_dev 400))])) =
    map (Event raw_prog) (map EvFrame (map sd_frame (dev_items 0))) /\
  fst (defmt_print false false Stdin (Loads raw_prog) (HostSpec.reads (map (fun b => [b]) (RttModel.r_delivered (d_chan (raw_dev 600)))) ++ [Read (Ok [])])) =
    map (Event raw_prog) (map EvFrame (map sd_frame (dev_items 0 ++ dev_items 1))).
Proof.
  split; [|split; [|split; [|split]]]; try (vm_compute; reflexivity). intros c H. vm_compute in H. destruct H as [<-|[<-|[]]]; reflexivity.
Qed.
