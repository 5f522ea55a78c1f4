(** Property C64: the RTT channel when stores reach the memory late and out of order. *)
From Verif Require Import Base Utf8 ParserModel DecoderModel DecoderPanic EncodeModel EncodeSpec DisplayModel RzcobsModel StreamModel
  LogFormatModel LogFormatSpec LogFormatBuiltin Prop_LogFormat SymbolModel LocationModel SinkModel SinkSpec SinkMain HostModel HostSpec
  LoggerModel LoggerSpec LoggerMain DeviceModel DeviceSpec DeviceProofs DeviceMain WeakModel WeakProofs WeakMain WeakExamples WeakDevice.
From Verif Require RttModel RttProofs RttGone.

(** C64.  Whatever order the stores take: the host can see only bytes that were written, in order. *)
Theorem C64_lossless : forall size s ops k, RttModel.start size s ops -> RttModel.r_connected s = true ->
  weak_steps size true (MkWeak s []) k ->
  exists seen unseen, Z.of_nat (length seen) = (RttModel.r_write (k_shared k) - RttModel.r_read (k_shared k)) mod size /\
    RttProofs.holds size (RttModel.r_mem (k_shared k)) (RttModel.r_read (k_shared k)) seen /\
    RttModel.r_delivered (k_shared k) ++ seen ++ unseen ++ RttProofs.pending (RttModel.r_dev (k_shared k)) ++
      RttModel.data (RttModel.r_ops (k_shared k)) = RttModel.data ops.
Proof. exact weak_lossless. Qed.
Print Assumptions C64_lossless.

(** Every such run is, for the device and for what the host gets, a run of the channel with
    sequential memory. *)
Theorem C64_sequential : forall size s ops k, RttModel.start size s ops -> RttModel.r_connected s = true ->
  weak_steps size true (MkWeak s []) k ->
  exists s', RttModel.steps size false s s' /\ RttModel.r_dev s' = RttModel.r_dev (k_shared k) /\ RttModel.r_ops s' = RttModel.r_ops (k_shared k) /\
    RttModel.r_read s' = RttModel.r_read (k_shared k) /\ RttModel.r_delivered s' = RttModel.r_delivered (k_shared k).
Proof.
  intros size s ops k S C T. destruct (weak_simulated size s ops k S C T) as (h & _ & R). eexists. split; [exact R|].
  cbn [RttModel.set_host RttModel.r_dev RttModel.r_ops RttModel.r_read RttModel.r_delivered].
  rewrite view_pc, view_ops, view_read, view_delivered. auto.
Qed.
Print Assumptions C64_sequential.

Theorem C64_no_fault : forall size s ops k, RttModel.start size s ops -> RttModel.r_connected s = true ->
  weak_steps size true (MkWeak s []) k -> RttModel.r_dev (k_shared k) <> RttModel.DFault.
Proof. exact weak_no_fault. Qed.
Print Assumptions C64_no_fault.

(** A flush still waits until the host has got everything. *)
Theorem C64_flush : forall size s ops k, RttModel.start size s ops -> RttModel.r_connected s = true ->
  weak_steps size true (MkWeak s []) k -> forall r0, RttModel.r_dev (k_shared k) = RttModel.DFlushW r0 ->
  RttModel.r_dev (k_shared (weak_dev size k)) = RttModel.DNext ->
  RttModel.r_delivered (k_shared k) ++ RttModel.data (RttModel.r_ops (k_shared k)) = RttModel.data ops.
Proof. exact weak_flush_waits. Qed.
Print Assumptions C64_flush.

(** And the device is not past a flush before. *)
Theorem C64_passed : forall size s before after k, RttModel.start size s (before ++ RttModel.OFlush :: after) ->
  RttModel.r_connected s = true -> weak_steps size true (MkWeak s []) k ->
  ((exists before', RttModel.r_ops (k_shared k) = before' ++ RttModel.OFlush :: after) \/
   (RttModel.r_ops (k_shared k) = after /\
    (RttModel.r_dev (k_shared k) = RttModel.DFlushR \/ exists r, RttModel.r_dev (k_shared k) = RttModel.DFlushW r))) \/
  exists more, RttModel.r_delivered (k_shared k) = RttModel.data before ++ more.
Proof.
  intros size s before after k S C T. destruct (C64_sequential size s _ k S C T) as (s' & R & <- & <- & _ & <-).
  exact (RttGone.flush_passed size s before after s' S C R).
Qed.
Print Assumptions C64_passed.

(** Every fair run delivers everything, and fair runs exist. *)
Theorem C64_all_delivered : forall size, 2 <= size -> forall run ops,
  RttModel.start size (k_shared (run O)) ops -> RttModel.r_connected (k_shared (run O)) = true -> k_buffer (run O) = [] ->
  weak_fair size true run ->
  exists n, RttModel.r_dev (k_shared (run n)) = RttModel.DNext /\ RttModel.r_ops (k_shared (run n)) = [] /\
    RttModel.r_delivered (k_shared (run n)) = RttModel.data ops.
Proof. exact weak_all_delivered. Qed.
Print Assumptions C64_all_delivered.

Theorem C64_fair_exists : forall size, 2 <= size -> forall s ops, RttModel.start size s ops -> RttModel.r_connected s = true ->
  exists run, run O = MkWeak s [] /\ weak_fair size true run.
Proof. intros size H s ops S C. exists (slow size s). split; [exact (slow_starts size s ops S)|exact (slow_fair size H s ops S C)]. Qed.
Print Assumptions C64_fair_exists.

(** The [Release] of the store is needed: with [Relaxed], bytes are delivered that were never
    written. *)
Theorem C64_release_needed : exists size s ops k, RttModel.start size s ops /\ RttModel.r_connected s = true /\
  weak_steps size false (MkWeak s []) k /\ forall more, RttModel.r_delivered (k_shared k) ++ more <> RttModel.data ops.
Proof.
  destruct relaxed_fails as (k & T & D). exists 4, weak_ex_start, weak_ex_ops, k. split; [exact weak_ex_starts|].
  split; [reflexivity|]. split; [exact T|]. intros more. rewrite D. discriminate.
Qed.
Print Assumptions C64_release_needed.

Example C64_ex : RttModel.start 4 weak_ex_start weak_ex_ops /\ exists k, weak_steps 4 true (MkWeak weak_ex_start []) k /\
  RttModel.r_mem (k_shared k) = [1; 2; 9; 9] /\ RttModel.r_write (k_shared k) = 1 /\ k_buffer k = [SOffset 2] /\ RttModel.r_delivered (k_shared k) = [1].
Proof. split; [exact weak_ex_starts|exact weak_ex_run]. Qed.

(** The device with contexts and logger: what it logs and what arrives is possible with sequential
    memory too; so C60 holds. *)
Theorem C64_device : forall size k msg progs wd, weak_device_reaches size k msg progs wd ->
  exists d, device_reaches size k msg progs d /\ d_sys d = wd_sys wd /\ d_caller d = wd_caller wd /\
    RttModel.r_delivered (d_chan d) = RttModel.r_delivered (k_shared (wd_chan wd)) /\
    RttModel.r_dev (d_chan d) = RttModel.r_dev (k_shared (wd_chan wd)) /\ RttModel.r_ops (d_chan d) = RttModel.r_ops (k_shared (wd_chan wd)).
Proof. exact weak_device_sequential. Qed.
Print Assumptions C64_device.

Theorem C64_terminal : forall X Y addr tbl host_segs locs current_dir skipped size msg progs items k,
  programs_ok msg progs -> table_safe tbl -> t_encoding tbl = k -> external_ok Y -> wide_enough Y ->
  (forall i ts, nth_error progs i = Some ts -> Forall2 (says addr tbl) (spoken msg ts) (items i)) ->
  (forall i x, In x (items i) -> DeviceSpec.readable X Y tbl x) ->
  forall wd chunks s, k = EncRzcobs \/ Forall calm progs -> weak_device_reaches size k msg progs wd ->
  concat chunks = RttModel.r_delivered (k_shared (wd_chan wd)) ->
  s <> Stdin \/ Forall some_bytes chunks ->
  exists order evs buf, (forall i x, In (i, x) order -> (i < length progs)%nat) /\
    (forall i, (i < length progs)%nat -> exists more, items i = of_context i order ++ more) /\
    defmt_print false false s (Loads tbl) (HostSpec.reads chunks) = (map (Event tbl) evs, Running tbl buf) /\
    forall times, length times = length order -> exists o,
      print_events false X tbl locs current_dir skipped false
        (no_clock (text_sink Y false (builtin_segments FDefault false (match t_timestamp tbl with Some _ => true | None => false end) false) host_segs false))
        (combine times evs) = Ok o /\ stderr_of o = [] /\
      stdout_of o = as_lines (map (fun o => line_for tbl (snd o)) order).
Proof.
  intros X Y addr tbl host_segs locs current_dir skipped size msg progs items k H1 H2 H3 H4 H5 H6 H7 wd chunks s Cm R E Q.
  destruct (weak_device_sequential _ _ _ _ _ R) as (d & D & _ & _ & Ed & _). rewrite <- Ed in E.
  exact (shown_so_far X Y addr tbl host_segs locs current_dir skipped size msg progs items k H1 H2 H3 H4 H5 H6 H7 d chunks s Cm D E Q).
Qed.
Print Assumptions C64_terminal.
