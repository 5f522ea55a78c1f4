(** The device of [DeviceModel] with late and reordered stores: everything that it does is done by the
    device with the sequential channel (C64). *)
From Verif Require Import Base RzcobsModel DecoderModel LoggerModel DeviceModel DeviceProofs WeakModel WeakProofs WeakMain.
From Verif Require RttModel RttProofs.

Record weak_device := MkWeakDevice { wd_sys : sys; wd_caller : option nat; wd_chan : weak }.

Section Device.
  Context (size : Z) (k : encoding) (msg : option (list task)).

  (** As [DeviceModel.device_step]; the memory takes part as well. *)
  Inductive weak_device_step : weak_device -> weak_device -> Prop :=
  | WStep_context i s s' o rest ls emitted ops caller r b :
      nth_error (ctxs s) i = Some (MkCtx (o :: rest) ls) ->
      (caller = Some i -> returned r) ->
      step Rtt k msg i s = Some s' ->
      out s' = out s ++ emitted -> calls o emitted ops ->
      weak_device_step (MkWeakDevice s caller (MkWeak r b))
        (MkWeakDevice s' (match ops with [] => caller | _ => Some i end) (MkWeak (call r ops) b))
  | WStep_channel s c w w' : weak_step size true w w' -> weak_device_step (MkWeakDevice s c w) (MkWeakDevice s c w').

  Inductive weak_device_runs : weak_device -> weak_device -> Prop :=
  | WDevice_start d : weak_device_runs d d
  | WDevice_step d d' d'' : weak_device_runs d d' -> weak_device_step d' d'' -> weak_device_runs d d''.

  Definition weak_device_reaches (progs : list (list task)) (d : weak_device) : Prop :=
    exists d0, device_boot size progs d0 /\ weak_device_runs (MkWeakDevice (d_sys d0) (d_caller d0) (MkWeak (d_chan d0) [])) d.

  Lemma apply_call : forall l s ops, apply_all (call s ops) l = call (apply_all s l) ops.
  Proof. induction l as [|e l IH]; intros s ops; cbn [apply_all]; auto. rewrite <- IH. destruct e; reflexivity. Qed.

  Definition well (w : weak) : Prop := exists D, fine size D w.

  Lemma weak_to_sequential : forall progs d, weak_device_reaches progs d ->
    well (wd_chan d) /\
    exists h, newer size (RttModel.r_read (view (wd_chan d))) (RttModel.r_host (view (wd_chan d))) h /\
      device_reaches size k msg progs (MkDevice (wd_sys d) (wd_caller d) (RttModel.set_host (view (wd_chan d)) h)).
  Proof.
    intros progs d (d0 & B & R). remember (MkWeakDevice (d_sys d0) (d_caller d0) (MkWeak (d_chan d0) [])) as w0 eqn:E0.
    induction R as [w|w0 d d' R IH St].
    - subst w. cbn [wd_sys wd_caller wd_chan]. destruct B as (B1 & B2 & B3 & B4).
      split; [exists []; exact (start_fine size _ _ B3 B4)|].
      exists RttModel.HIdle. unfold view. cbn [apply_all k_shared k_buffer].
      destruct B3 as (S1 & S2 & S3 & S4 & S5 & S6 & S7). rewrite S6. split; [exact I|].
      exists d0. split; [repeat split; auto; apply S2|].
      replace (RttModel.set_host (d_chan d0) RttModel.HIdle) with (d_chan d0) by (destruct (d_chan d0); cbn in *; now subst).
      destruct d0. constructor.
    - destruct (IH E0) as ((D & F) & h & N & d1 & B1 & R1). clear IH.
      destruct St as [i s s' o rest ls emitted ops caller r b E W St Eo Ca|s c w w' St]; cbn [wd_sys wd_caller wd_chan] in *.
      + unfold view in *. cbn [k_shared k_buffer] in *. rewrite apply_call. split.
        * exists (D ++ RttModel.data ops). destruct F as ((F1 & F2 & F3 & F4) & u & V). split.
          { repeat split; auto; apply F1 || apply F2. }
          exists u. unfold view in *. cbn [k_shared k_buffer] in *. rewrite apply_call. now apply inv_call.
        * exists h. cbn [call RttModel.r_read RttModel.r_host]. split; [exact N|]. exists d1. split; [exact B1|].
          eapply Device_step; [exact R1|].
          refine (Step_context size k msg i s s' o rest ls emitted ops caller _ E _ St Eo Ca).
          intros Q. destruct (W Q) as (W1 & W2). destruct (apply_fields b r) as (_ & _ & A1 & A2 & _). split; cbn; congruence.
      + destruct (weak_is_lax size D w w' F St) as (F' & [Q|L]); (split; [exists D; exact F'|]).
        * exists h. rewrite Q. split; [exact N|]. exists d1. auto.
        * destruct (lax_simulated size _ _ h L N) as (h' & N' & T). exists h'. split; [exact N'|]. exists d1. split; [exact B1|].
          remember (RttModel.set_host (view w) h) as x eqn:Ex. remember (RttModel.set_host (view w') h') as x' eqn:Ex'.
          destruct T as [y|y y' T].
          { eapply Device_step; [exact R1|]. constructor. }
          { eapply Device_step; [exact R1|]. apply Step_host. exact T. }
  Qed.

  Theorem weak_device_sequential : forall progs wd, weak_device_reaches progs wd ->
    exists d, device_reaches size k msg progs d /\ d_sys d = wd_sys wd /\ d_caller d = wd_caller wd /\
      RttModel.r_delivered (d_chan d) = RttModel.r_delivered (k_shared (wd_chan wd)) /\
      RttModel.r_dev (d_chan d) = RttModel.r_dev (k_shared (wd_chan wd)) /\ RttModel.r_ops (d_chan d) = RttModel.r_ops (k_shared (wd_chan wd)).
  Proof.
    intros progs wd R. destruct (weak_to_sequential progs wd R) as (_ & h & _ & D). eexists. split; [exact D|].
    cbn [d_sys d_caller d_chan RttModel.set_host RttModel.r_delivered RttModel.r_dev RttModel.r_ops].
    rewrite view_delivered, view_pc, view_ops. auto.
  Qed.
End Device.
