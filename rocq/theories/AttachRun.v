(** Every session can go on fairly. *)
From Verif Require Import Base RzcobsModel DecoderModel LoggerModel LoggerSpec LoggerProofs LoggerMain DeviceModel DeviceProofs DeviceLive DeviceRun AttachModel AttachProofs AttachLife AttachLive.
From Verif Require RttModel RttProofs RttLive.

Lemma iter_shift : forall (A : Type) (f : A -> A) n x, Nat.iter (S n) f x = Nat.iter n f (f x).
Proof. intros A f n x. induction n as [|n IH]; [reflexivity|]. cbn [Nat.iter nat_rect] in *. unfold Nat.iter in *. cbn [nat_rect] in *. now rewrite IH. Qed.

Section Run.
  Context (size : Z) (k : encoding) (msg : option (list task)) (progs : list (list task)).
  Context (Hok : programs_ok msg progs) (Hsize : 2 <= size).

  Lemma sound_unpadded : forall lost d, sound size k msg progs (padded lost d) -> RttModel.r_connected (d_chan d) = true ->
    exists D u, RttProofs.inv size D (d_chan d) u.
  Proof.
    intros lost d H C. apply sound_padded in H as (_ & u & [Im Iw Ir Ic Iu Ih Id Iv It]). eexists. exists u. constructor; auto.
  Qed.

  Definition channel (d : device) : device := with_chan d (RttModel.dev_step size false (d_chan d)).

  Lemma channel_step : forall d, session_step size k msg Channel d (channel d).
  Proof. intros [s c r]. apply Session_device; [discriminate|]. apply Step_channel. Qed.

  Lemma channel_calms : forall b S c d, (Z.to_nat (RttLive.cost (RttModel.r_dev (d_chan d))) < c)%nat -> RttModel.r_connected (d_chan d) = true ->
    in_session size k msg progs b S d -> exists n lost, RttModel.r_connected (d_chan (Nat.iter n channel d)) = true /\ sound size k msg progs (padded lost (Nat.iter n channel d)).
  Proof.
    intros b S. induction c as [|c IH]; intros d L C I; [lia|]. pose proof I as I0. destruct I as [l Es Lo P Nd Dl|y x Es Hy Sd]; [|exists O, (b ++ y); split; [exact C|exact Sd]].
    pose proof (session_inv size k msg progs Hok b S _ _ _ (channel_step d) C I0) as I1.
    pose proof (loose_cost _ _ _ _ _ Lo Nd) as LC. pose proof (loose_cost_nonneg _ _ _ _ _ Lo) as NN.
    assert (C1 : RttModel.r_connected (d_chan (channel d)) = true) by (rewrite (session_connected _ _ _ _ _ _ (channel_step d)); exact C).
    pose proof I1 as I2. destruct I1 as [l' Es' Lo' P' Nd' Dl'|y x Es' Hy Sd'].
    - destruct (IH (channel d)) as (n & lost & A & B); auto.
      { pose proof (loose_cost_nonneg _ _ _ _ _ Lo'). cbn [channel with_chan d_chan] in *. lia. }
      exists (Datatypes.S n), lost. rewrite iter_shift. auto.
    - exists 1%nat, (b ++ y). cbn [Nat.iter]. auto.
  Qed.

  Theorem session_exists : forall d1, lives size k msg progs d1 -> RttModel.r_connected (d_chan d1) = false ->
    exists run who, run O = attach d1 /\ session_fair size k msg run who.
  Proof.
    intros d1 Lv C. destruct (session_state size k msg progs Hok d1 (attach d1) Lv C) as (b & S & _ & I); [constructor|].
    destruct (channel_calms b S _ (attach d1) (Nat.lt_succ_diag_r _) eq_refl I) as (n0 & lost & C0 & Sd). set (d2 := Nat.iter n0 channel (attach d1)) in *.
    assert (Inv : forall n, RttModel.r_connected (d_chan (device_turns size k msg d2 n)) = true /\ sound size k msg progs (padded lost (device_turns size k msg d2 n))).
    { induction n as [|n [A B]]; [auto|]. pose proof (take_turn_step size k msg (Nat.modulo n 3) (device_turns size k msg d2 n)) as T. cbn [device_turns].
      split; [rewrite (connected_step _ _ _ _ _ _ T); exact A|]. apply (sound_step size k msg progs Hok _ _ _ (padded_step size k msg lost _ _ _ T (or_intror (or_introl A))) B). }
    assert (Tf : device_fair size k msg (device_turns size k msg d2) (turn_of size k msg d2)).
    { apply inv_turns_fair; auto. intros n. destruct (Inv n) as [A B]. eapply sound_unpadded; eauto. }
    set (run := fun n => if Nat.ltb n n0 then Nat.iter n channel (attach d1) else device_turns size k msg d2 (n - n0)).
    set (who := fun n => if Nat.ltb n n0 then Channel else turn_of size k msg d2 (n - n0)).
    assert (Late : forall n, (n0 <= n)%nat -> run n = device_turns size k msg d2 (n - n0) /\ who n = turn_of size k msg d2 (n - n0)).
    { intros n L. unfold run, who. replace (Nat.ltb n n0) with false by (symmetry; apply Nat.ltb_ge; lia). auto. }
    assert (St : forall n, session_step size k msg (who n) (run n) (run (Datatypes.S n))).
    { intros n. destruct (Nat.lt_ge_cases n n0) as [L|L].
      - assert (E : run (Datatypes.S n) = channel (run n)).
        { unfold run. replace (Nat.ltb n n0) with true by (symmetry; apply Nat.ltb_lt; lia). destruct (Nat.ltb (Datatypes.S n) n0) eqn:Q; [reflexivity|].
          apply Nat.ltb_ge in Q. assert (n0 = Datatypes.S n) by lia. replace (Datatypes.S n - n0)%nat with O by lia. cbn [device_turns]. unfold d2. rewrite H. reflexivity. }
        rewrite E. unfold who. replace (Nat.ltb n n0) with true by (symmetry; apply Nat.ltb_lt; lia). apply channel_step.
      - destruct (Late n L) as [-> ->]. destruct (Late (Datatypes.S n) ltac:(lia)) as [-> _]. replace (Datatypes.S n - n0)%nat with (Datatypes.S (n - n0)) by lia.
        destruct Tf as (T & _). specialize (T (n - n0)%nat). destruct (Inv (n - n0)%nat) as [A B].
        destruct (turn_of size k msg d2 (n - n0)) eqn:Q; try (apply Session_device; [discriminate|exact T]).
        apply Session_host; auto. eapply steady_waits; eauto. }
    exists run, who. split.
    - unfold run. destruct (Nat.ltb 0 n0) eqn:Q; [reflexivity|]. apply Nat.ltb_ge in Q. assert (n0 = O) by lia. unfold d2. subst n0. reflexivity.
    - split; [exact St|]. split; [intros n; destruct (St n); auto|]. destruct Tf as (_ & FC & FH & FX). split; [|split].
      + intros n. destruct (FC n) as (m & L & Q). exists (n0 + m)%nat. split; [lia|]. destruct (Late (n0 + m)%nat ltac:(lia)) as [_ ->]. replace (n0 + m - n0)%nat with m by lia. exact Q.
      + intros n. destruct (FH n) as (m & w & got & L & Q). exists (n0 + m)%nat, w, got. split; [lia|]. destruct (Late (n0 + m)%nat ltac:(lia)) as [-> ->].
        destruct (Late (Datatypes.S (n0 + m)) ltac:(lia)) as [-> _]. replace (Datatypes.S (n0 + m) - n0)%nat with (Datatypes.S m) by lia. replace (n0 + m - n0)%nat with m by lia. exact Q.
      + intros n. destruct (FX n) as (m & L & Q). exists (n0 + m)%nat. split; [lia|]. destruct (Late (n0 + m)%nat ltac:(lia)) as [-> ->]. replace (n0 + m - n0)%nat with m by lia. exact Q.
  Qed.
End Run.
