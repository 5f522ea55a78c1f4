(** In a fair session everything arrives that was logged after attaching. *)
From Verif Require Import Base RzcobsModel DecoderModel LoggerModel LoggerSpec LoggerProofs LoggerMain DeviceModel DeviceProofs DeviceLive AttachModel AttachProofs AttachLife.
From Verif Require RttModel RttProofs RttLive.

Lemma loose_cost : forall size D r b l, loose size D r b l -> RttModel.r_dev r <> RttModel.DNext ->
  RttLive.cost (RttModel.r_dev (RttModel.dev_step size false r)) < RttLive.cost (RttModel.r_dev r).
Proof.
  intros size D r b l L N. destruct L as [Lm Lr Lw Li Ld Lv]. assert (Bw : 0 <= RttModel.r_write r < size) by (rewrite Lw; apply Z.mod_pos_bound; lia).
  apply RttLive.nonblocking_dev; auto; try lia.
  - unfold RttLive.wild_inv. repeat split; try lia.
    destruct (RttModel.r_dev r) as [|[|] bs|bs|bs [r0|]|[|] bs cursor len k|[|] bs cursor len| |r0|]; try contradiction; auto; unfold storing in Lv; destruct Lv as (A & B & C & E & _); repeat split; lia.
  - destruct (RttModel.r_dev r) as [|[|] bs|bs|bs [r0|]|[|] bs cursor len k|[|] bs cursor len| |r0|]; try contradiction; cbn; auto; [apply Lv| |]; split; auto; destruct Lv as (_ & _ & ? & _); lia.
Qed.

Lemma loose_cost_nonneg : forall size D r b l, loose size D r b l -> 0 <= RttLive.cost (RttModel.r_dev r).
Proof.
  intros size D r b l [_ _ _ _ _ Lv]. destruct (RttModel.r_dev r) as [|[|] bs|bs|bs [r0|]|[|] bs cursor len k|[|] bs cursor len| |r0|]; try contradiction; cbn [RttLive.cost]; try lia;
    destruct Lv as (A & B & C & E & _); lia.
Qed.

Section Live.
  Context (size : Z) (k : encoding) (msg : option (list task)) (progs : list (list task)) (run : nat -> device) (who : nat -> mover).
  Context (Hok : programs_ok msg progs) (Hcalm : Forall calm progs) (Hsize : 2 <= size).
  Context (Hfair : session_fair size k msg run who) (Hconn : RttModel.r_connected (d_chan (run O)) = true).
  Context (b S0 : bytes) (Hin : in_session size k msg progs b S0 (run O)).

  Lemma always : forall n, RttModel.r_connected (d_chan (run n)) = true /\ in_session size k msg progs b S0 (run n).
  Proof.
    destruct Hfair as (H & _). induction n as [|n [A B]]; auto. split; [rewrite (session_connected _ _ _ _ _ _ (H n)); exact A|]. eapply session_inv; eauto.
  Qed.

  Definition calm_at (n : nat) : Prop := exists y x, S0 = (b ++ y) ++ x /\ (Z.of_nat (length S0) - Z.of_nat (length b) < size -> y = []) /\ sound size k msg progs (padded (b ++ y) (run n)).

  (** The cost of the write in progress does not grow. *)
  Lemma cost_step : forall n, calm_at n \/ calm_at (S n) \/
    (RttLive.cost (RttModel.r_dev (d_chan (run (S n)))) <= RttLive.cost (RttModel.r_dev (d_chan (run n))) /\
     (who n = Channel -> RttLive.cost (RttModel.r_dev (d_chan (run (S n)))) < RttLive.cost (RttModel.r_dev (d_chan (run n)))) /\
     0 <= RttLive.cost (RttModel.r_dev (d_chan (run (S n))))).
  Proof.
    intros n. destruct (always n) as [C I]. destruct (always (S n)) as [_ I']. destruct I as [l Es L P Nd Dl|y x Es Hy Sd]; [|left; exists y, x; auto].
    destruct I' as [l' Es' L' P' Nd' Dl'|y x Es' Hy Sd]; [|right; left; exists y, x; auto]. right. right.
    pose proof (loose_cost_nonneg _ _ _ _ _ L') as NN. destruct Hfair as (H & _). specialize (H n).
    pose proof (loose_cost _ _ _ _ _ L Nd) as LC. remember (who n) as m eqn:Qm. remember (run n) as d0 eqn:Q2. remember (run (S n)) as d1 eqn:Q3.
    destruct H as [m d d' Nh H|d d' _ T _]; [|destruct (loose_trimming _ _ _ _ _ L); congruence].
    destruct H as [i s s' o rest ls emitted ops caller r E W St Eo Ca|s c r|s c r r' Hs|d]; cbn [d_chan call RttModel.r_dev] in *.
    - split; [lia|]. split; [discriminate|exact NN].
    - split; [lia|]. split; [intros _; exact LC|exact NN].
    - congruence.
    - split; [lia|]. split; [discriminate|exact NN].
  Qed.

  Lemma cost_until : forall n j, (exists m, calm_at m) \/ RttLive.cost (RttModel.r_dev (d_chan (run (n + j)))) <= RttLive.cost (RttModel.r_dev (d_chan (run n))).
  Proof.
    intros n. induction j as [|j [IH|IH]]; [right; rewrite Nat.add_0_r; lia|auto|].
    rewrite Nat.add_succ_r. destruct (cost_step (n + j)) as [A|[A|(A & _)]]; eauto. right. lia.
  Qed.

  Lemma becomes_calm_from : forall c n, (Z.to_nat (RttLive.cost (RttModel.r_dev (d_chan (run n)))) < c)%nat -> exists m, calm_at m.
  Proof.
    induction c as [|c IH]; intros n Lt; [lia|]. destruct Hfair as (_ & _ & FC & _). destruct (FC n) as (m & Lm & Q).
    destruct (cost_until n (m - n)) as [A|A]; [exact A|]. replace (n + (m - n))%nat with m in A by lia.
    destruct (cost_step m) as [B|[B|(_ & B & B0)]]; eauto. specialize (B Q). apply (IH (S m)). lia.
  Qed.

  Lemma becomes_calm : exists m, calm_at m.
  Proof. exact (becomes_calm_from _ O (Nat.lt_succ_diag_r _)). Qed.

  Theorem session_arrives : exists n lost x, S0 = lost ++ x /\ (Z.of_nat (length S0) - Z.of_nat (length b) < size -> lost = b) /\ finished (d_sys (run n)) /\ returned (d_chan (run n)) /\
    out (d_sys (run n)) = lost ++ RttModel.r_delivered (d_chan (run n)).
  Proof.
    destruct becomes_calm as (n0 & y & x & Es & Hy & Sd). destruct Hfair as (HS & H & FC & FH & FX).
    destruct (everything_arrives_sound size k msg progs (fun j => padded (b ++ y) (run (n0 + j))) (fun j => who (n0 + j)) Hok Hcalm Hsize) as (n & F & R & D).
    - rewrite Nat.add_0_r. exact Sd.
    - split; [|split; [|split]].
      + intros n. rewrite Nat.add_succ_r. apply padded_step; auto. right. left. apply always.
      + intros n. destruct (FC (n0 + n)%nat) as (m & L & Q). exists (m - n0)%nat. replace (n0 + (m - n0))%nat with m by lia. split; [lia|exact Q].
      + intros n. destruct (FH (n0 + n)%nat) as (m & w & got & L & Q1 & Q2 & Q3 & Q4). exists (m - n0)%nat, w, got.
        replace (n0 + S (m - n0))%nat with (S m) by lia. replace (n0 + (m - n0))%nat with m by lia. split; [lia|]. auto.
      + intros n. destruct (FX (n0 + n)%nat) as (m & L & [Q|Q]); exists (m - n0)%nat; replace (n0 + (m - n0))%nat with m by lia; (split; [lia|]); auto.
        right. intros i (d' & St). apply (Q i). clear - St. destruct (run m) as [s c r]. inversion St as [i0 s0 s' o rest ls emitted ops caller r0 E W St' Eo Ca| | |]; subst.
        eexists. exact (Step_context size k msg i s s' o rest ls emitted ops c r E W St' Eo Ca).
    - exists (n0 + n)%nat, (b ++ y), x. split; [exact Es|]. split; [intros Q; now rewrite (Hy Q), app_nil_r|]. split; [exact F|]. split; [exact R|]. symmetry. exact D.
  Qed.
End Live.

Theorem late_arrives : forall size k msg progs run who d1, programs_ok msg progs -> Forall calm progs -> 2 <= size ->
  lives size k msg progs d1 -> RttModel.r_connected (d_chan d1) = false -> run O = attach d1 -> session_fair size k msg run who ->
  exists n lost x, lost ++ x ++ RttModel.data (RttModel.r_ops (d_chan d1)) = out (d_sys d1) /\
    finished (d_sys (run n)) /\ returned (d_chan (run n)) /\ out (d_sys (run n)) = lost ++ RttModel.r_delivered (d_chan (run n)).
Proof.
  intros size k msg progs run who d1 Hok Hc Hs Lv C E0 Hf. destruct (session_state size k msg progs Hok d1 (attach d1) Lv C) as (b & S & E & I); [constructor|].
  rewrite <- E0 in I. destruct (session_arrives size k msg progs run who Hok Hc Hs Hf) with (b := b) (S0 := S) as (n & lost & x & -> & _ & F & R & D); auto.
  { rewrite E0. reflexivity. }
  exists n, lost, x. rewrite app_assoc. auto.
Qed.

Theorem early_arrives : forall size k msg progs run who d0 d1, programs_ok msg progs -> Forall calm progs -> 2 <= size ->
  reset size progs d0 -> session size k msg d0 d1 -> Z.of_nat (length (out (d_sys d1))) < size -> run O = attach d1 -> session_fair size k msg run who ->
  exists n, finished (d_sys (run n)) /\ returned (d_chan (run n)) /\ out (d_sys (run n)) = RttModel.r_delivered (d_chan (run n)).
Proof.
  intros size k msg progs run who d0 d1 Hok Hc Hs Rs Se Sm E0 Hf. destruct (early_state size k msg progs Hok d0 d1 (attach d1) Rs Se) as (S & E & I); [constructor|].
  rewrite <- E0 in I. destruct (session_arrives size k msg progs run who Hok Hc Hs Hf) with (b := @nil Z) (S0 := S) as (n & lost & x & Es & Nl & F & R & D); auto.
  { rewrite E0. reflexivity. }
  exists n. rewrite Nl in D; auto. rewrite <- E, app_length in Sm. cbn [length]. lia.
Qed.
