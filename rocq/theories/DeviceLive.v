(** In every fair run of the device everything that the contexts log arrives at the host. *)
From Verif Require Import Base RzcobsModel DecoderModel LoggerModel LoggerSpec LoggerProofs LoggerMain DeviceModel DeviceProofs.
From Verif Require RttModel RttProofs RttLive RttExamples.

Lemma step_emits : forall lg k msg i s s', step lg k msg i s = Some s' -> exists emitted, out s' = out s ++ emitted.
Proof.
  intros lg k msg i s s' St. unfold step in St. destruct (nth_error (ctxs s) i) as [[[|o rest] ls]|]; try discriminate.
  destruct (exec k i o s ls) as [s1 ls1| |] eqn:X; try discriminate; injection St as <-; cbn [set_ctx set_panicked out]; [|exists []; now rewrite app_nil_r].
  destruct (writes_out o) eqn:Wo; [|exists []; rewrite app_nil_r; eapply exec_out; eauto].
  destruct s as [w t cc e b p cs]. destruct o; try discriminate; cbn [exec] in X.
  - destruct (enc_start k e). injection X as <- _. cbn [out]. eauto.
  - destruct (enc_write k e b0). injection X as <- _. cbn [out]. eauto.
  - destruct (enc_end k e). injection X as <- _. cbn [out]. eauto.
Qed.

Definition is_context (m : mover) : bool := match m with Context _ => true | _ => false end.

Section Live.
  Context (size : Z) (k : encoding) (msg : option (list task)) (progs : list (list task)) (run : nat -> device) (who : nat -> mover).
  Context (Hok : programs_ok msg progs) (Hsize : 2 <= size).
  Context (Hboot : sound size k msg progs (run O)).
  Context (run_steps : forall n, device_step size k msg (who n) (run n) (run (S n))).
  Context (FC : forall n, exists m, (n <= m)%nat /\ who m = Channel).
  Context (FH : forall n, exists m w got, (n <= m)%nat /\ RttModel.r_host (d_chan (run m)) = RttModel.HRead w got /\
    Z.of_nat (length got) = (w - RttModel.r_read (d_chan (run m))) mod size /\ who m = Host /\
    RttModel.r_host (d_chan (run (S m))) = RttModel.HIdle).

  Lemma run_sound : forall n, sound size k msg progs (run n).
  Proof. induction n as [|n IH]; [exact Hboot|]. eapply sound_step; eauto. Qed.

  Definition load (n : nat) : nat := total (ctxs (d_sys (run n))) + reserve Rtt msg (panicked (d_sys (run n))).

  Lemma step_quiet : forall n, is_context (who n) = false -> d_sys (run (S n)) = d_sys (run n) /\
    (d_chan (run (S n)) = d_chan (run n) \/ RttModel.step size false (d_chan (run n)) (d_chan (run (S n)))).
  Proof.
    intros n Q. pose proof (run_steps n) as H. remember (who n) as m eqn:Q1. remember (run n) as d0 eqn:Q2. remember (run (S n)) as d1 eqn:Q3. destruct H as [i s s' o rest ls emitted ops caller r E W St Eo Ca|s c r|s c r r' Hs|d];
      [discriminate| | |].
    - split; auto. right. constructor.
    - split; auto. right. now apply RttModel.step_host.
    - split; auto.
  Qed.

  Lemma step_context : forall n, is_context (who n) = true -> (load (S n) < load n)%nat.
  Proof.
    intros n Q. pose proof (run_steps n) as H. remember (who n) as m eqn:Q1. remember (run n) as d0 eqn:Q2. remember (run (S n)) as d1 eqn:Q3. destruct H as [i s s' o rest ls emitted ops caller r E W St Eo Ca|s c r|s c r r' Hs|d];
      try discriminate.
    unfold load. rewrite <- Q2, <- Q3. cbn [d_sys]. apply step_total in St. lia.
  Qed.

  Lemma load_step : forall n, (load (S n) <= load n)%nat.
  Proof. intros n. destruct (is_context (who n)) eqn:Q; [apply step_context in Q; lia|]. apply step_quiet in Q as [Q _]. unfold load. now rewrite Q. Qed.
  Lemma load_later : forall n j, (load (n + j) <= load n)%nat.
  Proof. intros n. induction j as [|j IH]; [rewrite Nat.add_0_r; auto|]. rewrite Nat.add_succ_r. pose proof (load_step (n + j)). lia. Qed.

  (** The first step of a context among the [j] steps from [n] on. *)
  Fixpoint first (n j : nat) : option nat :=
    match j with
    | O => None
    | S j' => match first n j' with Some x => Some x | None => if is_context (who (n + j')) then Some (n + j')%nat else None end
    end.

  Lemma first_some : forall n j x, first n j = Some x -> (n <= x < n + j)%nat /\ is_context (who x) = true.
  Proof.
    intros n. induction j as [|j IH]; intros x H; cbn [first] in H; [discriminate|]. destruct (first n j) as [y|].
    - injection H as <-. destruct (IH y eq_refl). split; auto. lia.
    - destruct (is_context (who (n + j))) eqn:Q; [|discriminate]. injection H as <-. split; auto. lia.
  Qed.

  Lemma first_later : forall n j x, first n j = Some x -> forall j', (j <= j')%nat -> first n j' = Some x.
  Proof. intros n j x H j' L. induction L as [|j' L IH]; auto. cbn [first]. now rewrite IH. Qed.

  Lemma first_none : forall n j, first n j = None -> d_sys (run (n + j)) = d_sys (run n) /\ forall j', (j' <= j)%nat -> first n j' = None.
  Proof.
    intros n. induction j as [|j IH]; intros H; cbn [first] in H.
    - rewrite Nat.add_0_r. split; auto. intros j' L. destruct j'; auto. lia.
    - destruct (first n j) as [y|] eqn:F; [discriminate|]. destruct (is_context (who (n + j))) eqn:Q; [discriminate|].
      destruct (IH eq_refl) as [A B]. rewrite Nat.add_succ_r. destruct (step_quiet _ Q) as [E _]. split; [congruence|].
      intros j' L. destruct (Nat.eq_dec j' (S j)) as [->|]; [cbn [first]; now rewrite F, Q|]. apply B. lia.
  Qed.

  (** The channel as if the contexts stopped before their first step. *)
  Definition undisturbed (n j : nat) : RttModel.rtt :=
    match first n j with
    | None => d_chan (run (n + j))
    | Some x => RttExamples.turns size (d_chan (run x)) (n + j - x)
    end.

  Lemma chan_inv : forall n, exists u, RttProofs.inv size (out (d_sys (run n))) (d_chan (run n)) u.
  Proof. intros n. apply (so_chan _ _ _ _ _ (run_sound n)). Qed.

  Lemma undisturbed_late : forall n j x, first n j = Some x -> forall j', (j <= j')%nat -> (n + j' - x >= n + j - x)%nat /\
    undisturbed n j' = RttExamples.turns size (d_chan (run x)) (n + j' - x) /\ undisturbed n (S j') = RttExamples.turns size (d_chan (run x)) (S (n + j' - x)).
  Proof.
    intros n j x F j' L. destruct (first_some _ _ _ F) as [B _]. split; [lia|]. unfold undisturbed.
    rewrite (first_later _ _ _ F j' L), (first_later _ _ _ F (S j') ltac:(lia)). split; auto. f_equal. lia.
  Qed.

  Lemma undisturbed_fair : forall n, RttLive.fair_turns size (undisturbed n).
  Proof.
    intros n. assert (TF : forall x, RttLive.fair_turns size (RttExamples.turns size (d_chan (run x)))).
    { intros x. apply (RttExamples.turns_fair_from size Hsize _ _ (chan_inv x)). }
    split; [|split].
    - intros j. destruct (first n j) as [x|] eqn:F.
      + destruct (undisturbed_late n j x F j (le_n _)) as (_ & -> & ->). destruct (TF x) as (T & _). apply T.
      + unfold undisturbed. cbn [first]. rewrite F. destruct (is_context (who (n + j))) eqn:Q.
        * replace (n + S j - (n + j))%nat with 1%nat by lia. destruct (TF (n + j)%nat) as (T & _). exact (T O).
        * rewrite Nat.add_succ_r. apply step_quiet in Q as [_ Q]. exact Q.
    - intros i. destruct (FC (n + i)%nat) as (m & L & Q). destruct (first n (S (m - n))) as [x|] eqn:F.
      + destruct (TF x) as (_ & T & _). destruct (T (n + S (m - n) - x)%nat) as (j & Lj & E). destruct (first_some _ _ _ F) as [B _].
        exists (j + x - n)%nat. split; [lia|]. destruct (undisturbed_late n _ x F (j + x - n) ltac:(lia)) as (_ & -> & ->).
        replace (n + (j + x - n) - x)%nat with j by lia. exact E.
      + exists (m - n)%nat. split; [lia|]. destruct (first_none _ _ F) as [_ B]. unfold undisturbed. rewrite F, (B (m - n)%nat ltac:(lia)).
        replace (n + S (m - n))%nat with (S m) by lia. replace (n + (m - n))%nat with m by lia.
        pose proof (run_steps m) as H. rewrite Q in H. inversion H; subst. reflexivity.
    - intros i. destruct (FH (n + i)%nat) as (m & w & got & L & Q1 & Q2 & Q3 & Q4). destruct (first n (S (m - n))) as [x|] eqn:F.
      + destruct (TF x) as (_ & _ & T). destruct (T (n + S (m - n) - x)%nat) as (j & w' & got' & Lj & E). destruct (first_some _ _ _ F) as [B _].
        exists (j + x - n)%nat, w', got'. split; [lia|]. destruct (undisturbed_late n _ x F (j + x - n) ltac:(lia)) as (_ & -> & ->).
        replace (n + (j + x - n) - x)%nat with j by lia. exact E.
      + exists (m - n)%nat, w, got. split; [lia|]. destruct (first_none _ _ F) as [_ B]. unfold undisturbed. rewrite F, (B (m - n)%nat ltac:(lia)).
        replace (n + S (m - n))%nat with (S m) by lia. replace (n + (m - n))%nat with m by lia.
        split; auto. split; auto. pose proof (run_steps m) as H. rewrite Q3 in H. inversion H as [| |s c r r' Hs X Y Z|]. rewrite <- Y in Q1. rewrite <- Z in Q4. cbn [d_chan] in *.
        destruct Hs as [s0 E|s0 w0 got0 y E E1 E2|s0 w0 got0 E]; cbn in Q4; try discriminate. rewrite E in Q1. injection Q1 as <- <-. reflexivity.
  Qed.

  (** From any moment on: a context makes a step, or the channel empties. *)
  Lemma context_or_drained : forall n, (exists m, (n <= m)%nat /\ is_context (who m) = true) \/
    exists m, (n <= m)%nat /\ d_sys (run m) = d_sys (run n) /\ returned (d_chan (run m)) /\ RttModel.r_delivered (d_chan (run m)) = out (d_sys (run m)).
  Proof.
    intros n. destruct (RttLive.delivered_from size Hsize (undisturbed n) (undisturbed_fair n) (out (d_sys (run n)))) as (j & A & B & C).
    { unfold undisturbed. cbn [first]. rewrite Nat.add_0_r. apply chan_inv. }
    destruct (first n j) as [x|] eqn:F.
    - left. exists x. apply first_some in F as [F1 F2]. split; [lia|auto].
    - right. exists (n + j)%nat. split; [lia|]. destruct (first_none _ _ F) as [E _]. unfold undisturbed in *. rewrite F in *. unfold returned. rewrite E. auto.
  Qed.

  Lemma drained_stays : forall n j, first n j = None -> returned (d_chan (run n)) -> returned (d_chan (run (n + j))).
  Proof.
    intros n. induction j as [|j IH]; intros F R; [now rewrite Nat.add_0_r|]. cbn [first] in F. destruct (first n j) eqn:F'; [discriminate|].
    destruct (is_context (who (n + j))) eqn:Q; [discriminate|]. rewrite Nat.add_succ_r. specialize (IH eq_refl R).
    pose proof (run_steps (n + j)) as H. remember (who (n + j)) as m eqn:Q1. remember (run (n + j)) as d0 eqn:Q2. remember (run (S (n + j))) as d1 eqn:Q3. destruct H as [i s s' o rest ls emitted ops caller r E W St Eo Ca|s c r|s c r r' Hs|d];
      [discriminate| | |]; cbn [d_chan] in *.
    - rewrite returned_dev; auto.
    - eapply returned_host; eauto.
    - exact IH.
  Qed.

  Lemma drained_delivered : forall n j, first n j = None -> returned (d_chan (run n)) -> RttModel.r_delivered (d_chan (run n)) = out (d_sys (run n)) ->
    RttModel.r_delivered (d_chan (run (n + j))) = out (d_sys (run (n + j))).
  Proof.
    intros n j F R D. assert (G : exists g, RttModel.r_delivered (d_chan (run (n + j))) = RttModel.r_delivered (d_chan (run n)) ++ g).
    { clear D. revert F. induction j as [|j IH]; intros F; [exists []; now rewrite Nat.add_0_r, app_nil_r|].
      destruct (first_none _ _ F) as [_ B]. pose proof (B j ltac:(lia)) as F'. destruct (IH F') as (g & E). cbn [first] in F. rewrite F' in F.
      destruct (is_context (who (n + j))) eqn:Q; [discriminate|]. pose proof (drained_stays _ _ F' R) as R'. rewrite Nat.add_succ_r.
      pose proof (run_steps (n + j)) as H. remember (who (n + j)) as m eqn:Q1. remember (run (n + j)) as d0 eqn:Q2. remember (run (S (n + j))) as d1 eqn:Q3.
      destruct H as [i s s' o rest ls emitted ops caller r Ei W St Eo Ca|s c r|s c r r' Hs|d]; [discriminate| | |]; cbn [d_chan] in *.
      - rewrite returned_dev; eauto.
      - destruct Hs; cbn; eauto. rewrite E. exists (g ++ got). now rewrite app_assoc.
      - eauto. }
    destruct G as (g & E). destruct (chan_inv (n + j)) as (u & V). pose proof (RttProofs.i_data _ _ _ _ V) as Q. destruct (first_none _ _ F) as [Es _]. rewrite Es in *. rewrite E, D in Q |- *.
    rewrite <- app_assoc in Q. apply (f_equal (@length Z)) in Q. rewrite !app_length in Q. destruct g; [apply app_nil_r|]. cbn [length] in Q. lia.
  Qed.

  (** A step of the contexts that the logger allows is one that the device can make, when no call is in progress. *)
  Lemma step_can_move : forall d i s', step Rtt k msg i (d_sys d) = Some s' -> returned (d_chan d) -> can_move size k msg i d.
  Proof.
    intros [s c r] i s' St R. cbn [d_sys d_chan] in *. pose proof St as St'. unfold step in St. destruct (nth_error (ctxs s) i) as [[[|o rest] ls]|] eqn:En; try discriminate.
    destruct (step_emits Rtt k msg i s s' St') as [emitted Eo].
    assert (Ca : exists ops, calls o emitted ops) by (destruct o; cbn [calls]; eauto; exists [RttModel.OWrite emitted]; exists [emitted]; cbn; rewrite app_nil_r; auto).
    destruct Ca as [ops Ca]. eexists. eapply Step_context; eauto.
  Qed.

  (** Sooner or later the channel is empty and no context is due. *)
  Lemma settles_from (due : nat -> nat -> Prop) :
    (forall n, exists m, (n <= m)%nat /\ ((exists i, who m = Context i) \/ forall i, due m i -> ~ can_move size k msg i (run m))) ->
    forall l n, (load n < l)%nat -> exists m, (n <= m)%nat /\ (forall i, due m i -> step Rtt k msg i (d_sys (run m)) = None) /\
      returned (d_chan (run m)) /\ RttModel.r_delivered (d_chan (run m)) = out (d_sys (run m)).
  Proof.
    intros FX. induction l as [|l IH]; intros n L; [lia|].
    assert (Go : forall m, (n <= m)%nat -> is_context (who m) = true -> exists m, (n <= m)%nat /\ (forall i, due m i -> step Rtt k msg i (d_sys (run m)) = None) /\
      returned (d_chan (run m)) /\ RttModel.r_delivered (d_chan (run m)) = out (d_sys (run m))).
    { intros m Lm Q. pose proof (step_context m Q) as D. pose proof (load_later n (m - n)) as D2. replace (n + (m - n))%nat with m in D2 by lia.
      destruct (IH (S m) ltac:(lia)) as (m' & L' & G). exists m'. split; [lia|exact G]. }
    destruct (context_or_drained n) as [(m & Lm & Q)|(m & Lm & Es & R & D)]; [eapply Go; eauto|].
    destruct (FX m) as (m' & Lm' & [(j & Q)|N]); [apply (Go m' ltac:(lia)); now rewrite Q|].
    destruct (first m (m' - m)) as [x|] eqn:F; [apply first_some in F as [F1 F2]; apply (Go x ltac:(lia) F2)|].
    destruct (first_none _ _ F) as [E _]. pose proof (drained_stays _ _ F R) as R'. pose proof (drained_delivered _ _ F R D) as D'.
    replace (m + (m' - m))%nat with m' in * by lia.
    exists m'. split; [lia|]. split; [|split; [exact R'|exact D']]. intros i Du. destruct (step Rtt k msg i (d_sys (run m'))) as [s'|] eqn:St; auto. exfalso. apply (N i Du).
    eapply step_can_move; eauto.
  Qed.
End Live.

Theorem everything_arrives_sound : forall size k msg progs run who, programs_ok msg progs -> Forall calm progs -> 2 <= size ->
  sound size k msg progs (run O) -> device_fair size k msg run who ->
  exists n, finished (d_sys (run n)) /\ returned (d_chan (run n)) /\ RttModel.r_delivered (d_chan (run n)) = out (d_sys (run n)).
Proof.
  intros size k msg progs run who Hok Hcalm Hsize Hboot (H1 & H2 & H3 & H4).
  destruct (settles_from size k msg progs run who Hok Hsize Hboot H1 H2 H3 (fun _ _ => True)) with (l := S (load msg run 0)) (n := O) as (m & _ & N & R & D); [|lia|].
  - intros n. destruct (H4 n) as (m & L & [G|G]); exists m; auto.
  - exists m. split; [|auto]. pose proof (run_sound size k msg progs run who Hok Hboot H1 m) as [Rs _ _ _].
    destruct (calm_progress Rtt k msg progs Hok Hcalm _ Rs) as [F|(i & s' & St)]; [exact F|]. rewrite (N i) in St by auto. discriminate.
Qed.

Theorem everything_arrives : forall size k msg progs run who, programs_ok msg progs -> Forall calm progs -> 2 <= size ->
  device_boot size progs (run O) -> device_fair size k msg run who ->
  exists n, finished (d_sys (run n)) /\ returned (d_chan (run n)) /\ RttModel.r_delivered (d_chan (run n)) = out (d_sys (run n)).
Proof. intros size k msg progs run who H1 H2 H3 H4. apply everything_arrives_sound with (progs := progs); auto. now apply sound_boot. Qed.
