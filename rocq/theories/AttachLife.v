(** The sessions of a device. *)
From Verif Require Import Base RzcobsModel DecoderModel LoggerModel LoggerSpec LoggerProofs LoggerMain DeviceModel DeviceProofs DeviceLive AttachModel AttachProofs.
From Verif Require RttModel RttProofs RttLive.

Section Life.
  Context (size : Z) (k : encoding) (msg : option (list task)) (progs : list (list task)).
  Context (Hok : programs_ok msg progs).
  Notation chan := d_chan.
  Notation sound := (sound size k msg progs).
  Notation polite := (polite k msg progs).
  Notation rdev d := (RttModel.r_dev (d_chan d)).

  (** [before]: what was written before the unread part; [S]: what had been handed over to calls
      that had begun when the host attached. *)
  Inductive in_session (before S : bytes) (d : device) : Prop :=
  | In_loose l : before ++ l ++ RttProofs.pending (rdev d) = S -> loose size (out (d_sys d)) (chan d) before l -> polite d ->
      rdev d <> RttModel.DNext -> RttModel.r_delivered (chan d) = [] -> in_session before S d
  | In_steady y x : S = (before ++ y) ++ x -> (Z.of_nat (length S) - Z.of_nat (length before) < size -> y = []) ->
      sound (padded (before ++ y) d) -> in_session before S d.

  (** Without a host; [before]: as above. *)
  Inductive off (before : bytes) (d : device) : Prop :=
  | Off_loose l : loose size (out (d_sys d)) (chan d) before l -> polite d -> off before d
  | Off_steady lost : before = lost ++ RttModel.r_delivered (chan d) -> sound (padded lost d) -> RttModel.r_host (chan d) = RttModel.HIdle ->
      rdev d <> RttModel.DNext -> off before d.

  Lemma polite_padded : forall lost d, polite (padded lost d) <-> polite d.
  Proof. intros lost d. split; intros [R C F]; constructor; auto. Qed.

  Lemma sound_padded : forall lost d, sound (padded lost d) -> polite d /\ exists u, RttProofs.inv size (out (d_sys d)) (pad lost (chan d)) u.
  Proof.
    intros lost d H. split; [apply (polite_padded lost), (sound_polite _ _ _ _ _ H)|]. apply (so_chan _ _ _ _ _ H).
  Qed.

  Lemma steady_waits : forall lost d, sound (padded lost d) -> trimming (rdev d) = false.
  Proof.
    intros lost d H. apply sound_padded in H as (_ & u & V). destruct (RttProofs.i_dev _ _ _ _ V) as [W _]. cbn [pad RttModel.r_dev] in W.
    destruct (rdev d) as [|[|] bs|bs|bs [r0|]|[|] bs cursor len n|[|] bs cursor len| |r0|]; try reflexivity; try contradiction; try discriminate; now destruct W.
  Qed.

  (** Steps that do not look at the mode. *)
  Lemma padded_step : forall lost m d d', device_step size k msg m d d' -> rdev d <> RttModel.DNext \/ RttModel.r_connected (chan d) = true \/ m <> Channel ->
    device_step size k msg m (padded lost d) (padded lost d').
  Proof.
    intros lost m d d' H Hd. destruct H as [i s s' o rest ls emitted ops caller r E W St Eo Ca|s c r|s c r r' Hs|d].
    - exact (Step_context size k msg i s s' o rest ls emitted ops caller (pad lost r) E W St Eo Ca).
    - unfold padded. cbn [d_sys d_caller d_chan] in *. rewrite <- pad_dev; [constructor|]. destruct Hd as [Hd|[Hd|Hd]]; auto.
    - unfold padded. cbn [d_sys d_caller d_chan]. constructor. now apply pad_host.
    - constructor.
  Qed.

  Lemma connected_step : forall m d d', device_step size k msg m d d' -> RttModel.r_connected (chan d') = RttModel.r_connected (chan d).
  Proof.
    intros m d d' H. destruct H as [i s s' o rest ls emitted ops caller r E W St Eo Ca|s c r|s c r r' Hs|d]; cbn [d_chan call RttModel.r_connected]; auto.
    - unfold RttModel.dev_step. destruct (RttModel.r_dev r) as [|conn bs|bs|bs [r0|]|conn bs cursor len n|conn bs cursor len| |r0|]; try reflexivity.
      + destruct (RttModel.r_ops r) as [|[bs|] ops]; try reflexivity. destruct (RttModel.r_connected r) eqn:Q; cbn; auto.
      + destruct bs; reflexivity.
      + destruct (RttModel.available _ _ _); [destruct (_ =? 0)|]; reflexivity.
      + destruct (n <? len); [|reflexivity]. destruct (nth_error bs (Z.to_nat n)); [|reflexivity]. destruct (_ && _); reflexivity.
      + destruct (size =? 0); reflexivity.
      + destruct (_ =? _); reflexivity.
    - destruct Hs; reflexivity.
  Qed.

  Lemma delivered_dev : forall r, RttModel.r_delivered (RttModel.dev_step size false r) = RttModel.r_delivered r.
  Proof. intros r. apply RttLive.dev_step_keeps. Qed.

  Lemma session_inv : forall before S m d d', session_step size k msg m d d' -> RttModel.r_connected (chan d) = true ->
    in_session before S d -> in_session before S d'.
  Proof.
    intros before S m d d' H C I. destruct I as [l Es L P Nd Dl|y x Es Hy Sd].
    - destruct H as [m d d' Nh H|d d' _ T _].
      2:{ destruct (loose_trimming _ _ _ _ _ L); congruence. }
      destruct m as [i| | |]; [| |congruence|].
      + destruct (polite_context size k msg progs Hok i d d' H P) as (P' & ops & Ec & Eo).
        apply (In_loose before S d' l); rewrite ?Ec, ?Eo; auto. now apply loose_call.
      + inversion H as [|s c r| |]; subst. cbn [d_sys d_chan] in *.
        destruct (loose_write size _ _ _ _ L Nd) as (l' & L' & Ep & Eo).
        destruct (RttModel.r_dev (RttModel.dev_step size false r)) eqn:Ed;
          try (apply (In_loose _ _ _ l'); cbn [d_sys d_chan]; rewrite ?Ed; auto; [now apply polite_channel|discriminate|now rewrite delivered_dev]; fail).
        destruct (loose_steady size _ _ _ _ L' Ed) as (lost & u & -> & V & Sm); [now rewrite delivered_dev|].
        apply (In_steady _ _ _ lost u).
        * rewrite <- Ep. cbn [RttProofs.pending]. rewrite app_nil_r, <- !app_assoc. reflexivity.
        * intros B. apply Sm. rewrite <- Ep in B. cbn [RttProofs.pending] in B. rewrite app_nil_r in B. rewrite !app_length in *. lia.
        * eapply polite_sound; [apply polite_padded; now apply polite_channel|exact V].
      + inversion H; subst. eapply In_loose; eauto.
    - apply (In_steady _ _ _ y x); auto. assert (H' : device_step size k msg m d d') by (destruct H; assumption).
      apply (sound_step size k msg progs Hok m (padded (before ++ y) d)); [apply padded_step; auto|exact Sd].
  Qed.

  Lemma session_connected : forall m d d', session_step size k msg m d d' -> RttModel.r_connected (chan d') = RttModel.r_connected (chan d).
  Proof. intros m d d' H. destruct H; eapply connected_step; eauto. Qed.

  Lemma off_inv : forall before m d d', session_step size k msg m d d' -> RttModel.r_connected (chan d) = false ->
    off before d -> off before d'.
  Proof.
    intros before m d d' H C O. assert (H' : m <> Host /\ device_step size k msg m d d') by (destruct H; [auto|congruence]). clear H. destruct H' as [Nh H].
    destruct O as [l L P|lost Eb Sd Hi Nd].
    - destruct m as [i| | |]; [| |congruence|].
      + destruct (polite_context size k msg progs Hok i d d' H P) as (P' & ops & Ec & Eo).
        apply (Off_loose before d' l); rewrite ?Ec, ?Eo; auto. now apply loose_call.
      + inversion H as [|s c r| |]; subst. cbn [d_sys d_chan] in *.
        destruct (loose_trimming _ _ _ _ _ L) as [E|T].
        * apply (Off_loose before _ l); [now apply loose_next|now apply polite_channel].
        * destruct (loose_write size _ _ _ _ L) as (l' & L' & _ & _); [intros E; rewrite E in T; discriminate|].
          apply (Off_loose before _ l'); [exact L'|now apply polite_channel].
      + inversion H; subst. eapply Off_loose; eauto.
    - assert (Sd' : sound (padded lost d')) by (apply (sound_step size k msg progs Hok m (padded lost d)); [apply padded_step; auto|exact Sd]).
      assert (Kd : RttModel.r_delivered (chan d') = RttModel.r_delivered (chan d) /\ RttModel.r_host (chan d') = RttModel.r_host (chan d)).
      { destruct H as [i s s' o rest ls emitted ops caller r E W St Eo Ca|s c r|s c r r' Hs|d]; cbn [d_chan call RttModel.r_delivered RttModel.r_host]; auto; [|congruence].
        split; apply RttLive.dev_step_keeps. }
      destruct Kd as [Kd Kh]. rewrite <- Kd in Eb. rewrite <- Kh in Hi.
      destruct (rdev d') eqn:Ed; try (apply (Off_steady before d' lost); auto; rewrite Ed; discriminate).
      destruct (sound_padded _ _ Sd') as (P' & u & V). subst before. apply (Off_loose _ d' u); auto. now apply steady_loose.
  Qed.

  (** Attaching and detaching. *)
  Lemma attach_polite : forall d, polite d -> polite (attach d).
  Proof. intros d [R C F]. constructor; auto. Qed.
  Lemma detach_polite : forall d, polite d -> polite (detach d).
  Proof. intros d [R C F]. constructor; auto. Qed.

  Lemma attach_inv : forall before d, off before d ->
    exists S, S ++ RttModel.data (RttModel.r_ops (chan d)) = out (d_sys d) /\ in_session before S (attach d).
  Proof.
    intros before d [l L P|lost Eb Sd Hi Nd].
    - exists (before ++ l ++ RttProofs.pending (rdev d)). split; [rewrite <- (l_data _ _ _ _ _ L), <- !app_assoc; reflexivity|].
      assert (L' : loose size (out (d_sys (attach d))) (chan (attach d)) before l) by (destruct L; constructor; auto).
      destruct (rdev d) eqn:Ed; try (apply (In_loose _ _ _ l); auto; cbn [attach d_chan attached RttModel.r_dev]; rewrite ?Ed; auto; [now apply attach_polite|discriminate]; fail).
      destruct (loose_steady size _ _ _ _ L' Ed eq_refl) as (lo & u & -> & V & Sm).
      apply (In_steady _ _ _ lo u).
      + cbn [RttProofs.pending]. rewrite app_nil_r, <- !app_assoc. reflexivity.
      + intros B. apply Sm. cbn [RttProofs.pending] in B. rewrite app_nil_r, !app_length in *. lia.
      + eapply polite_sound; [apply polite_padded; now apply attach_polite|exact V].
    - destruct (sound_padded _ _ Sd) as (P & u & V).
      exists (before ++ u ++ RttProofs.pending (rdev d)). pose proof (RttProofs.i_data _ _ _ _ V) as E. cbn [pad RttModel.r_delivered RttModel.r_dev RttModel.r_ops] in E.
      split; [rewrite <- E, Eb, <- !app_assoc; reflexivity|].
      apply (In_steady _ _ _ [] (u ++ RttProofs.pending (rdev d))); rewrite ?app_nil_r; auto.
      assert (Eq : padded before (attach d) = padded lost d).
      { unfold padded, attach, pad, attached. cbn [d_sys d_caller d_chan RttModel.r_mem RttModel.r_write RttModel.r_read RttModel.r_connected RttModel.r_dev RttModel.r_ops RttModel.r_host RttModel.r_delivered].
        rewrite app_nil_r, Eb. reflexivity. }
      rewrite Eq. exact Sd.
  Qed.

  Lemma detach_inv : forall before S d, in_session before S d -> RttModel.r_host (chan d) = RttModel.HIdle -> exists b, off b (detach d).
  Proof.
    intros before S d [l Es L P Nd Dl|y x Es Hy Sd] Hi.
    - exists before. apply (Off_loose _ _ l); [destruct L; constructor; auto|now apply detach_polite].
    - destruct (sound_padded _ _ Sd) as (P & u & V).
      destruct (rdev d) eqn:Ed; try (exists ((before ++ y) ++ RttModel.r_delivered (chan d)); apply (Off_steady _ _ (before ++ y)); [reflexivity|exact Sd|exact Hi|cbn [detach d_chan detached RttModel.r_dev]; rewrite Ed; discriminate]; fail).
      eexists. apply (Off_loose _ _ u); [|now apply detach_polite]. apply (steady_loose size (out (d_sys d)) (detached (chan d)) (before ++ y)); auto.
  Qed.

  Lemma reset_off : forall d, reset size progs d -> off [] d.
  Proof.
    intros [s c r] (E1 & E2 & (H1 & H2 & H3 & H4 & H5 & H6 & H7) & C). cbn [d_sys d_caller d_chan] in *. subst s.
    apply (Off_loose _ _ []); cbn [d_sys d_caller d_chan].
    - constructor; auto; try lia.
      + cbn [length]. rewrite Z.add_0_r, H3. symmetry. apply Z.mod_small. lia.
      + rewrite H4, H5. reflexivity.
      + rewrite H4. intros [|n] x N; discriminate.
    - constructor; cbn [d_sys d_caller d_chan]; [exists O; constructor|left; split; auto|]. unfold flush_alone. rewrite H4, H5. auto.
  Qed.

  Lemma life_inv : forall d, lives size k msg progs d ->
    if RttModel.r_connected (chan d) then exists b S, in_session b S d else exists b, off b d.
  Proof.
    intros d (d0 & R & L). assert (C0 : RttModel.r_connected (chan d0) = false) by apply R. apply reset_off in R.
    induction L as [d|m d d' d'' L IH St|d d' L IH C|d d' L IH Hi].
    - rewrite C0. eauto.
    - specialize (IH R C0). rewrite (session_connected _ _ _ St). destruct (RttModel.r_connected (chan d')) eqn:C.
      + destruct IH as (b & S & I). exists b, S. eapply session_inv; eauto.
      + destruct IH as (b & I). exists b. eapply off_inv; eauto.
    - specialize (IH R C0). rewrite C in IH. destruct IH as (b & O). cbn [attach d_chan attached RttModel.r_connected].
      destruct (attach_inv b d' O) as (S & _ & I). eauto.
    - specialize (IH R C0). cbn [detach d_chan detached RttModel.r_connected]. destruct (RttModel.r_connected (chan d')) eqn:C.
      + destruct IH as (b & S & I). eapply detach_inv; eauto.
      + destruct IH as (b & [l Lo P|lost Eb Sd Hh Nd]); exists b.
        * apply (Off_loose _ _ l); [destruct Lo; constructor; auto|now apply detach_polite].
        * apply (Off_steady _ _ lost); auto.
  Qed.

  Lemma session_runs : forall b S d d', session size k msg d d' -> RttModel.r_connected (chan d) = true -> in_session b S d -> in_session b S d'.
  Proof.
    intros b S d d' H C I. assert (G : RttModel.r_connected (chan d') = true /\ in_session b S d'); [|apply G].
    induction H as [d|m d d' d'' H IH St]; auto. destruct (IH C I) as [A B]. split; [rewrite (session_connected _ _ _ St); exact A|]. eapply session_inv; eauto.
  Qed.

  (** What is known of every moment of a session that began when [d1] was attached to. *)
  Lemma session_state : forall d1 d, lives size k msg progs d1 -> RttModel.r_connected (chan d1) = false -> session size k msg (attach d1) d ->
    exists b S, S ++ RttModel.data (RttModel.r_ops (chan d1)) = out (d_sys d1) /\ in_session b S d.
  Proof.
    intros d1 d Lv C H. apply life_inv in Lv. rewrite C in Lv. destruct Lv as (b & O). destruct (attach_inv b d1 O) as (S & E & I).
    exists b, S. split; auto. eapply session_runs; eauto.
  Qed.

  Lemma in_session_piece : forall b S d, in_session b S d ->
    polite d /\ rdev d <> RttModel.DFault /\ exists lost x rest, S = lost ++ x /\ out (d_sys d) = lost ++ RttModel.r_delivered (chan d) ++ rest /\
      (Z.of_nat (length S) - Z.of_nat (length b) < size -> trimming (rdev d) = false -> lost = b) /\
      (trimming (rdev d) = false -> sound (padded lost d) /\ exists unread, rest = unread ++ RttProofs.pending (rdev d) ++ RttModel.data (RttModel.r_ops (chan d)) /\
         Z.of_nat (length unread) = (RttModel.r_write (chan d) - RttModel.r_read (chan d)) mod size /\
         RttProofs.holds size (RttModel.r_mem (chan d)) (RttModel.r_read (chan d)) unread).
  Proof.
    intros b S d [l Es L P Nd Dl|y x Es Hy Sd].
    - destruct (loose_trimming _ _ _ _ _ L) as [E|T]; [contradiction|]. split; auto. split; [intros E; rewrite E in T; discriminate|].
      exists S, [], (RttModel.data (RttModel.r_ops (chan d))). rewrite app_nil_r. split; auto. split; [|split; congruence].
      rewrite Dl. cbn [app]. rewrite <- (l_data _ _ _ _ _ L), <- Es, <- !app_assoc. reflexivity.
    - destruct (sound_padded _ _ Sd) as (P & u & V). pose proof (RttProofs.i_dev _ _ _ _ V) as [W _]. cbn [pad RttModel.r_dev] in W.
      split; auto. split; [intros E; rewrite E in W; exact W|]. pose proof (RttProofs.i_data _ _ _ _ V) as E. cbn [pad RttModel.r_delivered RttModel.r_dev RttModel.r_ops] in E.
      exists (b ++ y), x. eexists. split; [exact Es|]. split; [rewrite <- E, <- !app_assoc; reflexivity|]. split; [intros B _; rewrite (Hy B), app_nil_r; reflexivity|].
      intros _. split; [exact Sd|]. exists u. split; [reflexivity|]. split; [exact (RttProofs.i_unread _ _ _ _ V)|exact (RttProofs.i_holds _ _ _ _ V)].
  Qed.

  (** The main statement. *)
  Theorem session_piece : forall d1 d, lives size k msg progs d1 -> RttModel.r_connected (chan d1) = false -> session size k msg (attach d1) d ->
    reachable Rtt k msg progs (d_sys d) /\ rdev d <> RttModel.DFault /\
    exists lost x rest, lost ++ x ++ RttModel.data (RttModel.r_ops (chan d1)) = out (d_sys d1) /\
      out (d_sys d) = lost ++ RttModel.r_delivered (chan d) ++ rest /\
      (trimming (rdev d) = false -> exists unread, rest = unread ++ RttProofs.pending (rdev d) ++ RttModel.data (RttModel.r_ops (chan d)) /\
         Z.of_nat (length unread) = (RttModel.r_write (chan d) - RttModel.r_read (chan d)) mod size /\
         RttProofs.holds size (RttModel.r_mem (chan d)) (RttModel.r_read (chan d)) unread).
  Proof.
    intros d1 d Lv C H. destruct (session_state d1 d Lv C H) as (b & S & E & I). apply in_session_piece in I as (P & F & lost & x & rest & -> & Eo & _ & T).
    split; [apply P|]. split; auto. exists lost, x, rest. split; [now rewrite app_assoc|]. split; auto. intros Q. apply T, Q.
  Qed.

  (** What was logged before the first host came is not lost if it fits into the buffer. *)
  Lemma early_state : forall d0 d1 d, reset size progs d0 -> session size k msg d0 d1 -> session size k msg (attach d1) d ->
    exists S, S ++ RttModel.data (RttModel.r_ops (chan d1)) = out (d_sys d1) /\ in_session [] S d.
  Proof.
    intros d0 d1 d R H1 H. assert (C0 : RttModel.r_connected (chan d0) = false) by apply R. apply reset_off in R.
    assert (G : RttModel.r_connected (chan d1) = false /\ off [] d1).
    { clear H. induction H1 as [d2|m d2 d3 d4 H1 IH St]; auto. destruct (IH R C0) as [A B]. split; [rewrite (session_connected _ _ _ St); exact A|]. eapply off_inv; eauto. }
    destruct G as [C1 O]. destruct (attach_inv [] d1 O) as (S & E & I). apply (session_runs _ _ _ _ H eq_refl) in I. eauto.
  Qed.

  Theorem early_kept : forall d0 d1 d, reset size progs d0 -> session size k msg d0 d1 -> session size k msg (attach d1) d ->
    Z.of_nat (length (out (d_sys d1))) < size -> exists rest, out (d_sys d) = RttModel.r_delivered (chan d) ++ rest.
  Proof.
    intros d0 d1 d R H1 H Sm. destruct (early_state d0 d1 d R H1 H) as (S & E & I).
    assert (LS : Z.of_nat (length S) < size) by (rewrite <- E, app_length in Sm; lia).
    destruct I as [l Es L P Nd Dl|y x Es Hy Sd].
    - rewrite Dl. eexists. reflexivity.
    - cbn [length] in Hy. rewrite Hy in Sd by lia. cbn [app] in Sd. destruct (sound_padded _ _ Sd) as (P & u & V).
      pose proof (RttProofs.i_data _ _ _ _ V) as Ed. cbn [pad RttModel.r_delivered app] in Ed. eexists. symmetry. exact Ed.
  Qed.
End Life.
