(** The contexts and the channel together: the channel is called by one context at a time, it loses
    nothing, and in fair runs everything arrives. *)
From Verif Require Import Base RzcobsModel DecoderModel LoggerModel LoggerSpec LoggerProofs LoggerMain DeviceModel.
From Verif Require RttModel RttProofs RttLive RttExamples.

Lemma data_app : forall a b, RttModel.data (a ++ b) = RttModel.data a ++ RttModel.data b.
Proof. induction a as [|[bs|] a IH]; intros b; cbn [RttModel.data app]; auto. now rewrite IH, app_assoc. Qed.
Lemma data_pieces : forall ps, RttModel.data (map RttModel.OWrite ps) = concat ps.
Proof. induction ps as [|p ps IH]; cbn; [reflexivity|now rewrite IH]. Qed.

Lemma inv_call : forall size D r u ops, RttProofs.inv size D r u -> RttProofs.inv size (D ++ RttModel.data ops) (call r ops) u.
Proof.
  intros size D r u ops [Im Iw Ir Ic Iu Ih Id [Iv Iv'] It]. constructor; auto; try (split; auto; fail).
  cbn [call RttModel.r_delivered RttModel.r_dev RttModel.r_ops]. rewrite data_app, <- Id, <- !app_assoc. reflexivity.
Qed.

Definition writes_out (o : op) : bool := match o with OStart | OWrite _ | OEnd => true | _ => false end.

Lemma exec_out : forall k i o s ls s' ls', exec k i o s ls = Next s' ls' -> writes_out o = false -> out s' = out s.
Proof.
  intros k i o [w t c e b p cs] ls s' ls' H W. destruct o; cbn [exec] in H; try discriminate;
    repeat match type of H with context [match ?x with _ => _ end] => destruct x; try discriminate end; injection H as <- _; reflexivity.
Qed.

Lemma exec_owner : forall k i o s ls s' ls', exec k i o s ls = Next s' ls' -> o <> OEnter -> o <> OLeave -> owner s' = owner s.
Proof.
  intros k i o [w t c e b p cs] ls s' ls' H N1 N2. destruct o; try congruence; cbn [exec] in H; try discriminate;
    repeat match type of H with context [match ?x with _ => _ end] => destruct x; try discriminate end; injection H as <- _; reflexivity.
Qed.

Lemma step_out : forall lg k msg i s s' o rest ls, nth_error (ctxs s) i = Some (MkCtx (o :: rest) ls) -> step lg k msg i s = Some s' ->
  writes_out o = false -> out s' = out s.
Proof.
  intros lg k msg i s s' o rest ls E H W. unfold step in H. rewrite E in H. destruct (exec k i o s ls) as [s1 ls1| |] eqn:X; try discriminate; injection H as <-; cbn.
  - eapply exec_out; eauto.
  - reflexivity.
Qed.

Lemma step_owner : forall lg k msg i s s' o rest ls, nth_error (ctxs s) i = Some (MkCtx (o :: rest) ls) -> step lg k msg i s = Some s' ->
  o <> OEnter -> o <> OLeave -> owner s' = owner s.
Proof.
  intros lg k msg i s s' o rest ls E H N1 N2. unfold step in H. rewrite E in H. destruct (exec k i o s ls) as [s1 ls1| |] eqn:X; try discriminate; injection H as <-; cbn.
  - eapply exec_owner; eauto.
  - reflexivity.
Qed.

Section Safe.
  Context (size : Z) (k : encoding) (msg : option (list task)) (progs : list (list task)).
  Context (Hok : programs_ok msg progs).

  (** Only the context in the critical section leaves it. *)
  Lemma leave_owner : forall s i, reachable Rtt k msg progs s -> next_op s i = Some OLeave -> owner s = Some i.
  Proof.
    intros s i [n R] Q. destruct Hok as [N M]. destruct (inv_runs Rtt k msg false M progs n s N ltac:(discriminate) R) as (hist & cur & V).
    unfold next_op in Q. destruct (nth_error (ctxs s) i) as [[[|o' rest] ls]|] eqn:E; try discriminate. injection Q as ->.
    destruct (inv_ctx _ _ _ _ _ _ _ _ V i _ E) as (todo & [(Ho & In)|(Ho & Out)] & _); auto.
    cbn [code locals] in Out. apply outside_head in Out as [_ A]. congruence.
  Qed.

  (** A flush is the only call in progress. *)
  Definition flush_alone (r : RttModel.rtt) : Prop :=
    match RttModel.r_dev r with
    | RttModel.DFlushR | RttModel.DFlushW _ => RttModel.r_ops r = []
    | RttModel.DNext => RttModel.r_ops r = [RttModel.OFlush] \/ ~ In RttModel.OFlush (RttModel.r_ops r)
    | _ => ~ In RttModel.OFlush (RttModel.r_ops r)
    end.

  Lemma flush_dev : forall r, flush_alone r -> flush_alone (RttModel.dev_step size false r).
  Proof.
    intros [mem w r c d ops h del] H. unfold flush_alone in H. cbn [RttModel.r_dev RttModel.r_ops] in H.
    destruct d as [|conn bs|bs|bs [r0|]|conn bs cursor len n|conn bs cursor len| |r0|]; unfold RttModel.dev_step; cbn [RttModel.r_dev RttModel.r_ops RttModel.r_write].
    - destruct ops as [|[bs|] ops]; [exact H| |].
      + destruct H as [H|H]; [discriminate|]. unfold flush_alone. cbn. intros X. apply H. now right.
      + destruct H as [H|H]; [|exfalso; apply H; now left]. injection H as ->.
        destruct c; cbn; [reflexivity|]. right. intros [].
    - destruct bs; [|destruct conn]; unfold flush_alone; cbn; auto.
    - exact H.
    - destruct (RttModel.available size r0 w); [|exact H]. destruct (_ =? 0); exact H.
    - exact H.
    - destruct (n <? len); [|exact H]. destruct (nth_error bs (Z.to_nat n)); [|exact H]. destruct (_ && _); exact H.
    - destruct (size =? 0); exact H.
    - exact H.
    - destruct (r0 =? w); unfold flush_alone; cbn; auto. right. rewrite H. intros [].
    - exact H.
  Qed.
  Lemma flush_host : forall r r', RttModel.host_step size r r' -> flush_alone r -> flush_alone r'.
  Proof. intros r r' H A. destruct H; exact A. Qed.

  Lemma calls_flush : forall o emitted ops, calls o emitted ops -> ops = [RttModel.OFlush] \/ ~ In RttModel.OFlush ops.
  Proof.
    intros o emitted ops H. destruct o; cbn [calls] in H; try (subst ops; auto; fail); try (destruct H as (ps & _ & ->); right; intros X; apply in_map_iff in X as (? & ? & _); discriminate).
  Qed.

  Record sound (d : device) : Prop := {
    so_sys : reachable Rtt k msg progs (d_sys d);
    so_chan : exists u, RttProofs.inv size (out (d_sys d)) (d_chan d) u;
    so_call : returned (d_chan d) \/ exists i, d_caller d = Some i /\ owner (d_sys d) = Some i;
    so_flush : flush_alone (d_chan d) }.

  Lemma sound_boot : forall d, device_boot size progs d -> sound d.
  Proof.
    intros [s c r] (E1 & E2 & S0 & C). cbn [d_sys d_caller d_chan] in *. subst s. constructor; cbn [d_sys d_caller d_chan].
    - exists O. constructor.
    - exists []. apply (RttProofs.start_inv size r [] S0 C).
    - left. destruct S0 as (_ & _ & _ & A & B & _). split; auto.
    - destruct S0 as (_ & _ & _ & A & B & _). unfold flush_alone. rewrite A, B. auto.
  Qed.

  Lemma returned_dev : forall r, returned r -> RttModel.dev_step size false r = r.
  Proof. intros r [A B]. unfold RttModel.dev_step. rewrite A, B. reflexivity. Qed.
  Lemma returned_host : forall r r', RttModel.host_step size r r' -> returned r -> returned r'.
  Proof. intros r r' H [A B]. destruct H; split; auto. Qed.

  (** The part of [sound] that does not depend on what is in the buffer. *)
  Record polite (d : device) : Prop := {
    po_sys : reachable Rtt k msg progs (d_sys d);
    po_call : returned (d_chan d) \/ exists i, d_caller d = Some i /\ owner (d_sys d) = Some i;
    po_flush : flush_alone (d_chan d) }.

  Lemma polite_context : forall i d d', device_step size k msg (Context i) d d' -> polite d -> polite d' /\
    exists ops, d_chan d' = call (d_chan d) ops /\ out (d_sys d') = out (d_sys d) ++ RttModel.data ops.
  Proof.
    intros i d d' H [R C F]. inversion H as [i0 s s' o rest ls emitted ops caller r E W St Eo Ca| | |]; subst; cbn [d_sys d_caller d_chan] in *.
    assert (Nx : next_op s i = Some o) by (unfold next_op; now rewrite E).
    assert (R' : reachable Rtt k msg progs s') by (destruct R as [n R]; exists (S n); eapply Run_step; eauto).
    assert (Dt : RttModel.data ops = emitted).
    { destruct (writes_out o) eqn:Wo.
      - destruct o; try discriminate; destruct Ca as (ps & <- & ->); apply data_pieces.
      - assert (emitted = []) by (rewrite (step_out _ _ _ _ _ _ _ _ _ E St Wo) in Eo; rewrite <- (app_nil_r (out s)) in Eo at 1; now apply app_inv_head in Eo).
        subst emitted. destruct o; try discriminate; cbn [calls] in Ca; subst ops; reflexivity. }
    split; [|exists ops; split; [reflexivity|now rewrite Dt]].
    constructor; cbn [d_sys d_caller d_chan]; auto.
    + destruct ops as [|op0 ops].
      * destruct C as [C|(j & C1 & C2)].
        { left. unfold call. rewrite app_nil_r. destruct r. exact C. }
        destruct (Nat.eq_dec i j) as [->|Nij].
        { left. unfold call. rewrite app_nil_r. destruct r. exact (W C1). }
        right. exists j. split; auto. rewrite <- C2. eapply step_owner; eauto.
        -- intros ->. unfold step in St. rewrite E in St. destruct s as [w t c e b p cs]. cbn in C2, St. subst w.
           destruct (Nat.eqb j i) eqn:Q; [apply Nat.eqb_eq in Q; congruence|discriminate].
        -- intros ->. apply leave_owner in Nx; [congruence|auto].
      * right. exists i. split; auto.
        assert (U : uses_logger o = true) by (destruct o; cbn [calls] in Ca; try discriminate; reflexivity).
        destruct (contract Rtt k msg progs s i o Hok R Nx) as (A & _). rewrite <- (A U).
        eapply step_owner; eauto; intros ->; discriminate.
    + destruct ops as [|op0 ops].
      { unfold call. rewrite app_nil_r. destruct r. exact F. }
      assert (U : uses_logger o = true) by (destruct o; cbn [calls] in Ca; try discriminate; reflexivity).
      destruct (contract Rtt k msg progs s i o Hok R Nx) as (A & _). specialize (A U).
      assert (Re : returned r) by (destruct C as [C|(j & C1 & C2)]; auto; apply W; congruence).
      destruct Re as [Re1 Re2]. unfold flush_alone, call. cbn [RttModel.r_dev RttModel.r_ops]. rewrite Re1, Re2. cbn [app]. eapply calls_flush; eauto.
  Qed.

  Lemma polite_channel : forall s c r, polite (MkDevice s c r) -> polite (MkDevice s c (RttModel.dev_step size false r)).
  Proof.
    intros s c r [R C F]. cbn [d_sys d_caller d_chan] in *. constructor; cbn [d_sys d_caller d_chan]; auto.
    { destruct C as [C|C]; [left; now rewrite returned_dev|auto]. }
    now apply flush_dev.
  Qed.

  Lemma polite_host : forall s c r r', RttModel.host_step size r r' -> polite (MkDevice s c r) -> polite (MkDevice s c r').
  Proof.
    intros s c r r' Hs [R C F]. cbn [d_sys d_caller d_chan] in *. constructor; cbn [d_sys d_caller d_chan]; auto.
    { destruct C as [C|C]; [left; eapply returned_host; eauto|auto]. }
    eapply flush_host; eauto.
  Qed.

  Lemma sound_polite : forall d, sound d -> polite d.
  Proof. intros d [R _ C F]. constructor; auto. Qed.
  Lemma polite_sound : forall d u, polite d -> RttProofs.inv size (out (d_sys d)) (d_chan d) u -> sound d.
  Proof. intros d u [R C F] V. constructor; eauto. Qed.

  Lemma sound_step : forall m d d', device_step size k msg m d d' -> sound d -> sound d'.
  Proof.
    intros m d d' H Sd. pose proof (sound_polite d Sd) as P. destruct Sd as [_ (u & V) _ _].
    destruct m as [i| | |].
    - destruct (polite_context i d d' H P) as (P' & ops & Ec & Eo). apply (polite_sound d' u); auto. rewrite Ec, Eo. now apply inv_call.
    - inversion H as [|s c r| |]; subst. destruct (RttProofs.inv_dev size _ r u V) as [u' V']. apply (polite_sound _ u'); auto. now apply polite_channel.
    - inversion H as [| |s c r r' Hs|]; subst. destruct (RttProofs.inv_host size _ r r' u V Hs) as [u' V']. apply (polite_sound _ u'); auto. eapply polite_host; eauto.
    - inversion H; subst. apply (polite_sound _ u); auto.
  Qed.

  Lemma sound_reaches : forall d, device_reaches size k msg progs d -> sound d.
  Proof.
    intros d (d0 & B & R). apply sound_boot in B. induction R as [d|m d d' d'' R IH St]; auto. eapply sound_step; eauto.
  Qed.

  (** When a context calls the channel, no other call is in progress. *)
  Theorem one_caller : forall d i d', device_reaches size k msg progs d -> device_step size k msg (Context i) d d' ->
    RttModel.r_ops (d_chan d') <> RttModel.r_ops (d_chan d) -> returned (d_chan d) /\ owner (d_sys d) = Some i.
  Proof.
    intros d i d' R St N. apply sound_reaches in R as [R _ C _]. inversion St as [i0 s s' o rest ls emitted ops caller r E W Ls Eo Ca| | |]; subst; cbn [d_sys d_caller d_chan call RttModel.r_ops] in *.
    assert (Nx : next_op s i = Some o) by (unfold next_op; now rewrite E).
    assert (U : uses_logger o = true).
    { destruct ops; [rewrite app_nil_r in N; congruence|]. destruct o; cbn [calls] in Ca; try discriminate; reflexivity. }
    destruct (contract Rtt k msg progs s i o Hok R Nx) as (A & _). specialize (A U). split; auto.
    destruct C as [C|(j & C1 & C2)]; auto. apply W. congruence.
  Qed.

  Theorem device_lossless : forall d, device_reaches size k msg progs d ->
    reachable Rtt k msg progs (d_sys d) /\ RttModel.r_dev (d_chan d) <> RttModel.DFault /\
    exists unread, Z.of_nat (length unread) = (RttModel.r_write (d_chan d) - RttModel.r_read (d_chan d)) mod size /\
      RttProofs.holds size (RttModel.r_mem (d_chan d)) (RttModel.r_read (d_chan d)) unread /\
      RttModel.r_delivered (d_chan d) ++ unread ++ RttProofs.pending (RttModel.r_dev (d_chan d)) ++ RttModel.data (RttModel.r_ops (d_chan d)) = out (d_sys d).
  Proof.
    intros d R. apply sound_reaches in R as [R (u & V) _ _]. split; auto. destruct V as [Im Iw Ir Ic Iu Ih Id [Iv Iv'] It]. split; [|eauto].
    intros E. rewrite E in Iv. exact Iv.
  Qed.

  (** When a flush returns, the host has everything that was logged before it. *)
  Theorem device_flushed : forall d d' r0, device_reaches size k msg progs d ->
    RttModel.r_dev (d_chan d) = RttModel.DFlushW r0 -> device_step size k msg Channel d d' -> RttModel.r_dev (d_chan d') = RttModel.DNext ->
    RttModel.r_delivered (d_chan d') = out (d_sys d').
  Proof.
    intros d d' r0 R E St N. apply sound_reaches in R as [R (u & V) _ F]. inversion St as [|s c r| |]; subst; cbn [d_sys d_caller d_chan] in *.
    destruct V as [Im Iw Ir Ic Iu Ih Id [Iv _] It]. rewrite E in Iv. destruct Iv as [F1 F2].
    unfold RttModel.dev_step in *. rewrite E in *. destruct (r0 =? RttModel.r_write r) eqn:Q; [|discriminate].
    assert (r0 = RttModel.r_write r) by lia. subst r0. rewrite Z.sub_diag, Z.mod_0_l in F2 by lia.
    assert (L : length u = O) by lia. destruct u; [|discriminate].
    unfold flush_alone in F. rewrite E in F. rewrite F in Id. cbn [app RttProofs.pending RttModel.data] in Id. rewrite app_nil_r in Id. exact Id.
  Qed.
End Safe.
