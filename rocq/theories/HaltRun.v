(** On one core, too, fair runs exist: the channel, the host and the contexts that may have the core take turns. *)
From Verif Require Import Base RzcobsModel DecoderModel LoggerModel LoggerSpec LoggerProofs LoggerMain DeviceModel DeviceProofs DeviceLive DeviceRun HaltModel HaltProofs HaltLive.
From Verif Require RttModel RttProofs RttLive RttExamples.

Lemma turn_succ : forall i, (i mod 3 = 1)%nat -> (S i mod 3 = 2)%nat /\ (S (S i) mod 3 = 0)%nat /\ (S (S (S i)) mod 3 = 1)%nat.
Proof. intros i H. pose proof (Nat.div_mod i 3 ltac:(lia)) as E. repeat split; symmetry; [apply Nat.mod_unique with (q := (i / 3)%nat)|apply Nat.mod_unique with (q := (i / 3 + 1)%nat)|apply Nat.mod_unique with (q := (i / 3 + 1)%nat)]; lia. Qed.
Lemma turn_within : forall n p, (p < 3)%nat -> exists m, (n <= m)%nat /\ (m mod 3 = p)%nat.
Proof.
  intros n p L. exists (3 * S (n / 3) + p)%nat. pose proof (Nat.div_mod n 3 ltac:(lia)) as E. pose proof (Nat.mod_upper_bound n 3 ltac:(lia)). split; [lia|].
  symmetry. apply Nat.mod_unique with (q := S (n / 3)); lia.
Qed.

Section CoreTurns.
  Context (size : Z) (k : encoding) (msg : option (list task)) (free : device -> nat -> bool) (d0 : device).

  (** The first context from [i] on that may have the core and can go on. *)
  Fixpoint pick_core (n i : nat) (d : device) : option (nat * device) :=
    match n with
    | O => None
    | S n' => match (if free d i then move k msg i d else None) with Some d' => Some (i, d') | None => pick_core n' (S i) d end
    end.

  Lemma pick_core_some : forall n i d j d', pick_core n i d = Some (j, d') -> free d j = true /\ move k msg j d = Some d'.
  Proof. induction n as [|n IH]; intros i d j d' H; cbn [pick_core] in H; [discriminate|]. destruct (free d i) eqn:Fr; [|eapply IH; eauto]. destruct (move k msg i d) eqn:E; [injection H as <- <-; auto|]. eapply IH; eauto. Qed.
  Lemma pick_core_none : forall n i d, pick_core n i d = None -> forall j, (i <= j < i + n)%nat -> free d j = true -> move k msg j d = None.
  Proof.
    induction n as [|n IH]; intros i d H j L Fr; [lia|]. cbn [pick_core] in H. destruct (Nat.eq_dec j i) as [->|].
    - rewrite Fr in H. destruct (move k msg i d); [discriminate|reflexivity].
    - destruct (if free d i then move k msg i d else None); [discriminate|]. apply (IH (S i) d H); auto. lia.
  Qed.

  Definition core_turn (phase : nat) (d : device) : mover * device :=
    match phase with
    | O => (Channel, with_chan d (RttModel.dev_step size false (d_chan d)))
    | S O =>
        match RttModel.r_host (d_chan d) with
        | RttModel.HRead w got =>
            if (Z.of_nat (length got) <? (w - RttModel.r_read (d_chan d)) mod size) &&
               match nth_error (RttModel.r_mem (d_chan d)) (Z.to_nat ((RttModel.r_read (d_chan d) + Z.of_nat (length got)) mod size)) with Some _ => false | None => true end
            then (Nobody, d) else (Host, with_chan d (RttExamples.eager_host size (d_chan d)))
        | _ => (Host, with_chan d (RttExamples.eager_host size (d_chan d)))
        end
    | _ => match pick_core (length (ctxs (d_sys d))) 0 d with Some (i, d') => (Context i, d') | None => (Nobody, d) end
    end.

  Lemma core_turn_step : forall p d, device_step size k msg (fst (core_turn p d)) d (snd (core_turn p d)).
  Proof.
    intros [|[|p]] [s c r]; cbn [core_turn].
    - cbn [fst snd]. apply Step_channel.
    - cbn [d_chan]. unfold RttExamples.eager_host. destruct (RttModel.r_host r) as [|w got] eqn:E.
      + apply Step_host. now constructor.
      + destruct (Z.of_nat (length got) <? (w - RttModel.r_read r) mod size) eqn:L; cbn [andb].
        * destruct (nth_error (RttModel.r_mem r) _) as [x|] eqn:N; [|apply Step_nobody]. cbn [fst snd]. apply Step_host. econstructor; eauto. lia.
        * cbn [fst snd]. apply Step_host. unfold RttLive.consumed. eapply RttModel.host_store; eauto.
    - destruct (pick_core (length (ctxs (d_sys (MkDevice s c r)))) 0 (MkDevice s c r)) as [[i d']|] eqn:P; cbn [fst snd]; [|apply Step_nobody].
      apply move_step. apply pick_core_some in P. apply P.
  Qed.

  Fixpoint core_turns (n : nat) : device :=
    match n with O => d0 | S n' => snd (core_turn (Nat.modulo n' 3) (core_turns n')) end.
  Definition core_who (n : nat) : mover := fst (core_turn (Nat.modulo n 3) (core_turns n)).

  Context (Hsize : 2 <= size) (Hinv : forall n, exists D u, RttProofs.inv size D (d_chan (core_turns n)) u).

  Notation remaining := (RttExamples.host_left size).

  Lemma other_left : forall p d, p <> 1%nat -> remaining (d_chan (snd (core_turn p d))) = remaining (d_chan d).
  Proof.
    intros [|[|p]] d N; [|congruence|]; cbn [core_turn].
    - cbn [snd with_chan d_chan]. destruct (RttLive.dev_step_keeps size (d_chan d)) as (_ & H1 & H2 & _). unfold RttExamples.host_left. now rewrite H1, H2.
    - destruct (pick_core _ _ _) as [[i d']|] eqn:P; [|reflexivity]. cbn [snd]. apply pick_core_some in P as [_ P]. unfold move in P.
      destruct (nth_error (ctxs (d_sys d)) i) as [[[|o rest] ls]|]; try discriminate. destruct (_ && _); [discriminate|]. destruct (step Rtt k msg i (d_sys d)); [|discriminate].
      injection P as <-. reflexivity.
  Qed.

  Lemma host_takes : forall n i, (i mod 3 = 1)%nat -> (Z.to_nat (remaining (d_chan (core_turns i))) < n)%nat ->
    exists j w got, (i <= j)%nat /\ RttModel.r_host (d_chan (core_turns j)) = RttModel.HRead w got /\
       Z.of_nat (length got) = (w - RttModel.r_read (d_chan (core_turns j))) mod size /\ core_who j = Host /\
       RttModel.r_host (d_chan (core_turns (S j))) = RttModel.HIdle.
  Proof.
    induction n as [|n IH]; intros i O L; [lia|].
    destruct (Hinv i) as (D & u & Iv). pose proof (RttProofs.i_host _ _ _ _ Iv) as IH'. unfold RttProofs.host_inv in IH'.
    destruct (turn_succ i O) as (O1 & O2 & O3).
    assert (T : core_turns (S i) = snd (core_turn 1 (core_turns i))) by (cbn [core_turns]; now rewrite O).
    assert (HL : remaining (d_chan (core_turns (S (S (S i))))) = remaining (d_chan (core_turns (S i)))).
    { change (core_turns (S (S (S i)))) with (snd (core_turn (S (S i) mod 3) (snd (core_turn (S i mod 3) (core_turns (S i)))))).
      rewrite O1, O2, other_left, other_left by discriminate. reflexivity. }
    set (r := d_chan (core_turns i)) in *.
    destruct (RttModel.r_host r) as [|w got] eqn:E.
    - assert (B : 0 <= remaining (d_chan (core_turns (S i))) < remaining r).
      { rewrite T. cbn [core_turn]. fold r. rewrite E. cbn [snd with_chan d_chan]. unfold RttExamples.eager_host, RttExamples.host_left. rewrite E. cbn.
        pose proof (Z.mod_pos_bound (RttModel.r_write r - RttModel.r_read r) size ltac:(lia)). lia. }
      destruct (IH (S (S (S i))) O3 ltac:(lia)) as (j & w & got & J1 & J2). exists j, w, got. split; [lia|exact J2].
    - destruct IH' as (W1 & W2 & W3 & v & W4).
      destruct (Z.of_nat (length got) <? (w - RttModel.r_read r) mod size) eqn:Q.
      + pose proof (RttProofs.i_holds _ _ _ _ Iv) as Hh. subst u. destruct v as [|x v]. { rewrite app_nil_r in W2. lia. }
        specialize (Hh (length got) x). rewrite nth_error_app2, Nat.sub_diag in Hh by lia. specialize (Hh eq_refl).
        assert (B : 0 <= remaining (d_chan (core_turns (S i))) < remaining r).
        { rewrite T. cbn [core_turn]. fold r. rewrite E, Q, Hh. cbn [andb snd with_chan d_chan]. unfold RttExamples.eager_host, RttExamples.host_left. rewrite E, Q, Hh. cbn.
          rewrite app_length. cbn [length]. lia. }
        destruct (IH (S (S (S i))) O3 ltac:(lia)) as (j & w' & got' & J1 & J2). exists j, w', got'. split; [lia|exact J2].
      + exists i, w, got. fold r. split; auto. split; auto. split; [lia|]. split.
        * unfold core_who. rewrite O. cbn [core_turn]. fold r. rewrite E, Q. reflexivity.
        * rewrite T. cbn [core_turn]. fold r. rewrite E, Q. cbn [andb snd with_chan d_chan]. unfold RttExamples.eager_host. rewrite E, Q. reflexivity.
  Qed.

  Theorem inv_core_fair :
    (forall n, device_step size k msg (core_who n) (core_turns n) (core_turns (S n))) /\
    (forall n, exists m, (n <= m)%nat /\ core_who m = Channel) /\
    (forall n, exists m w got, (n <= m)%nat /\ RttModel.r_host (d_chan (core_turns m)) = RttModel.HRead w got /\
       Z.of_nat (length got) = (w - RttModel.r_read (d_chan (core_turns m))) mod size /\ core_who m = Host /\
       RttModel.r_host (d_chan (core_turns (S m))) = RttModel.HIdle) /\
    (forall n, exists m, (n <= m)%nat /\ ((exists i, core_who m = Context i) \/ forall i, free (core_turns m) i = true -> ~ can_move size k msg i (core_turns m))).
  Proof.
    split; [intros n; apply core_turn_step|]. split; [|split].
    - intros n. destruct (turn_within n 0 ltac:(lia)) as (m & L & E). exists m. split; auto. unfold core_who. now rewrite E.
    - intros n. destruct (turn_within n 1 ltac:(lia)) as (m & L & E).
      destruct (host_takes _ m E (Nat.lt_succ_diag_r _)) as (j & w & got & J1 & J2). exists j, w, got. split; [lia|exact J2].
    - intros n. destruct (turn_within n 2 ltac:(lia)) as (m & L & E). exists m. split; auto. unfold core_who. rewrite E. cbn [core_turn].
      destruct (pick_core (length (ctxs (d_sys (core_turns m)))) 0 (core_turns m)) as [[i d']|] eqn:P; [left; exists i; reflexivity|]. right. intros i Fr. apply move_none.
      destruct (Nat.lt_ge_cases i (length (ctxs (d_sys (core_turns m))))) as [Li|Li]; [eapply pick_core_none; eauto; lia|now apply move_out].
  Qed.

  Lemma core_who_free : forall n i, core_who n = Context i -> free (core_turns n) i = true.
  Proof.
    intros n i H. unfold core_who in H. destruct (Nat.modulo n 3) as [|[|p]]; cbn [core_turn] in H.
    - discriminate.
    - destruct (RttModel.r_host (d_chan (core_turns n))); [discriminate|]. destruct (_ && _); discriminate.
    - destruct (pick_core _ _ _) as [[j d']|] eqn:P; [|discriminate]. cbn [fst] in H. injection H as ->. apply pick_core_some in P. apply P.
  Qed.
End CoreTurns.

(** Who may have the core: a context that is in the hard fault or on the way to it is the one that panicked. *)
Definition dying (c : ctx) : bool := existsb is_halt (code c).
Definition core_free (d : device) (i : nat) : bool :=
  match owner (d_sys d) with Some j => Nat.eqb j i | None => true end &&
  (negb (panicked (d_sys d)) || match nth_error (ctxs (d_sys d)) i with Some c => dying c | None => false end).

Lemma core_free_eq : forall d i, core_free d i =
  match owner (d_sys d) with Some j => Nat.eqb j i | None => true end &&
  (negb (panicked (d_sys d)) || match nth_error (ctxs (d_sys d)) i with Some c => dying c | None => false end).
Proof. reflexivity. Qed.

Lemma handler_dying : forall lg msg p, existsb is_halt (comp lg (handler msg p)) = true.
Proof.
  intros lg msg p. apply existsb_exists. exists OHalt. split; [|reflexivity]. unfold handler. destruct p; [now left|]. destruct msg as [body|]; [|now left].
  rewrite !comp_cons. apply in_or_app. right. now left.
Qed.

Section Core.
  Context (size : Z) (k : encoding) (msg : option (list task)) (progs : list (list task)) (d0 : device).
  Context (Hok : programs_ok msg progs) (Hlive : Forall (fun ts => existsb is_halt (comp Rtt ts) = false) progs) (Hsize : 2 <= size) (Hboot : device_boot size progs d0).

  Notation crun := (core_turns size k msg core_free d0).
  Notation cwho := (core_who size k msg core_free d0).

  Lemma crun_sound : forall n, sound size k msg progs (crun n).
  Proof.
    induction n as [|n IH]; [now apply sound_boot|]. refine (sound_step _ _ _ _ _ (core_who size k msg core_free d0 n) _ _ _ IH); auto. exact (core_turn_step size k msg core_free d0 _ _).
  Qed.

  Lemma crun_steps : forall n, device_step size k msg (cwho n) (crun n) (crun (S n)).
  Proof. intros n. exact (core_turn_step size k msg core_free d0 _ _). Qed.

  Lemma crun_sys : forall n, d_sys (crun (S n)) = d_sys (crun n) \/ exists i, cwho n = Context i /\ step Rtt k msg i (d_sys (crun n)) = Some (d_sys (crun (S n))).
  Proof.
    intros n. pose proof (crun_steps n) as H. remember (cwho n) as m eqn:Q1. remember (crun n) as d eqn:Q2. remember (crun (S n)) as d' eqn:Q3.
    destruct H; cbn [d_sys]; eauto.
  Qed.

  (** Before the panic nobody is dying; afterwards the context that panicked, and only this one. *)
  Definition told (n : nat) : Prop :=
    (panicked (d_sys (crun n)) = false /\ forall i c, nth_error (ctxs (d_sys (crun n))) i = Some c -> dying c = false) \/
    (panicked (d_sys (crun n)) = true /\ exists t i, (t < n)%nat /\ panics_at crun cwho t i /\
      forall j c, nth_error (ctxs (d_sys (crun n))) j = Some c -> (dying c = true <-> j = i)).

  Lemma all_told : forall n, told n.
  Proof.
    induction n as [|n IH].
    - left. cbn [core_turns]. destruct Hboot as (E & _). rewrite E. split; [reflexivity|]. intros i c H. cbn [boot ctxs] in H. rewrite nth_error_map in H.
      destruct (nth_error progs i) as [ts|] eqn:N; [|discriminate]. injection H as <-. unfold dying. cbn [code]. rewrite Forall_forall in Hlive. apply Hlive. eapply nth_error_In; eauto.
    - destruct (crun_sys n) as [E|(i & W & St)].
      + destruct IH as [(P & A)|(P & t & i & L & H & A)]; [left|right]; rewrite E; auto. split; auto. exists t, i. split; auto.
      + pose proof St as St'. unfold step in St. destruct (nth_error (ctxs (d_sys (crun n))) i) as [[[|o rest] ls]|] eqn:N; try discriminate.
        destruct (exec k i o (d_sys (crun n)) ls) as [s1 ls1| |] eqn:X; try discriminate; assert (Es := f_equal (fun o => match o with Some x => x | None => d_sys (crun n) end) St); cbv beta iota in Es; clear St.
        * destruct (exec_same _ _ _ _ _ _ _ X) as (E1 & E2 & E3). assert (D : dying (MkCtx rest ls1) = dying (MkCtx (o :: rest) ls)) by (unfold dying; cbn [code existsb]; destruct o; cbn [is_halt orb]; congruence).
          destruct IH as [(P & A)|(P & t & i0 & L & H & A)]; [left|right]; unfold told; rewrite <- Es; unfold set_ctx; cbn [panicked ctxs]; rewrite E1, E2.
          -- split; auto. intros j c Hj. destruct (Nat.eq_dec i j) as [<-|Ne]; [rewrite (upd_same _ _ _ _ _ N) in Hj; injection Hj as <-; rewrite D; eauto|]. rewrite upd_other in Hj by auto. eauto.
          -- split; auto. exists t, i0. split; auto. split; auto. intros j c Hj. destruct (Nat.eq_dec i j) as [<-|Ne]; [rewrite (upd_same _ _ _ _ _ N) in Hj; injection Hj as <-; rewrite D; eauto|]. rewrite upd_other in Hj by auto. eauto.
        * right. rewrite <- Es. unfold set_ctx, set_panicked; cbn [panicked ctxs]. split; auto.
          destruct IH as [(P & A)|(P & t & i0 & L & H & A)].
          -- exists n, i. split; auto. split; [split; [exact P|]; split; [rewrite <- Es; reflexivity|exact W]|]. intros j c Hj. destruct (Nat.eq_dec i j) as [<-|Ne].
             ++ rewrite (upd_same _ _ _ _ _ N) in Hj. injection Hj as <-. unfold dying. cbn [code]. rewrite handler_dying. split; auto.
             ++ rewrite upd_other in Hj by auto. rewrite (A _ _ Hj). split; [discriminate|congruence].
          -- exists t, i0. split; auto. split; auto. assert (Q : i = i0).
             { assert (Fr : core_free (crun n) i = true) by exact (core_who_free _ _ _ _ _ _ _ W). rewrite core_free_eq in Fr. rewrite P, N in Fr. apply andb_prop in Fr as [_ Fr]. cbn [negb orb] in Fr. apply (A _ _ N). exact Fr. }
             subst i0. intros j c Hj. destruct (Nat.eq_dec i j) as [<-|Ne].
             ++ rewrite (upd_same _ _ _ _ _ N) in Hj. injection Hj as <-. unfold dying. cbn [code]. rewrite handler_dying. split; auto.
             ++ rewrite upd_other in Hj by auto. apply A. exact Hj.
  Qed.

  Lemma free_core : forall n i, (exists c, nth_error (ctxs (d_sys (crun n))) i = Some c) -> (core_free (crun n) i = true <-> has_core crun cwho n i).
  Proof.
    intros n i (c & N). rewrite core_free_eq. unfold has_core. rewrite N, andb_true_iff, orb_true_iff, negb_true_iff. split.
    - intros [A B]. split.
      + intros j Q. rewrite Q in A. now apply Nat.eqb_eq in A.
      + intros t j L (H1 & H2 & H3). destruct (all_told n) as [(P & _)|(P & t0 & i0 & L0 & H0 & D)].
        * exfalso. assert (panicked (d_sys (crun n)) = true); [|congruence]. clear - H2 L. induction L as [|n L IH]; auto. destruct (crun_sys n) as [->|(i & _ & St)]; auto. eapply step_panicked; eauto.
        * destruct B as [B|B]; [congruence|]. apply (D _ _ N) in B. subst i0.
          assert (t = t0).
          { destruct H0 as (G1 & G2 & _). assert (M : forall a b, (a <= b)%nat -> panicked (d_sys (crun a)) = true -> panicked (d_sys (crun b)) = true).
            { intros a b Lab Pa. induction Lab as [|b Lab IH]; auto. destruct (crun_sys b) as [->|(x & _ & St)]; auto. eapply step_panicked; eauto. }
            destruct (Nat.lt_trichotomy t t0) as [Q|[Q|Q]]; auto; exfalso; [pose proof (M (S t) t0 Q H2)|pose proof (M (S t0) t Q G2)]; congruence. }
          subst t0. destruct H0 as (_ & _ & H0). congruence.
    - intros [A B]. split.
      + destruct (owner (d_sys (crun n))) as [j|]; auto. apply Nat.eqb_eq. auto.
      + destruct (all_told n) as [(P & _)|(P & t0 & i0 & L0 & H0 & D)]; [now left|]. right. apply (D _ _ N). symmetry. eapply B; eauto.
  Qed.

  Theorem core_turns_fair : core_fair size k msg crun cwho /\ single_core crun cwho.
  Proof.
    destruct (inv_core_fair size k msg core_free d0 Hsize) as (A & B & C & D).
    { intros n. destruct (crun_sound n) as [_ (u & V) _ _]. eauto. }
    split.
    - split; [exact A|]. split; [exact B|]. split; [exact C|]. intros n. destruct (D n) as (m & L & [G|G]); exists m; auto. split; auto. right. intros i Hc Cm.
      refine (G i _ Cm). apply free_core; auto. destruct Cm as (d' & Cm). inversion Cm; subst. cbn [d_sys]. eauto.
    - intros n i W. apply free_core; [|eapply core_who_free; eauto]. destruct (crun_sys n) as [E|(j & W' & St)].
      + pose proof (crun_steps n) as H. rewrite W in H. inversion H; subst. cbn [d_sys]. eauto.
      + assert (j = i) as -> by congruence. unfold step in St. destruct (nth_error _ _); [eauto|discriminate].
  Qed.
End Core.
