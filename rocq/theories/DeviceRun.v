(** Fair runs of the device exist: the channel, the host and the contexts take turns. *)
From Verif Require Import Base RzcobsModel DecoderModel LoggerModel LoggerSpec LoggerProofs LoggerMain DeviceModel DeviceProofs DeviceLive.
From Verif Require RttModel RttProofs RttLive RttExamples.

Definition returnedb (r : RttModel.rtt) : bool :=
  match RttModel.r_dev r, RttModel.r_ops r with RttModel.DNext, [] => true | _, _ => false end.
Lemma returnedb_true : forall r, returnedb r = true <-> returned r.
Proof.
  intros r. unfold returnedb, returned. split; [|now intros [-> ->]].
  destruct (RttModel.r_dev r) as [| | | | | | | |]; try discriminate. destruct (RttModel.r_ops r); [auto|discriminate].
Qed.

Section Turns.
  Context (size : Z) (k : encoding) (msg : option (list task)) (progs : list (list task)) (d0 : device).

  Definition is_caller (d : device) (i : nat) : bool := match d_caller d with Some j => Nat.eqb j i | None => false end.

  Definition plain_calls (o : op) (emitted : bytes) : list RttModel.devop :=
    match o with OStart | OWrite _ | OEnd => [RttModel.OWrite emitted] | OFlush => [RttModel.OFlush] | _ => [] end.

  Definition move (i : nat) (d : device) : option device :=
    match nth_error (ctxs (d_sys d)) i with
    | Some (MkCtx (o :: _) _) =>
        if is_caller d i && negb (returnedb (d_chan d)) then None
        else match step Rtt k msg i (d_sys d) with
             | Some s' =>
                 let ops := plain_calls o (skipn (length (out (d_sys d))) (out s')) in
                 Some (MkDevice s' (match ops with [] => d_caller d | _ => Some i end) (call (d_chan d) ops))
             | None => None
             end
    | _ => None
    end.

  Lemma move_step : forall i d d', move i d = Some d' -> device_step size k msg (Context i) d d'.
  Proof.
    intros i [s c r] d' H. unfold move in H. cbn [d_sys d_caller d_chan] in H. destruct (nth_error (ctxs s) i) as [[[|o rest] ls]|] eqn:E; try discriminate.
    destruct (is_caller (MkDevice s c r) i && negb (returnedb r)) eqn:B; [discriminate|]. destruct (step Rtt k msg i s) as [s'|] eqn:St; [|discriminate].
    injection H as <-. destruct (step_emits _ _ _ _ _ _ St) as [em Em]. eapply Step_context; eauto.
    - intros ->. unfold is_caller in B. cbn [d_caller] in B. rewrite Nat.eqb_refl in B. cbn in B. apply returnedb_true. now destruct (returnedb r).
    - rewrite Em, skipn_app, skipn_all, Nat.sub_diag. cbn [app]. destruct o; cbn [calls plain_calls]; auto; exists [em]; cbn; now rewrite app_nil_r.
  Qed.

  Lemma move_none : forall i d, move i d = None -> ~ can_move size k msg i d.
  Proof.
    intros i d H [d' St]. inversion St as [i0 s s' o rest ls emitted ops caller r E W Ls Eo Ca| | |]; subst. unfold move in H. cbn [d_sys d_caller d_chan] in H.
    rewrite E, Ls in H. destruct (is_caller (MkDevice s caller r) i && negb (returnedb r)) eqn:B; [|discriminate].
    apply andb_prop in B as [B1 B2]. unfold is_caller in B1. cbn [d_caller] in B1. destruct caller as [j|]; [|discriminate]. apply Nat.eqb_eq in B1. subst j.
    specialize (W eq_refl). apply returnedb_true in W. rewrite W in B2. discriminate.
  Qed.

  (** The first context from [i] on that can go on. *)
  Fixpoint pick (n i : nat) (d : device) : option (nat * device) :=
    match n with
    | O => None
    | S n' => match move i d with Some d' => Some (i, d') | None => pick n' (S i) d end
    end.

  Lemma pick_some : forall n i d j d', pick n i d = Some (j, d') -> move j d = Some d'.
  Proof. induction n as [|n IH]; intros i d j d' H; cbn [pick] in H; [discriminate|]. destruct (move i d) eqn:E; [congruence|]. eapply IH; eauto. Qed.
  Lemma pick_none : forall n i d, pick n i d = None -> forall j, (i <= j < i + n)%nat -> move j d = None.
  Proof.
    induction n as [|n IH]; intros i d H j L; [lia|]. cbn [pick] in H. destruct (move i d) eqn:E; [discriminate|].
    destruct (Nat.eq_dec j i) as [->|]; auto. apply (IH (S i) d H). lia.
  Qed.
  Lemma move_out : forall j d, (length (ctxs (d_sys d)) <= j)%nat -> move j d = None.
  Proof. intros j d L. unfold move. apply nth_error_None in L. now rewrite L. Qed.

  Definition with_chan (d : device) (r : RttModel.rtt) : device := MkDevice (d_sys d) (d_caller d) r.

  Definition take_turn (phase : nat) (d : device) : mover * device :=
    match phase with
    | O => (Channel, with_chan d (RttModel.dev_step size false (d_chan d)))
    | S O =>
        match RttModel.r_host (d_chan d) with
        | RttModel.HRead w got =>
            if (Z.of_nat (length got) <? (w - RttModel.r_read (d_chan d)) mod size) &&
               match nth_error (RttModel.r_mem (d_chan d)) (Z.to_nat ((RttModel.r_read (d_chan d) + Z.of_nat (length got)) mod size)) with Some _ => false | None => true end
            then (Nobody, d) else (Host, with_chan d (RttExamples.eager_host size (d_chan d)))
        | _ => (Host, with_chan d (RttExamples.eager_host size (d_chan d)))
        end
    | _ => match pick (length (ctxs (d_sys d))) 0 d with Some (i, d') => (Context i, d') | None => (Nobody, d) end
    end.

  Lemma take_turn_step : forall p d, device_step size k msg (fst (take_turn p d)) d (snd (take_turn p d)).
  Proof.
    intros [|[|p]] [s c r]; cbn [take_turn].
    - cbn [fst snd]. apply Step_channel.
    - cbn [d_chan]. unfold RttExamples.eager_host. destruct (RttModel.r_host r) as [|w got] eqn:E.
      + apply Step_host. now constructor.
      + destruct (Z.of_nat (length got) <? (w - RttModel.r_read r) mod size) eqn:L; cbn [andb].
        * destruct (nth_error (RttModel.r_mem r) _) as [x|] eqn:N; [|apply Step_nobody]. cbn [fst snd]. apply Step_host. econstructor; eauto. lia.
        * cbn [fst snd]. apply Step_host. unfold RttLive.consumed. eapply RttModel.host_store; eauto.
    - destruct (pick (length (ctxs (d_sys (MkDevice s c r)))) 0 (MkDevice s c r)) as [[i d']|] eqn:P; cbn [fst snd]; [|apply Step_nobody].
      apply move_step. eapply pick_some; eauto.
  Qed.

  Fixpoint device_turns (n : nat) : device :=
    match n with O => d0 | S n' => snd (take_turn (Nat.modulo n' 3) (device_turns n')) end.
  Definition turn_of (n : nat) : mover := fst (take_turn (Nat.modulo n 3) (device_turns n)).

  Context (Hsize : 2 <= size) (Hinv : forall n, exists D u, RttProofs.inv size D (d_chan (device_turns n)) u).

  Notation remaining := (RttExamples.host_left size).

  Lemma other_left : forall p d, p <> 1%nat -> remaining (d_chan (snd (take_turn p d))) = remaining (d_chan d).
  Proof.
    intros [|[|p]] d N; [|congruence|]; cbn [take_turn].
    - cbn [snd with_chan d_chan]. destruct (RttLive.dev_step_keeps size (d_chan d)) as (_ & H1 & H2 & _). unfold RttExamples.host_left. now rewrite H1, H2.
    - destruct (pick _ _ _) as [[i d']|] eqn:P; [|reflexivity]. cbn [snd]. apply pick_some in P. unfold move in P.
      destruct (nth_error (ctxs (d_sys d)) i) as [[[|o rest] ls]|]; try discriminate. destruct (_ && _); [discriminate|]. destruct (step Rtt k msg i (d_sys d)); [|discriminate].
      injection P as <-. reflexivity.
  Qed.

  Lemma phase_succ : forall i, (i mod 3 = 1)%nat -> (S i mod 3 = 2)%nat /\ (S (S i) mod 3 = 0)%nat /\ (S (S (S i)) mod 3 = 1)%nat.
  Proof. intros i H. pose proof (Nat.div_mod i 3 ltac:(lia)) as E. repeat split; symmetry; [apply Nat.mod_unique with (q := (i / 3)%nat)|apply Nat.mod_unique with (q := (i / 3 + 1)%nat)|apply Nat.mod_unique with (q := (i / 3 + 1)%nat)]; lia. Qed.

  Lemma host_takes : forall n i, (i mod 3 = 1)%nat -> (Z.to_nat (remaining (d_chan (device_turns i))) < n)%nat ->
    exists j w got, (i <= j)%nat /\ RttModel.r_host (d_chan (device_turns j)) = RttModel.HRead w got /\
       Z.of_nat (length got) = (w - RttModel.r_read (d_chan (device_turns j))) mod size /\ turn_of j = Host /\
       RttModel.r_host (d_chan (device_turns (S j))) = RttModel.HIdle.
  Proof.
    induction n as [|n IH]; intros i O L; [lia|].
    destruct (Hinv i) as (D & u & Iv). pose proof (RttProofs.i_host _ _ _ _ Iv) as IH'. unfold RttProofs.host_inv in IH'.
    destruct (phase_succ i O) as (O1 & O2 & O3).
    assert (T : device_turns (S i) = snd (take_turn 1 (device_turns i))) by (cbn [device_turns]; now rewrite O).
    assert (HL : remaining (d_chan (device_turns (S (S (S i))))) = remaining (d_chan (device_turns (S i)))).
    { change (device_turns (S (S (S i)))) with (snd (take_turn (S (S i) mod 3) (snd (take_turn (S i mod 3) (device_turns (S i)))))).
      rewrite O1, O2, other_left, other_left by discriminate. reflexivity. }
    set (r := d_chan (device_turns i)) in *.
    destruct (RttModel.r_host r) as [|w got] eqn:E.
    - assert (B : 0 <= remaining (d_chan (device_turns (S i))) < remaining r).
      { rewrite T. cbn [take_turn]. fold r. rewrite E. cbn [snd with_chan d_chan]. unfold RttExamples.eager_host, RttExamples.host_left. rewrite E. cbn.
        pose proof (Z.mod_pos_bound (RttModel.r_write r - RttModel.r_read r) size ltac:(lia)). lia. }
      destruct (IH (S (S (S i))) O3 ltac:(lia)) as (j & w & got & J1 & J2). exists j, w, got. split; [lia|exact J2].
    - destruct IH' as (W1 & W2 & W3 & v & W4).
      destruct (Z.of_nat (length got) <? (w - RttModel.r_read r) mod size) eqn:Q.
      + pose proof (RttProofs.i_holds _ _ _ _ Iv) as Hh. subst u. destruct v as [|x v]. { rewrite app_nil_r in W2. lia. }
        specialize (Hh (length got) x). rewrite nth_error_app2, Nat.sub_diag in Hh by lia. specialize (Hh eq_refl).
        assert (B : 0 <= remaining (d_chan (device_turns (S i))) < remaining r).
        { rewrite T. cbn [take_turn]. fold r. rewrite E, Q, Hh. cbn [andb snd with_chan d_chan]. unfold RttExamples.eager_host, RttExamples.host_left. rewrite E, Q, Hh. cbn.
          rewrite app_length. cbn [length]. lia. }
        destruct (IH (S (S (S i))) O3 ltac:(lia)) as (j & w' & got' & J1 & J2). exists j, w', got'. split; [lia|exact J2].
      + exists i, w, got. fold r. split; auto. split; auto. split; [lia|]. split.
        * unfold turn_of. rewrite O. cbn [take_turn]. fold r. rewrite E, Q. reflexivity.
        * rewrite T. cbn [take_turn]. fold r. rewrite E, Q. cbn [andb snd with_chan d_chan]. unfold RttExamples.eager_host. rewrite E, Q. reflexivity.
  Qed.

  Lemma phase_within : forall n p, (p < 3)%nat -> exists m, (n <= m)%nat /\ (m mod 3 = p)%nat.
  Proof.
    intros n p L. exists (3 * S (n / 3) + p)%nat. pose proof (Nat.div_mod n 3 ltac:(lia)) as E. pose proof (Nat.mod_upper_bound n 3 ltac:(lia)). split; [lia|].
    symmetry. apply Nat.mod_unique with (q := S (n / 3)); lia.
  Qed.

  Theorem inv_turns_fair : device_fair size k msg device_turns turn_of.
  Proof.
    split; [intros n; apply take_turn_step|]. split; [|split].
    - intros n. destruct (phase_within n 0 ltac:(lia)) as (m & L & E). exists m. split; auto. unfold turn_of. now rewrite E.
    - intros n. destruct (phase_within n 1 ltac:(lia)) as (m & L & E).
      destruct (host_takes _ m E (Nat.lt_succ_diag_r _)) as (j & w & got & J1 & J2). exists j, w, got. split; [lia|exact J2].
    - intros n. destruct (phase_within n 2 ltac:(lia)) as (m & L & E). exists m. split; auto. unfold turn_of. rewrite E. cbn [take_turn].
      destruct (pick (length (ctxs (d_sys (device_turns m)))) 0 (device_turns m)) as [[i d']|] eqn:P; [left; exists i; reflexivity|]. right. intros i. apply move_none.
      destruct (Nat.lt_ge_cases i (length (ctxs (d_sys (device_turns m))))) as [Li|Li]; [eapply pick_none; eauto; lia|now apply move_out].
  Qed.
End Turns.

Theorem device_turns_fair : forall size k msg progs d0, programs_ok msg progs -> 2 <= size -> device_boot size progs d0 ->
  device_fair size k msg (device_turns size k msg d0) (turn_of size k msg d0).
Proof.
  intros size k msg progs d0 Hok Hs Hb. apply inv_turns_fair; auto. intros n.
  assert (Sd : sound size k msg progs (device_turns size k msg d0 n)).
  { induction n as [|n IH]; [now apply sound_boot|]. eapply sound_step; eauto. apply take_turn_step. }
  destruct Sd as [_ (u & V) _ _]. eauto.
Qed.
