(** In every fair run on one core the panic message arrives at the host. *)
From Verif Require Import Base RzcobsModel DecoderModel LoggerModel LoggerSpec LoggerProofs LoggerMain DeviceModel DeviceProofs DeviceLive HaltModel HaltProofs.
From Verif Require RttModel RttProofs.

Lemma solo_det : forall lg k msg i a b s x y, solo lg k msg i a s = Some x -> step lg k msg i x = None ->
  solo lg k msg i b s = Some y -> step lg k msg i y = None -> x = y.
Proof.
  intros lg k msg i. induction a as [|a IH]; intros b s x y A Sx B Sy; cbn [solo] in A.
  - injection A as <-. destruct b; cbn [solo] in B; [congruence|]. rewrite Sx in B. discriminate.
  - destruct (step lg k msg i s) as [s1|] eqn:E; [|discriminate]. destruct b; cbn [solo] in B; [congruence|]. rewrite E in B. eapply IH; eauto.
Qed.

Section Halt.
  Context (size : Z) (k : encoding) (msg : option (list task)) (progs : list (list task)) (run : nat -> device) (who : nat -> mover).
  Context (Hok : programs_ok msg progs) (Hbrave : Forall brave progs) (Hmsg : forall body, msg = Some body -> calm_body body) (Hsize : 2 <= size).
  Context (Hboot : device_boot size progs (run O)) (Hfair : core_fair size k msg run who) (Hcore : single_core run who).

  Lemma core_steps : forall n, device_step size k msg (who n) (run n) (run (S n)).
  Proof. destruct Hfair as (H & _). exact H. Qed.

  Lemma core_reach : forall n, reachable Rtt k msg progs (d_sys (run n)).
  Proof. intros n. apply (run_sound size k msg progs run who Hok (sound_boot size k msg progs _ Hboot) core_steps n). Qed.

  Lemma sys_step : forall n, d_sys (run (S n)) = d_sys (run n) \/ exists i, who n = Context i /\ step Rtt k msg i (d_sys (run n)) = Some (d_sys (run (S n))).
  Proof.
    intros n. pose proof (core_steps n) as H. remember (who n) as m eqn:Q1. remember (run n) as d0 eqn:Q2. remember (run (S n)) as d1 eqn:Q3.
    destruct H; cbn [d_sys]; eauto.
  Qed.

  Lemma stays_panicked : forall n m, (n <= m)%nat -> panicked (d_sys (run n)) = true -> panicked (d_sys (run m)) = true.
  Proof.
    intros n m L P. induction L as [|m L IH]; auto. destruct (sys_step m) as [->|(i & _ & St)]; auto. eapply step_panicked; eauto.
  Qed.

  Lemma panic_once : forall t t' i j, panics_at run who t i -> panics_at run who t' j -> t = t' /\ i = j.
  Proof.
    intros t t' i j (A1 & A2 & A3) (B1 & B2 & B3). assert (t = t').
    { destruct (Nat.lt_trichotomy t t') as [L|[E|L]]; auto; exfalso.
      - pose proof (stays_panicked (S t) t' L A2). congruence.
      - pose proof (stays_panicked (S t') t L B2). congruence. }
    subst t'. split; auto. congruence.
  Qed.

  Lemma panic_found : forall m, panicked (d_sys (run m)) = true -> exists t i, (t < m)%nat /\ panics_at run who t i.
  Proof.
    induction m as [|m IH]; intros P.
    - destruct Hboot as (E & _). rewrite E in P. discriminate.
    - destruct (panicked (d_sys (run m))) eqn:P'.
      + destruct (IH eq_refl) as (t & i & L & H). exists t, i. split; auto.
      + destruct (sys_step m) as [E|(i & Q & _)]; [congruence|]. exists m, i. split; [auto|]. split; auto.
  Qed.

  Lemma alone : forall t i m, panics_at run who t i -> (t <= m)%nat -> exists c, solo Rtt k msg i c (d_sys (run t)) = Some (d_sys (run m)).
  Proof.
    intros t i m H L. induction L as [|m L (c & IH)]; [exists O; reflexivity|].
    destruct (sys_step m) as [->|(j & Q & St)]; [eauto|].
    assert (j = i) as ->.
    { destruct (Nat.eq_dec t m) as [->|Ne]; [destruct H as (_ & _ & H); congruence|]. destruct (Hcore m j Q) as (_ & G). symmetry. apply (G t); auto. lia. }
    exists (c + 1)%nat. rewrite (solo_add _ _ _ _ c 1 _ _ IH). cbn [solo]. now rewrite St.
  Qed.

  (** The run comes to rest: without a panic, at the end of all programs, or with one, in the hard
      fault, and the host has got everything that was transmitted. *)
  Theorem comes_to_rest : exists n, returned (d_chan (run n)) /\ RttModel.r_delivered (d_chan (run n)) = out (d_sys (run n)) /\
    ((panicked (d_sys (run n)) = false /\ finished (d_sys (run n)) /\
      exists hist, out (d_sys (run n)) = transmitted k (map snd hist) /\ (forall j w, In (j, w) hist -> (j < length progs)%nat) /\
        forall i ts, nth_error progs i = Some ts -> panics ts = false /\ attempts msg ts = complete (by_ctx i hist)) \/
     exists t i ts hist, (t < n)%nat /\ panics_at run who t i /\ next_op (d_sys (run n)) i = Some OHalt /\ nth_error progs i = Some ts /\ panics ts = true /\
       out (d_sys (run n)) = transmitted k (map snd (hist ++ last_words msg i)) /\ (forall j w, In (j, w) hist -> (j < length progs)%nat) /\
       attempts msg ts = complete (by_ctx i (hist ++ last_words msg i)) /\
       forall j tj, nth_error progs j = Some tj -> exists more, attempts msg tj = complete (by_ctx j (hist ++ last_words msg i)) ++ more).
  Proof.
    pose proof Hfair as (F1 & F2 & F3 & F4).
    destruct (settles_from size k msg progs run who Hok Hsize (sound_boot size k msg progs _ Hboot) F1 F2 F3 (has_core run who) F4 (S (load msg run 0)) O ltac:(lia)) as (n & _ & N & R & D).
    exists n. split; auto. split; auto. destruct (panicked (d_sys (run n))) eqn:P.
    - right. destruct (panic_found n P) as (t & i & L & H). pose proof H as (H1 & H2 & H3).
      assert (Ow : owner (d_sys (run t)) = None \/ owner (d_sys (run t)) = Some i).
      { destruct (Hcore t i H3) as (G & _). destruct (owner (d_sys (run t))) as [j|]; [right; now rewrite (G j eq_refl)|now left]. }
      assert (Nx : next_op (d_sys (run t)) i = Some OPanic).
      { destruct (sys_step t) as [E|(j & Q & St)]; [congruence|]. assert (j = i) as -> by congruence. eapply (panic_is_own Rtt k msg progs); eauto. apply core_reach. }
      destruct (words_of_panic Rtt k msg progs (d_sys (run t)) i Hok Hbrave Hmsg (core_reach t) H1 Nx Ow) as (m & s' & hist & ts & So & _ & Nh & _ & _ & Ni & Pa & Eo & Hb & Ai & Aj).
      destruct (alone t i n H ltac:(lia)) as (c & Sc).
      assert (Hs : step Rtt k msg i s' = None).
      { unfold next_op in Nh. unfold step. destruct (nth_error (ctxs s') i) as [[[|o rest] ls]|]; try discriminate. injection Nh as ->. now destruct s'. }
      assert (Hn : step Rtt k msg i (d_sys (run n)) = None).
      { apply N. split.
        - intros j Q. destruct (solo_owner _ _ _ _ _ _ _ Sc Ow) as [E|E]; congruence.
        - intros t' j L' H'. destruct (panic_once _ _ _ _ H H') as [_ E]. auto. }
      assert (d_sys (run n) = s') as -> by (eapply solo_det; eauto).
      exists t, i, ts, hist. repeat split; auto.
    - left. split; auto. assert (Fi : finished (d_sys (run n))).
      { destruct (brave_progress Rtt k msg progs Hok Hbrave (d_sys (run n)) (core_reach n) P) as [F|(i & s' & St & Ow)]; [exact F|]. exfalso.
        rewrite (N i) in St; [discriminate|]. split.
        - intros j Q. destruct Ow; congruence.
        - intros t j L (_ & H2 & _). pose proof (stays_panicked (S t) n L H2). congruence. }
      split; auto. apply (brave_delivered Rtt k msg progs Hok Hbrave); auto. apply core_reach.
  Qed.
End Halt.
