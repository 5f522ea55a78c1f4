(** Progress of the RTT channel: in every fair run everything is delivered (C28), the
    channel is safe for every host (C29), non-blocking writes terminate (C29). *)
From Verif Require Import Base RttModel RttProofs.

Section Lax.
  Context (size : Z) (Hsize : 2 <= size).
  Context (run : nat -> rtt).
  Notation dstep := (dev_step size false).

  (** A run with a host that may see old write offsets. *)
  Context (VR : forall i, run (S i) = run i \/ lax_step size (run i) (run (S i))).
  Context (D : bytes) (I0 : exists u, inv size D (run O) u).

  Lemma run_inv : forall i, exists u, inv size D (run i) u.
  Proof.
    induction i as [|i (u & IH)]; [exact I0|].
    - destruct (VR i) as [->|H]; [eauto|]. eapply inv_lax; eauto.
  Qed.

  Definition got_so_far (i : nat) : nat := length (r_delivered (run i)).

  Lemma delivered_bound : forall i, (got_so_far i <= length D)%nat.
  Proof.
    intros i. destruct (run_inv i) as (u & I). unfold got_so_far. rewrite <- (i_data _ _ _ _ I), !app_length. lia.
  Qed.

  Lemma dev_step_keeps : forall s, r_delivered (dstep s) = r_delivered s /\ r_host (dstep s) = r_host s /\
    r_read (dstep s) = r_read s /\ (r_write (dstep s) = r_write s \/ exists c bs cu len, r_dev s = DStore c bs cu len).
  Proof.
    intros s. unfold dev_step. destruct (r_dev s) as [|conn bs|bs|bs [r0|]|conn bs cursor len k|conn bs cursor len| |r0|].
    - destruct (r_ops s) as [|[bs|] o]; cbn; auto. destruct (r_connected s); cbn; auto.
    - destruct bs; cbn; auto.
    - cbn; auto.
    - destruct (available size r0 (r_write s)) as [n|]; [destruct (n =? 0)|]; cbn; auto.
    - cbn; auto.
    - destruct (k <? len); [|cbn; auto]. destruct (nth_error bs (Z.to_nat k)); [|cbn; auto].
      destruct (_ && _); cbn; auto.
    - destruct (size =? 0); cbn; repeat split; auto. right. eauto 6.
    - cbn; auto.
    - destruct (r0 =? r_write s); cbn; auto.
    - auto.
  Qed.

  Lemma step_mono : forall i, (got_so_far i <= got_so_far (S i))%nat.
  Proof.
    intros i. unfold got_so_far. destruct (VR i) as [->|H]; auto.
    inversion H as [s E|s s' HS|s w E B L]; subst.
    - destruct (dev_step_keeps (run i)) as (-> & _). auto.
    - inversion HS; subst; cbn; auto. rewrite app_length. lia.
    - cbn. auto.
  Qed.

  Lemma run_mono : forall i j, (i <= j)%nat -> (got_so_far i <= got_so_far j)%nat.
  Proof. intros i j H. induction H as [|j H IH]; auto. pose proof (step_mono j). lia. Qed.

  Lemma mod_zero_iff : forall r w, 0 <= r < size -> 0 <= w < size -> ((w - r) mod size = 0 <-> w = r).
  Proof. intros r w Hr Hw. pose proof (mod_diff size r w Hr Hw). flia. Qed.

  Lemma unread_stays : forall i, r_read (run i) <> r_write (run i) ->
    (got_so_far i < got_so_far (S i))%nat \/ r_read (run (S i)) <> r_write (run (S i)).
  Proof.
    intros i N. destruct (VR i) as [E|H]; [right; congruence|].
    destruct (run_inv i) as (u & I). unfold got_so_far.
    inversion H as [s E|s s' HS|s w E B L]; subst; [| |right; exact N].
    - right. destruct (dev_step_keeps (run i)) as (_ & _ & -> & [->|(c & bs & cu & len & Q)]); auto.
      destruct (i_dev _ _ _ _ I) as [V _]. rewrite Q in V. destruct V as [_ (C1 & C2 & C3 & C4 & C5 & _)].
      unfold dev_step. rewrite Q. replace (size =? 0) with false by lia. cbn. subst cu.
      pose proof (i_read _ _ _ _ I) as Ir. pose proof (i_write _ _ _ _ I) as Iw. pose proof (i_unread _ _ _ _ I) as Iu.
      pose proof (mod_wrap size (r_write (run i) + len) ltac:(lia)) as M1. pose proof (mod_diff size _ _ Ir Iw) as M2.
      clear - M1 M2 C2 C3 C4 C5 Ir Iw Iu. flia.
    - inversion HS as [s E|s w got x E L X|s w got E]; subst; auto.
      destruct got as [|b got]; [right|left; cbn; rewrite app_length; cbn [length]; lia].
      cbn. rewrite Z.add_0_r, Z.mod_small; auto. apply I.
  Qed.

  Lemma unread_until : forall i j, (i <= j)%nat -> r_read (run i) <> r_write (run i) ->
    (got_so_far i < got_so_far j)%nat \/ r_read (run j) <> r_write (run j).
  Proof.
    intros i j H N. induction H as [|j H IH]; auto. destruct IH as [IH|IH].
    - left. pose proof (step_mono j). lia.
    - destruct (unread_stays j IH); auto. left. pose proof (run_mono i j H). lia.
  Qed.

  (** The device keeps running, and the host gets something if there is something. *)
  Context (FD : forall i, exists j, (i <= j)%nat /\ run (S j) = dstep (run j)).
  Context (HD : forall i, r_read (run i) <> r_write (run i) -> exists j, (got_so_far i < got_so_far j)%nat).

  (* ---------------------------------------------------------------- *)
  (** * The device makes progress when the buffer is empty *)

  Definition rank (s : rtt) : Z :=
    match r_dev s with
    | DNext => 0
    | DLoop _ [] => 1
    | DLoop _ _ => size + 10
    | DRead _ => size + 9
    | DWrite _ (Some r0) => if r0 =? r_read s then size + 8 else size + 11
    | DWrite _ None => 0
    | DCopy _ _ _ len k => len - k + 2
    | DStore _ _ _ _ => 1
    | DFlushR => 3
    | DFlushW r0 => if r0 =? r_read s then 2 else 4
    | DFault => 0
    end.

  Definition work (s : rtt) : Z := Z.of_nat (length (r_ops s)) * (size + 20) + rank s.

  Definition finished (s : rtt) : Prop := r_dev s = DNext /\ r_ops s = [] /\ r_read s = r_write s.

  Lemma work_nonneg : forall s u, inv size D s u -> 0 <= work s.
  Proof.
    intros s u I. unfold work. assert (0 <= rank s); [|nia].
    unfold rank. destruct (i_dev _ _ _ _ I) as [V _].
    destruct (r_dev s) as [|conn bs|bs|bs [r0|]|conn bs cursor len k|conn bs cursor len| |r0|]; try lia.
    - destruct bs; lia.
    - destruct (r0 =? r_read s); lia.
    - destruct V as [_ (C1 & C2 & _)]. lia.
    - destruct (r0 =? r_read s); lia.
  Qed.

  Lemma dev_works : forall s u, inv size D s u -> r_read s = r_write s ->
    finished s \/ r_read (dstep s) <> r_write (dstep s) \/ work (dstep s) < work s.
  Proof.
    intros s u Iv E. destruct Iv as [Im Iw Ir Ic Iu Ih Id [V V'] It].
    destruct s as [mem w r c d o h de]. cbn [r_mem r_write r_read r_connected r_dev r_ops r_host r_delivered] in *. subst w c.
    unfold dev_step, work, rank, finished.
    destruct d as [|conn bs|bs|bs [r0|]|conn bs cursor len k|conn bs cursor len| |r0|];
      cbn [r_mem r_write r_read r_connected r_dev r_ops r_host r_delivered].
    - destruct o as [|[bs|] o]; [left; auto| |].
      + right; right. cbn [set_dev r_dev r_ops r_read length]. destruct bs; lia.
      + right; right. cbn [set_dev r_dev r_ops r_read length]. lia.
    - subst conn. destruct bs; right; right; cbn; lia.
    - right; right. cbn. rewrite Z.eqb_refl. lia.
    - destruct V as [[F1 F2] NE]. cbn [r_write r_read] in F2.
      destruct (available_spec size r0 r F1 Iw) as (n & A & N0 & N1 & N2 & N3). rewrite A.
      destruct (n =? 0) eqn:En; right; right; cbn [set_dev r_dev r_ops r_read].
      + destruct (r0 =? r) eqn:Q.
        * assert (r0 = r) by lia. subst r0. rewrite Z.sub_diag, Z.mod_0_l in N3 by lia. lia.
        * destruct bs; lia.
      + assert (Z.min (Z.of_nat (length bs)) n <= size - 1) by flia.
        destruct (r0 =? r); lia.
    - contradiction.
    - destruct V as [-> (C1 & C2 & C3 & C4 & C5 & _)]. cbn [r_write] in C1. subst cursor.
      destruct (k <? len) eqn:L.
      + unfold target. replace (r + len >? size) with false by lia.
        destruct (nth_error bs (Z.to_nat k)) as [x|] eqn:N.
        2:{ apply nth_error_None in N. lia. }
        replace ((0 <=? r + k) && (r + k <? size)) with true by lia. right; right. cbn. lia.
      + right; right. cbn. lia.
    - destruct V as [-> (C1 & C2 & C3 & C4 & C5 & _)]. cbn [r_write] in C1. subst cursor.
      replace (size =? 0) with false by lia. right; left. cbn.
      pose proof (mod_wrap size (r + len) ltac:(lia)). flia.
    - right; right. cbn. rewrite Z.eqb_refl. lia.
    - destruct (r0 =? r); right; right; cbn; lia.
    - contradiction.
  Qed.

  (** While nothing is unread, host steps change nothing for the device. *)
  Lemma empty_step : forall i, r_read (run i) = r_write (run i) ->
    finished (run i) \/ r_read (run (S i)) <> r_write (run (S i)) \/
    (r_read (run (S i)) = r_write (run (S i)) /\ work (run (S i)) <= work (run i) /\
     (run (S i) = dstep (run i) -> work (run (S i)) < work (run i))).
  Proof.
    intros i E. destruct (run_inv i) as (u & Iv).
    destruct (Z.eq_dec (r_read (run (S i))) (r_write (run (S i)))) as [E'|]; [|auto].
    destruct (dev_works _ _ Iv E) as [W|W]; auto.
    right; right. split; auto.
    assert (K : run (S i) = dstep (run i) -> work (run (S i)) < work (run i)).
    { intros Q. rewrite Q in *. destruct W; congruence || auto. }
    split; auto. destruct (VR i) as [->|H]; [lia|].
    inversion H as [s|s s' HS|s w E1 B L]; subst;
      [match goal with Q : dstep _ = run (S i) |- _ => rewrite Q; symmetry in Q; specialize (K Q); lia end| |unfold work, rank; cbn; lia].
    inversion HS as [s Q X|s w got x Q L X Y|s w got Q X]; subst; unfold work, rank; cbn; try lia.
    pose proof (i_host _ _ _ _ Iv) as IH. unfold host_inv in IH. rewrite Q in IH. destruct IH as (H1 & H2 & H3 & v & ->).
    pose proof (i_unread _ _ _ _ Iv) as IU. rewrite E, Z.sub_diag, Z.mod_0_l in IU by lia.
    assert (G : length got = O) by (rewrite app_length in IU; lia). destruct got; [|discriminate].
    cbn [length]. rewrite Z.add_0_r, Z.mod_small by apply Iv. lia.
  Qed.

  Lemma empty_until : forall i j, (i <= j)%nat -> r_read (run i) = r_write (run i) ->
    (exists m, finished (run m)) \/ (exists m, (i <= m <= j)%nat /\ r_read (run m) <> r_write (run m)) \/
    (r_read (run j) = r_write (run j) /\ work (run j) <= work (run i)).
  Proof.
    intros i j H E. induction H as [|j H IH]; [right; right; split; auto; lia|].
    destruct IH as [IH|[(m & L & IH)|[E1 W]]]; auto.
    - right; left. exists m. split; auto. lia.
    - destruct (empty_step j E1) as [F|[N|(E2 & W2 & _)]].
      + left. eauto.
      + right; left. exists (S j). split; auto.
      + right; right. split; auto. lia.
  Qed.

  Lemma device_progress : forall i, r_read (run i) = r_write (run i) ->
    (exists m, finished (run m)) \/ (exists m, (i <= m)%nat /\ r_read (run m) <> r_write (run m)) \/
    (exists m, (i <= m)%nat /\ r_read (run m) = r_write (run m) /\ work (run m) < work (run i)).
  Proof.
    intros i E. destruct (FD i) as (j & L & Q).
    destruct (empty_until i j L E) as [F|[(m & L' & N)|[E1 W]]]; [auto| |].
    - right; left. exists m. split; auto. lia.
    - destruct (empty_step j E1) as [F|[N|(E2 & W2 & W3)]]; [eauto| |].
      + right; left. exists (S j). split; auto.
      + right; right. exists (S j). repeat split; auto. specialize (W3 Q). lia.
  Qed.

  Lemma eventually_unread : forall n i, (Z.to_nat (work (run i)) < n)%nat -> r_read (run i) = r_write (run i) ->
    (exists m, finished (run m)) \/ (exists m, (i <= m)%nat /\ r_read (run m) <> r_write (run m)).
  Proof.
    induction n as [|n IH]; intros i W E; [lia|].
    destruct (device_progress i E) as [F|[N|(m & L & E1 & W1)]]; auto.
    destruct (run_inv i) as (ui & Ii). destruct (run_inv m) as (um & Im). apply work_nonneg in Ii, Im.
    destruct (IH m ltac:(lia) E1) as [F|(m' & L' & N)]; auto. right. exists m'. split; auto. lia.
  Qed.

  Lemma eventually_finished : forall n i, (length D - got_so_far i < n)%nat -> exists m, finished (run m).
  Proof.
    induction n as [|n IH]; intros i W; [lia|].
    assert (C : (exists m, finished (run m)) \/ (exists m, (i <= m)%nat /\ r_read (run m) <> r_write (run m))).
    { destruct (Z.eq_dec (r_read (run i)) (r_write (run i))) as [E|E]; [|right; exists i; auto].
      exact (eventually_unread _ i (Nat.lt_succ_diag_r _) E). }
    destruct C as [F|(m & L & N)]; auto.
    destruct (HD m N) as (j & G). apply (IH j).
    pose proof (delivered_bound j). pose proof (run_mono i m L). lia.
  Qed.

  Theorem lax_delivered : exists i, r_dev (run i) = DNext /\ r_ops (run i) = [] /\ r_delivered (run i) = D.
  Proof.
    destruct (eventually_finished _ O (Nat.lt_succ_diag_r _)) as (m & F1 & F2 & F3).
    exists m. split; auto. split; auto. destruct (run_inv m) as (u & Iv). destruct Iv as [_ Iw _ _ Iu _ Id _ _].
    rewrite F3, Z.sub_diag, Z.mod_0_l in Iu by lia. destruct u; [|cbn in Iu; lia].
    rewrite F1, F2 in Id. cbn in Id. rewrite app_nil_r in Id. exact Id.
  Qed.
End Lax.

Section Live.
  Context (size : Z) (Hsize : 2 <= size).
  Context (run : nat -> rtt).
  Notation dstep := (dev_step size false).

  (** The host's store of line [host_store]. *)
  Definition consumed (s : rtt) (got : bytes) : rtt :=
    MkRtt (r_mem s) (r_write s) ((r_read s + Z.of_nat (length got)) mod size) (r_connected s)
      (r_dev s) (r_ops s) HIdle (r_delivered s ++ got).

  (** A fair run: any interleaving in which the device keeps running and the host
      keeps reading all it sees. *)
  Definition fair_turns : Prop :=
    (forall i, run (S i) = run i \/ step size false (run i) (run (S i))) /\
    (forall i, exists j, (i <= j)%nat /\ run (S j) = dstep (run j)) /\
    (forall i, exists j w got, (i <= j)%nat /\ r_host (run j) = HRead w got /\
       Z.of_nat (length got) = (w - r_read (run j)) mod size /\ run (S j) = consumed (run j) got).

  Definition fair_run (ops : list devop) : Prop :=
    start size (run O) ops /\ r_connected (run O) = true /\ fair_turns.

  Context (FR : fair_turns) (D : bytes) (I0 : exists u, inv size D (run O) u).

  Lemma fair_lax : forall i, run (S i) = run i \/ lax_step size (run i) (run (S i)).
  Proof.
    destruct FR as (T & _). intros i. destruct (T i) as [E|H]; auto. right.
    destruct H as [s|s s' H]; [apply lax_dev|now apply lax_host].
  Qed.

  Notation got_so_far := (got_so_far run).
  Let run_inv := run_inv size run fair_lax D I0.
  Let step_mono := step_mono size run fair_lax.
  Let run_mono := run_mono size run fair_lax.
  Let unread_stays := unread_stays size Hsize run fair_lax D I0.
  Let unread_until := unread_until size Hsize run fair_lax D I0.

  (* ---------------------------------------------------------------- *)
  (** * The host gets what is there *)

  (** Something unread, and the host, if it has loaded the write offset, has seen it. *)
  Definition noticed (s : rtt) : Prop :=
    r_read s <> r_write s /\ match r_host s with HIdle => True | HRead w _ => w <> r_read s end.

  Lemma noticed_stays : forall i, noticed (run i) ->
    (got_so_far i < got_so_far (S i))%nat \/ noticed (run (S i)).
  Proof.
    intros i [N1 N2]. destruct (unread_stays i N1) as [L|L]; auto.
    destruct (run_inv i) as (u & I).
    destruct FR as (T & _). destruct (T i) as [E|H]; [right; rewrite E; split; auto|].
    inversion H as [s E|s s' HS]; subst.
    - right. split; [congruence|]. destruct (dev_step_keeps size (run i)) as (_ & -> & -> & _). exact N2.
    - unfold got_so_far. inversion HS as [s E Q|s w got x E L' X Q|s w got E Q]; subst.
      + right. split; cbn; auto.
      + right. split; cbn; auto. rewrite E in N2. exact N2.
      + right. split; [congruence|]. exact Logic.I.
  Qed.

  Lemma noticed_until : forall i j, (i <= j)%nat -> noticed (run i) ->
    (got_so_far i < got_so_far j)%nat \/ noticed (run j).
  Proof.
    intros i j H N. induction H as [|j H IH]; auto. destruct IH as [IH|IH].
    - left. pose proof (step_mono j). lia.
    - destruct (noticed_stays j IH); auto. left. pose proof (run_mono i j H). lia.
  Qed.

  Lemma host_delivers : forall i, r_read (run i) <> r_write (run i) -> exists j, (got_so_far i < got_so_far j)%nat.
  Proof.
    intros i N. destruct FR as (_ & _ & FH).
    destruct (FH i) as (j1 & w1 & g1 & L1 & _ & _ & E1).
    destruct (unread_until i (S j1) ltac:(lia) N) as [L|N1]; [eauto|].
    assert (N2 : noticed (run (S j1))). { split; auto. rewrite E1. exact Logic.I. }
    destruct (FH (S j1)) as (j2 & w2 & g2 & L2 & H2 & G2 & E2).
    destruct (noticed_until (S j1) j2 L2 N2) as [L|[_ N3]].
    { exists j2. pose proof (run_mono i (S j1) ltac:(lia)). lia. }
    rewrite H2 in N3. exists (S j2).
    destruct (run_inv j2) as (u & Iv). pose proof (i_host _ _ _ _ Iv) as IH. unfold host_inv in IH. rewrite H2 in IH.
    pose proof (mod_zero_iff size Hsize (r_read (run j2)) w2 (i_read _ _ _ _ Iv) ltac:(tauto)) as Z0.
    assert (length g2 <> O) by (intro Q; apply N3, Z0; lia).
    pose proof (run_mono i j2 ltac:(lia)). unfold got_so_far in *. rewrite E2. cbn. rewrite app_length. lia.
  Qed.

  Theorem delivered_from : exists i, r_dev (run i) = DNext /\ r_ops (run i) = [] /\ r_delivered (run i) = D.
  Proof. apply (lax_delivered size Hsize run fair_lax D I0); [apply FR|exact host_delivers]. Qed.
End Live.

Theorem all_delivered : forall size, 2 <= size -> forall run ops, fair_run size run ops ->
  exists i, r_dev (run i) = DNext /\ r_ops (run i) = [] /\ r_delivered (run i) = data ops.
Proof. intros size H run ops (S0 & C & F). apply (delivered_from size H run F). exists []. now apply start_inv. Qed.

(* ------------------------------------------------------------------ *)
(** * Any host *)

Section Wild.
  Context (size : Z) (nonblocking : bool) (Hsize : 1 <= size).

  Definition wild_inv (s : rtt) : Prop :=
    Z.of_nat (length (r_mem s)) = size /\ 0 <= r_write s < size /\ 0 <= r_read s < size /\
    match r_dev s with
    | DFault => False
    | DWrite bs (Some r0) => 0 <= r0 < size
    | DCopy _ bs cursor len k => cursor = r_write s /\ 0 <= k <= len /\ len <= Z.of_nat (length bs) /\ len <= size
    | DStore _ bs cursor len => cursor = r_write s /\ 0 <= len <= Z.of_nat (length bs) /\ len <= size
    | _ => True
    end.

  Lemma wild_inv_step : forall s s', wild_inv s -> wild_step size nonblocking s s' -> wild_inv s'.
  Proof.
    intros s s' (I1 & I2 & I3 & I4) W. inversion W as [s0 E|s0 r c Hr E]; subst; clear W.
    2:{ unfold wild_inv. cbn. repeat split; auto; try lia. }
    destruct s as [mem w r c d o h de]. cbn [r_mem r_write r_read r_dev] in *.
    unfold dev_step, wild_inv. destruct d as [|conn bs|bs|bs [r0|]|conn bs cursor len k|conn bs cursor len| |r0|];
      cbn [r_mem r_write r_read r_connected r_dev r_ops r_host r_delivered].
    - destruct o as [|[bs|] o]; cbn; auto. destruct c; cbn; auto.
    - destruct bs; [cbn; auto|]. destruct conn; cbn; auto.
    - cbn. auto.
    - destruct (available_spec size r0 w I4 I2) as (n & A & N0 & N1 & N2 & N3). rewrite A.
      destruct (n =? 0); cbn [set_dev r_mem r_write r_read r_dev]; repeat split; auto; try lia.
    - cbn. repeat split; auto; lia.
    - destruct I4 as (-> & C2 & C3 & C4). destruct (k <? len) eqn:L; [|cbn; repeat split; auto; lia].
      destruct (nth_error bs (Z.to_nat k)) as [x|] eqn:N.
      2:{ apply nth_error_None in N. lia. }
      assert (T : 0 <= target size w len k < size).
      { unfold target. destruct (w + len >? size) eqn:G; [|lia]. destruct (k <? size - w) eqn:G2; lia. }
      replace ((0 <=? target size w len k) && (target size w len k <? size)) with true by lia.
      cbn. rewrite upd_length. repeat split; auto; lia.
    - replace (size =? 0) with false by lia. cbn. pose proof (Z.mod_pos_bound (cursor + len) size ltac:(lia)). auto.
    - cbn. auto.
    - destruct (r0 =? w); cbn; auto.
    - contradiction.
  Qed.

  Lemma wild_inv_steps : forall s s', wild_inv s -> wild_steps size nonblocking s s' -> wild_inv s'.
  Proof. intros s s' H S. induction S; eauto using wild_inv_step. Qed.

  Theorem wild_safe : forall s ops s', start size s ops -> wild_steps size nonblocking s s' ->
    r_dev s' <> DFault /\ 0 <= r_write s' < size /\ Z.of_nat (length (r_mem s')) = size.
  Proof.
    intros s ops s' (H1 & H2 & H3 & H4 & _) W.
    assert (I : wild_inv s). { unfold wild_inv. rewrite H3, H4. repeat split; auto; lia. }
    apply (wild_inv_steps _ _ I) in W as (W1 & W2 & _ & W3). repeat split; try tauto. intros E. now rewrite E in W3.
  Qed.

  (** A stretch of a run with [n] device steps, all of them inside one [write_all]. *)
  Inductive busy_run : nat -> rtt -> rtt -> Prop :=
  | busy_refl s : busy_run O s s
  | busy_host n s s' r c : busy_run n s s' -> 0 <= r < size ->
      busy_run n s (MkRtt (r_mem s') (r_write s') r c (r_dev s') (r_ops s') (r_host s') (r_delivered s'))
  | busy_dev n s s' : busy_run n s s' -> r_dev s' <> DNext -> busy_run (S n) s (dev_step size nonblocking s').

  Definition cost (d : dev) : Z :=
    match d with
    | DLoop false bs => 5 * Z.of_nat (length bs) + 1
    | DWrite bs None => 5 * Z.of_nat (length bs)
    | DCopy false bs _ len k => 5 * Z.of_nat (length bs) - 1 - k
    | DStore false bs _ len => 5 * Z.of_nat (length bs) - 2 - len
    | _ => 0
    end.

  Definition nonblocking_state (d : dev) : Prop :=
    match d with
    | DNext => True
    | DLoop conn _ => conn = false
    | DWrite bs None => bs <> []
    | DCopy conn bs _ len k => conn = false /\ 1 <= len
    | DStore conn bs _ len => conn = false /\ 1 <= len
    | _ => False
    end.

  Lemma nonblocking_dev : forall s, wild_inv s -> nonblocking_state (r_dev s) -> r_dev s <> DNext ->
    let s' := dev_step size nonblocking s in
    nonblocking_state (r_dev s') /\ cost (r_dev s') < cost (r_dev s).
  Proof.
    intros s (I1 & I2 & I3 & I4) N NE. destruct s as [mem w r c d o h de]. cbn [r_mem r_write r_read r_dev] in *.
    unfold dev_step. destruct d as [|conn bs|bs|bs [r0|]|conn bs cursor len k|conn bs cursor len| |r0|];
      cbn [nonblocking_state r_mem r_write r_read r_connected r_dev r_ops r_host r_delivered] in *; try contradiction.
    - subst conn. destruct bs; cbn [set_dev r_dev nonblocking_state cost length]; split; try discriminate; auto; lia.
    - assert (1 <= Z.of_nat (length bs)) by (destruct bs; [congruence|cbn [length]; lia]).
      cbn [set_dev r_dev nonblocking_state cost]. repeat split; lia.
    - destruct N as [-> N]. destruct I4 as (-> & C2 & C3 & C4). destruct (k <? len) eqn:L.
      + destruct (nth_error bs (Z.to_nat k)) as [x|] eqn:Q.
        2:{ apply nth_error_None in Q. lia. }
        assert (T : 0 <= target size w len k < size).
        { unfold target. destruct (w + len >? size) eqn:G; [|lia]. destruct (k <? size - w) eqn:G2; lia. }
        replace ((0 <=? target size w len k) && (target size w len k <? size)) with true by lia.
        cbn. repeat split; auto; lia.
      + cbn. repeat split; auto; lia.
    - destruct N as [-> N]. destruct I4 as (-> & C2 & C3). replace (size =? 0) with false by lia.
      cbn [set_dev store_write r_dev nonblocking_state cost]. split; auto. rewrite skipn_length. lia.
  Qed.

  Theorem nonblocking_terminates : forall n s s' bs, wild_inv s -> r_dev s = DLoop false bs ->
    busy_run n s s' -> Z.of_nat n <= 5 * Z.of_nat (length bs) + 1.
  Proof.
    intros n s s' bs Iv E B.
    assert (K : wild_inv s' /\ nonblocking_state (r_dev s') /\ Z.of_nat n + cost (r_dev s') <= 5 * Z.of_nat (length bs) + 1 /\
      0 <= cost (r_dev s')).
    { induction B as [s|n s s' r c B IH Hr|n s s' B IH N].
      - rewrite E. cbn [nonblocking_state cost]. split; [exact Iv|]. split; auto. lia.
      - specialize (IH Iv E). destruct IH as (H1 & H2 & H3 & H4). split; [|auto].
        eapply wild_inv_step; eauto. constructor; auto.
      - specialize (IH Iv E). destruct IH as (H1 & H2 & H3 & H4).
        destruct (nonblocking_dev s' H1 H2 N) as [D1 D2].
        assert (W : wild_inv (dev_step size nonblocking s')) by (eapply wild_inv_step; eauto; constructor).
        split; [exact W|]. split; auto.
        split; [lia|]. destruct W as (_ & _ & _ & W). clear - W D1.
        destruct (r_dev (dev_step size nonblocking s')) as [|conn bs|bs|bs [r0|]|conn bs cursor len k|conn bs cursor len| |r0|];
          cbn [nonblocking_state cost] in *; try lia; try (destruct conn; lia). }
    lia.
  Qed.

  Theorem nonblocking_bound : forall s0 ops s n s' bs, start size s0 ops -> wild_steps size nonblocking s0 s ->
    r_dev s = DLoop false bs -> busy_run n s s' -> Z.of_nat n <= 5 * Z.of_nat (length bs) + 1.
  Proof.
    intros s0 ops s n s' bs (H1 & H2 & H3 & H4 & _) W E B. eapply nonblocking_terminates; eauto.
    eapply wild_inv_steps; eauto. unfold wild_inv. rewrite H3, H4. repeat split; auto; lia.
  Qed.

  (** Without a host that reads, or with blocking disabled, every operation returns. *)
  Theorem unconnected_write : forall s0 ops s n s' bs more, start size s0 ops -> wild_steps size nonblocking s0 s ->
    r_dev s = DNext -> r_ops s = OWrite bs :: more -> nonblocking = true \/ r_connected s = false ->
    busy_run n (dev_step size nonblocking s) s' -> Z.of_nat n <= 5 * Z.of_nat (length bs) + 1.
  Proof.
    intros s0 ops s n s' bs more St W D E C B. eapply nonblocking_bound; [exact St|eapply wild_trans; [exact W|apply wild_dev]| |exact B].
    unfold dev_step. rewrite D, E. cbn. destruct C as [-> | ->]; [reflexivity|]. now destruct nonblocking.
  Qed.
End Wild.

Theorem unconnected_flush : forall size nonblocking s more, r_dev s = DNext -> r_ops s = OFlush :: more -> r_connected s = false ->
  r_dev (dev_step size nonblocking s) = DNext /\ r_ops (dev_step size nonblocking s) = more.
Proof. intros size nonblocking s more D E C. unfold dev_step. rewrite D, E, C. split; reflexivity. Qed.

Theorem flush_returns : forall size nonblocking s, r_dev s = DFlushR -> r_read s = r_write s ->
  r_dev (dev_step size nonblocking (dev_step size nonblocking s)) = DNext.
Proof.
  intros size nonblocking s E Q. unfold dev_step at 2. rewrite E. unfold dev_step. cbn. rewrite Q, Z.eqb_refl. reflexivity.
Qed.

(** A buffer of size 1 can hold nothing: a connected channel never gets rid of
    anything. *)
Theorem size_one_blocks : forall s ops s', start 1 s ops -> r_connected s = true -> steps 1 false s s' ->
  r_delivered s' = [].
Proof.
  intros s ops s' S C T.
  assert (Z0 : forall x, x mod 1 = 0) by (intros; apply Z.mod_1_r).
  assert (K : r_delivered s' = [] /\ exists u, inv 1 (data ops) s' u).
  { induction T as [s|s s1 s2 T IH H].
    - split; [apply S|]. eexists. apply start_inv; auto.
    - destruct (IH S C) as (E & u & Iv). split; [|eapply inv_step; eauto].
      inversion H as [s0 Q|s0 s0' HS]; subst.
      + destruct (dev_step_keeps 1 s1) as (-> & _). exact E.
      + inversion HS as [s0 Q|s0 w got x Q L X|s0 w got Q]; subst; cbn; auto.
        pose proof (i_host _ _ _ _ Iv) as IH'. unfold host_inv in IH'. rewrite Q, Z0 in IH'.
        destruct got; [now rewrite E|cbn [length] in IH'; lia]. }
  apply K.
Qed.
