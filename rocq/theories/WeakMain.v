(** Main theorems on the RTT channel with late and reordered stores (C64). *)
From Verif Require Import Base RttModel RttProofs RttLive WeakModel WeakProofs.

Section Simulation.
  Context (size : Z).
  Notation dstep := (dev_step size false).

  (** The host of the sequential channel holds the same bytes and may have seen a newer offset. *)
  Definition newer (read : Z) (h h' : host) : Prop :=
    match h, h' with
    | HIdle, HIdle => True
    | HRead w got, HRead w' got' => got' = got /\ (w - read) mod size <= (w' - read) mod size
    | _, _ => False
    end.

  Lemma dev_set_host : forall s h, dstep (set_host s h) = set_host (dstep s) h.
  Proof.
    intros [mem w r c d o h0 de] h. unfold dev_step, set_host.
    cbn [r_dev r_ops r_connected r_mem r_write r_read r_host r_delivered].
    destruct d as [|conn bs|bs|bs [r0|]|conn bs cursor len j|conn bs cursor len| |r0|]; try reflexivity.
    - destruct o as [|[bs|] o]; try reflexivity. destruct c; reflexivity.
    - destruct bs; reflexivity.
    - destruct (available size r0 w) as [n|]; [destruct (n =? 0)|]; reflexivity.
    - destruct (j <? len); [|reflexivity]. destruct (nth_error bs (Z.to_nat j)); [|reflexivity]. destruct (_ && _); reflexivity.
    - destruct (size =? 0); reflexivity.
    - destruct (r0 =? w); reflexivity.
  Qed.

  Lemma lax_simulated : forall v v' h, lax_step size v v' -> newer (r_read v) (r_host v) h ->
    exists h', newer (r_read v') (r_host v') h' /\ step size false (set_host v h) (set_host v' h').
  Proof.
    intros v v' h T N. destruct T as [v|v v' H|v w E B L].
    - exists h. destruct (dev_step_keeps size v) as (_ & K2 & K3 & _). rewrite K2, K3. split; [exact N|].
      rewrite <- dev_set_host. constructor.
    - destruct H as [v E|v w got x E L X|v w got E]; rewrite E in N; destruct h as [|w' got']; try contradiction; cbn [newer] in N.
      + exists (HRead (r_write v) []). split; [split; auto; cbn; lia|].
        apply step_host. apply (host_load size (set_host v HIdle)). reflexivity.
      + destruct N as (-> & N). exists (HRead w' (got ++ [x])). split; [split; auto|].
        apply step_host. apply (host_read size (set_host v (HRead w' got)) w' got x); [reflexivity|cbn; lia|exact X].
      + destruct N as (-> & N). exists HIdle. split; [exact I|].
        apply step_host. apply (host_store size (set_host v (HRead w' got)) w' got). reflexivity.
    - rewrite E in N. destruct h; try contradiction. exists (HRead (r_write v) []). split; [split; auto|].
      apply step_host. apply (host_load size (set_host v HIdle)). reflexivity.
  Qed.

  Theorem weak_simulated : forall s ops k, start size s ops -> r_connected s = true -> weak_steps size true (MkWeak s []) k ->
    exists h, newer (r_read (view k)) (r_host (view k)) h /\ steps size false s (set_host (view k) h).
  Proof.
    intros s ops k S C T. remember (MkWeak s []) as k0 eqn:E0.
    assert (K : fine size (data ops) k /\ exists h, newer (r_read (view k)) (r_host (view k)) h /\ steps size false s (set_host (view k) h)).
    { induction T as [|k0 k k' T IH H]; subst.
      - split; [now apply start_fine|]. exists HIdle. destruct S as (_ & _ & _ & _ & _ & S & _). cbn. rewrite S. split; [exact I|].
        replace (set_host s HIdle) with s by (destruct s; cbn in *; now subst). constructor.
      - destruct (IH eq_refl) as (F & h & N & R). destruct (weak_is_lax _ _ _ _ F H) as (F' & [E|L]); (split; [exact F'|]).
        + rewrite E. eauto.
        + destruct (lax_simulated _ _ h L N) as (h' & N' & R'). exists h'. split; auto. eapply steps_step; eauto. }
    apply K.
  Qed.

  (** The bytes that the host can see are intact. *)
  Theorem weak_lossless : forall s ops k, start size s ops -> r_connected s = true -> weak_steps size true (MkWeak s []) k ->
    exists seen unseen, Z.of_nat (length seen) = (r_write (k_shared k) - r_read (k_shared k)) mod size /\
      holds size (r_mem (k_shared k)) (r_read (k_shared k)) seen /\
      r_delivered (k_shared k) ++ seen ++ unseen ++ pending (r_dev (k_shared k)) ++ data (r_ops (k_shared k)) = data ops.
  Proof.
    intros s ops k S C T. destruct (weak_fine _ _ _ _ S C T) as (B & u & Iv).
    pose proof (view_write size k) as VW. destruct B as (B1 & B2 & B3 & B4). pose proof (ordered_last _ _ _ _ B3) as OL.
    destruct Iv as [Im Iw Ir Ic Iu Ih Id _ _]. rewrite view_read in Iu, Ih. rewrite view_delivered, view_pc, view_ops in Id.
    exists (firstn (Z.to_nat (visible size k)) u), (skipn (Z.to_nat (visible size k)) u).
    assert (V0 : 0 <= visible size k < size) by (apply Z.mod_pos_bound; lia).
    assert (LN : Z.of_nat (length (firstn (Z.to_nat (visible size k)) u)) = visible size k) by (rewrite firstn_length; lia).
    split; [exact LN|]. split.
    - intros j x N. assert (J : (j < length (firstn (Z.to_nat (visible size k)) u))%nat) by (apply nth_error_Some; congruence).
      specialize (Ih j x). rewrite <- (firstn_skipn (Z.to_nat (visible size k)) u), nth_error_app1 in Ih by exact J. specialize (Ih N).
      rewrite <- Ih. destruct k as [sh b]. unfold view. cbn [k_shared k_buffer] in *. rewrite apply_split. cbn [r_mem]. symmetry.
      apply (ordered_apart size b _ _ (visible size (MkWeak sh b))); auto; lia.
    - rewrite <- Id. rewrite (app_assoc (firstn _ u)), firstn_skipn. reflexivity.
  Qed.

  Theorem weak_no_fault : forall s ops k, start size s ops -> r_connected s = true -> weak_steps size true (MkWeak s []) k ->
    r_dev (k_shared k) <> DFault.
  Proof.
    intros s ops k S C T E. destruct (weak_fine _ _ _ _ S C T) as (_ & u & Iv). destruct (i_dev _ _ _ _ Iv) as [V _].
    rewrite view_pc, E in V. exact V.
  Qed.

  Theorem weak_flush_waits : forall s ops k, start size s ops -> r_connected s = true -> weak_steps size true (MkWeak s []) k ->
    forall r0, r_dev (k_shared k) = DFlushW r0 -> r_dev (k_shared (weak_dev size k)) = DNext ->
    r_delivered (k_shared k) ++ data (r_ops (k_shared k)) = data ops.
  Proof.
    intros s ops k S C T r0 E N. destruct (weak_simulated s ops k S C T) as (h & _ & R).
    pose proof (flush_waits size s ops _ S C R r0) as F. cbn [set_host r_dev r_delivered r_ops] in F.
    rewrite view_pc, view_delivered, view_ops in F. apply F; auto.
    rewrite dev_set_host. cbn [set_host r_dev]. rewrite <- view_dev, view_pc. exact N.
  Qed.
End Simulation.

(* ------------------------------------------------------------------ *)
(** * Progress *)

Section Live.
  Context (size : Z) (Hsize : 2 <= size) (run : nat -> weak) (ops : list devop).
  Context (S0 : start size (k_shared (run O)) ops) (C0 : r_connected (k_shared (run O)) = true) (E0 : k_buffer (run O) = []).
  Context (FR : weak_fair size true run).

  Lemma run_fine : forall n, fine size (data ops) (run n).
  Proof.
    destruct FR as (T & _). induction n as [|n IH].
    - destruct (run O) as [s b] eqn:E. cbn in *. subst b. now apply start_fine.
    - destruct (T n) as [->|H]; auto. eapply weak_is_lax; eauto.
  Qed.

  Definition seen_run (n : nat) : rtt := view (run n).

  Lemma seen_lax : forall n, seen_run (S n) = seen_run n \/ lax_step size (seen_run n) (seen_run (S n)).
  Proof.
    intros n. unfold seen_run. destruct FR as (T & _). destruct (T n) as [->|H]; auto. eapply weak_is_lax; eauto using run_fine.
  Qed.

  Definition got (n : nat) : nat := length (r_delivered (k_shared (run n))).

  Lemma got_is : forall n, got_so_far seen_run n = got n.
  Proof. intros n. unfold got_so_far, seen_run, got. now rewrite view_delivered. Qed.

  Lemma seen_inv0 : exists u, inv size (data ops) (seen_run O) u.
  Proof. apply run_fine. Qed.

  Lemma got_mono : forall i j, (i <= j)%nat -> (got i <= got j)%nat.
  Proof. intros i j L. rewrite <- !got_is. exact (run_mono size seen_run seen_lax i j L). Qed.

  (** What one step does to read offset, visible bytes and buffer if nothing is delivered. *)
  Lemma quiet_step : forall n, got (S n) = got n ->
    r_read (k_shared (run (S n))) = r_read (k_shared (run n)) /\
    ((r_write (k_shared (run (S n))) = r_write (k_shared (run n)) /\
       ((exists more, k_buffer (run (S n)) = k_buffer (run n) ++ more) \/
        exists a i x b, k_buffer (run n) = a ++ SByte i x :: b /\ k_buffer (run (S n)) = a ++ b)) \/
     exists w b, k_buffer (run n) = SOffset w :: b /\ r_write (k_shared (run (S n))) = w /\ k_buffer (run (S n)) = b).
  Proof.
    intros n G. destruct FR as (T & _). destruct (T n) as [->|H].
    { split; auto. left. split; auto. left. exists []. now rewrite app_nil_r. }
    pose proof (run_fine n) as ((B1 & B2 & _) & _). unfold got in G.
    destruct H as [k|s s' b H|s a e b M]; cbn [k_shared k_buffer] in *.
    - split; [reflexivity|]. left. split; [reflexivity|]. left. eexists. reflexivity.
    - assert (Q : r_read s' = r_read s /\ r_write s' = r_write s).
      { destruct H as [s E|s w g x E L N|s w g E]; cbn; auto. cbn in G. rewrite app_length in G. destruct g; [|cbn in G; lia].
        cbn. rewrite Z.add_0_r, Z.mod_small; auto. }
      destruct Q as (-> & ->). split; auto. left. split; auto. left. exists []. now rewrite app_nil_r.
    - destruct e as [i x|w]; cbn [apply_store store_byte store_write r_read r_write may_overtake] in *.
      + split; auto. left. split; auto. right. eauto 6.
      + subst a. split; auto. right. exists w, b. auto.
  Qed.

  (** How deep in the buffer the first news is. *)
  Fixpoint depth (read : Z) (l : list store) : option nat :=
    match l with
    | [] => None
    | SByte _ _ :: l' => option_map S (depth read l')
    | SOffset w :: l' => if w =? read then option_map S (depth read l') else Some O
    end.

  Lemma depth_app : forall read a b d, depth read a = Some d -> depth read (a ++ b) = Some d.
  Proof.
    induction a as [|[i x|w] a IH]; intros b d H; cbn [app depth] in *; [discriminate| |].
    - destruct (depth read a) as [d'|]; [|discriminate]. rewrite (IH b d'); auto.
    - destruct (w =? read); auto. destruct (depth read a) as [d'|]; [|discriminate]. rewrite (IH b d'); auto.
  Qed.

  Lemma depth_remove : forall read a i x b d, depth read (a ++ SByte i x :: b) = Some d ->
    exists d', depth read (a ++ b) = Some d' /\ (d' <= d)%nat.
  Proof.
    induction a as [|[j y|w] a IH]; intros i x b d H; cbn [app depth] in *.
    - destruct (depth read b) as [d'|]; [|discriminate]. injection H as <-. exists d'. split; auto.
    - destruct (depth read (a ++ SByte i x :: b)) as [d'|] eqn:E; [|discriminate]. injection H as <-.
      destruct (IH _ _ _ _ E) as (d2 & -> & L). exists (S d2). split; auto. lia.
    - destruct (w =? read); [|exists O; split; auto; lia].
      destruct (depth read (a ++ SByte i x :: b)) as [d'|] eqn:E; [|discriminate]. injection H as <-.
      destruct (IH _ _ _ _ E) as (d2 & -> & L). exists (S d2). split; auto. lia.
  Qed.

  Lemma depth_exists : forall read l w, w = read -> offset_after w l <> read -> exists d, depth read l = Some d.
  Proof.
    intros read. induction l as [|[i x|w'] l IH]; intros w E N; cbn [depth offset_after] in *; [contradiction| |].
    - destruct (IH w E N) as (d & ->). eexists. reflexivity.
    - destruct (w' =? read) eqn:Q; [|eauto]. destruct (IH w' ltac:(lia) N) as (d & ->). eexists. reflexivity.
  Qed.

  Definition news (n : nat) : Prop := r_write (k_shared (run n)) <> r_read (k_shared (run n)).
  Definition depth_at (n : nat) : option nat := depth (r_read (k_shared (run n))) (k_buffer (run n)).

  Lemma depth_step : forall n d, depth_at n = Some d ->
    (got n < got (S n))%nat \/ news (S n) \/ exists d', depth_at (S n) = Some d' /\ (d' <= d)%nat.
  Proof.
    intros n d H. pose proof (got_mono n (S n) ltac:(lia)) as G. destruct (Nat.eq_dec (got (S n)) (got n)) as [E|E]; [right|left; lia].
    destruct (quiet_step n E) as (R & Q). unfold news, depth_at in *. rewrite R.
    destruct Q as [(W & [(more & B)|(a & i & x & b & B & B')])|(w & b & B & W & B')].
    - right. exists d. rewrite B. split; auto. now apply depth_app.
    - right. rewrite B in H. rewrite B'. eapply depth_remove; eauto.
    - rewrite B in H. cbn [depth] in H. rewrite W, B'. destruct (w =? r_read (k_shared (run n))) eqn:Q; [right|left; lia].
      destruct (depth _ b) as [d'|]; [|discriminate]. injection H as <-. exists d'. auto.
  Qed.

  Lemma depth_until : forall i j d, (i <= j)%nat -> depth_at i = Some d ->
    (exists m, (i <= m)%nat /\ ((got i < got m)%nat \/ news m)) \/ exists d', depth_at j = Some d' /\ (d' <= d)%nat.
  Proof.
    intros i j d L H. induction L as [|j L IH]; [right; eauto|]. destruct IH as [IH|(d1 & IH & L1)]; auto.
    destruct (depth_step j d1 IH) as [G|[N|(d2 & H2 & L2)]].
    - left. exists (S j). split; [lia|]. left. pose proof (got_mono i j L). lia.
    - left. exists (S j). split; [lia|]. auto.
    - right. exists d2. split; auto. lia.
  Qed.

  Lemma news_reaches : forall f i d, (d < f)%nat -> depth_at i = Some d ->
    exists m, (i <= m)%nat /\ ((got i < got m)%nat \/ news m).
  Proof.
    induction f as [|f IH]; intros i d F H; [lia|]. pose proof FR as (_ & _ & _ & FB).
    destruct (FB i) as (j & L & Q).
    destruct (depth_until i j d L H) as [M|(d1 & H1 & L1)]; auto.
    unfold depth_at in H1. destruct (k_buffer (run j)) as [|e b] eqn:EB; [discriminate|].
    destruct e as [p x|w]; cbn [depth] in H1.
    - destruct (depth (r_read (k_shared (run j))) b) as [d2|] eqn:E2; [|discriminate]. injection H1 as <-.
      destruct (IH (S j) d2 ltac:(lia)) as (m & Lm & Hm). { unfold depth_at. rewrite Q. cbn. exact E2. }
      exists m. split; [lia|]. pose proof (got_mono i (S j) ltac:(lia)). destruct Hm; auto. left. lia.
    - destruct (w =? r_read (k_shared (run j))) eqn:Qw.
      + destruct (depth (r_read (k_shared (run j))) b) as [d2|] eqn:E2; [|discriminate]. injection H1 as <-.
        destruct (IH (S j) d2 ltac:(lia)) as (m & Lm & Hm). { unfold depth_at. rewrite Q. cbn. exact E2. }
        exists m. split; [lia|]. pose proof (got_mono i (S j) ltac:(lia)). destruct Hm; auto. left. lia.
      + exists (S j). split; [lia|]. right. unfold news. rewrite Q. cbn. lia.
  Qed.

  Lemma news_stays : forall n, news n -> (got n < got (S n))%nat \/ news (S n).
  Proof.
    intros n N. pose proof (got_mono n (S n) ltac:(lia)) as G. destruct (Nat.eq_dec (got (S n)) (got n)) as [E|E]; [right|left; lia].
    destruct (quiet_step n E) as (R & Q). unfold news in *. rewrite R.
    destruct Q as [(W & _)|(w & b & B & W & B')]; [rewrite W; auto|]. rewrite W. intros E1.
    destruct (run_fine n) as ((B1 & B2 & B3 & _) & _). rewrite B in B3. cbn [ordered] in B3. destruct B3 as (B3 & B4 & _).
    rewrite E1, Z.sub_diag, Z.mod_0_l in B4 by lia. unfold visible in B4.
    pose proof (mod_diff size _ _ B1 B2). pose proof (Z.mod_pos_bound (r_write (k_shared (run n)) - r_read (k_shared (run n))) size ltac:(lia)).
    apply N. flia.
  Qed.

  Lemma news_until : forall i j, (i <= j)%nat -> news i -> (got i < got j)%nat \/ news j.
  Proof.
    intros i j L N. induction L as [|j L IH]; auto. destruct IH as [IH|IH].
    - left. pose proof (got_mono j (S j) ltac:(lia)). lia.
    - destruct (news_stays j IH); auto. left. pose proof (got_mono i j L). lia.
  Qed.

  (** The host has seen the news, if it has loaded the write offset. *)
  Definition seen_news (n : nat) : Prop := news n /\ match r_host (k_shared (run n)) with HIdle => True | HRead w _ => w <> r_read (k_shared (run n)) end.

  Lemma seen_news_stays : forall n, seen_news n -> (got n < got (S n))%nat \/ seen_news (S n).
  Proof.
    intros n (N & H). destruct (news_stays n N) as [G|N']; auto. pose proof (got_mono n (S n) ltac:(lia)) as G.
    destruct (Nat.eq_dec (got (S n)) (got n)) as [E|E]; [right|left; lia]. split; [exact N'|].
    destruct (quiet_step n E) as (R & _). rewrite R. unfold news in N. clear N' R G E.
    destruct FR as (T & _). destruct (T n) as [->|Q]; auto.
    destruct Q as [k|s s' b Q|s a e b M]; cbn [k_shared k_buffer] in *.
    - exact H.
    - destruct Q as [s E|s w g x E L X|s w g E]; cbn in *; auto. rewrite E in H. exact H.
    - destruct e; exact H.
  Qed.

  Lemma seen_news_until : forall i j, (i <= j)%nat -> seen_news i -> (got i < got j)%nat \/ seen_news j.
  Proof.
    intros i j L N. induction L as [|j L IH]; auto. destruct IH as [IH|IH].
    - left. pose proof (got_mono j (S j) ltac:(lia)). lia.
    - destruct (seen_news_stays j IH); auto. left. pose proof (got_mono i j L). lia.
  Qed.

  Lemma news_delivered : forall i, news i -> exists j, (got i < got j)%nat.
  Proof.
    intros i N. pose proof FR as (_ & _ & FH & _).
    destruct (FH i) as (j1 & w1 & g1 & L1 & _ & _ & _ & _ & I1).
    destruct (news_until i (S j1) ltac:(lia) N) as [G|N1]; [eauto|].
    assert (N2 : seen_news (S j1)). { split; auto. rewrite I1. exact I. }
    destruct (FH (S j1)) as (j2 & w2 & g2 & L2 & H2 & G2 & HS & B2 & I2).
    pose proof (got_mono i (S j1) ltac:(lia)) as M1.
    destruct (seen_news_until (S j1) j2 L2 N2) as [G|[_ N3]]; [exists j2; lia|].
    rewrite H2 in N3. destruct (run_fine j2) as ((R1 & R2 & _ & R4) & _). rewrite H2 in R4. destruct R4 as (R4 & _).
    pose proof (mod_zero_iff size Hsize (r_read (k_shared (run j2))) w2 R1 R4) as Z0.
    assert (NE : length g2 <> O) by (intro Q; apply N3, Z0; lia).
    exists (S j2). pose proof (got_mono (S j1) j2 L2). unfold got in *.
    destruct HS as [s E|s w g x E L X|s w g E]; cbn in I2; try discriminate.
    rewrite H2 in E. injection E as <- <-. cbn [r_delivered]. rewrite app_length. lia.
  Qed.

  Lemma weak_host_delivers : forall i, r_read (seen_run i) <> r_write (seen_run i) -> exists j, (got_so_far seen_run i < got_so_far seen_run j)%nat.
  Proof.
    intros i N. unfold seen_run in N. rewrite view_read in N.
    assert (M : exists m, (i <= m)%nat /\ ((got i < got m)%nat \/ news m)).
    { destruct (Z.eq_dec (r_write (k_shared (run i))) (r_read (k_shared (run i)))) as [E|E]; [|exists i; auto].
      destruct (depth_exists _ (k_buffer (run i)) _ E) as (d & H).
      { unfold view in N. rewrite apply_split in N. cbn in N. auto. }
      eapply news_reaches; [|exact H]. apply Nat.lt_succ_diag_r. }
    destruct M as (m & L & [G|N']).
    - exists m. now rewrite !got_is.
    - destruct (news_delivered m N') as (j & G). exists j. rewrite !got_is. pose proof (got_mono i m L). lia.
  Qed.

  Theorem weak_all_delivered : exists n, r_dev (k_shared (run n)) = DNext /\ r_ops (k_shared (run n)) = [] /\
    r_delivered (k_shared (run n)) = data ops.
  Proof.
    destruct (lax_delivered size Hsize seen_run seen_lax (data ops) seen_inv0) as (n & A & B & C).
    - intros i. destruct FR as (_ & FD & _). destruct (FD i) as (j & L & E). exists j. split; auto.
      unfold seen_run. rewrite E. apply view_dev.
    - exact weak_host_delivers.
    - exists n. unfold seen_run in *. now rewrite view_pc, view_ops, view_delivered in *.
  Qed.
End Live.
