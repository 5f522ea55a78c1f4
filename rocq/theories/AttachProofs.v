(** What a session gets is one piece of what was logged, and nothing that was logged after
    attaching is missing. *)
From Verif Require Import Base RzcobsModel DecoderModel LoggerModel LoggerSpec LoggerProofs LoggerMain DeviceModel DeviceProofs DeviceLive AttachModel.
From Verif Require RttModel RttProofs RttLive.
Import RttModel RttProofs.

(** The channel as if the bytes [lost] had been delivered, too, and the host were connected. *)
Definition pad (lost : bytes) (r : rtt) : rtt :=
  MkRtt (r_mem r) (r_write r) (r_read r) true (r_dev r) (r_ops r) (r_host r) (lost ++ r_delivered r).
Definition padded (lost : bytes) (d : device) : device := MkDevice (d_sys d) (d_caller d) (pad lost (d_chan d)).

Section Ring.
  Context (size : Z).

  (** The buffer holds the end of [l], whose first byte was written at offset [i]. *)
  Definition ring (mem : bytes) (i : Z) (l : bytes) : Prop :=
    forall k x, nth_error l k = Some x -> Z.of_nat (length l) - size <= Z.of_nat k ->
      nth_error mem (Z.to_nat ((i + Z.of_nat k) mod size)) = Some x.

  Lemma ring_add : forall mem i l x, 0 < size -> Z.of_nat (length mem) = size -> ring mem i l ->
    ring (upd (Z.to_nat ((i + Z.of_nat (length l)) mod size)) x mem) i (l ++ [x]).
  Proof.
    intros mem i l x Hs Hm H k y N L. rewrite app_length in L. cbn [length] in L.
    pose proof (Z.mod_pos_bound (i + Z.of_nat (length l)) size Hs) as B.
    destruct (Nat.lt_ge_cases k (length l)) as [K|K].
    - rewrite nth_error_app1 in N by lia. rewrite upd_other; [apply H; auto; lia|].
      pose proof (Z.mod_pos_bound (i + Z.of_nat k) size Hs) as B'. intros E. apply Z2Nat.inj in E; try lia.
      assert (Q : (Z.of_nat (length l) - Z.of_nat k) mod size = 0).
      { replace (Z.of_nat (length l) - Z.of_nat k) with ((i + Z.of_nat (length l)) - (i + Z.of_nat k)) by lia.
        rewrite Zminus_mod, E, Z.sub_diag. apply Z.mod_0_l. lia. }
      rewrite Z.mod_small in Q; lia.
    - rewrite nth_error_app2 in N by lia. destruct (k - length l)%nat as [|q] eqn:Q; [|destruct q; discriminate].
      injection N as <-. assert (k = length l) by lia. subst k. apply upd_same. lia.
  Qed.

  Lemma ring_holds : forall mem i a b, 0 < size -> Z.of_nat (length b) <= size -> (i + Z.of_nat (length a)) mod size = i mod size ->
    ring mem i (a ++ b) -> holds size mem i b.
  Proof.
    intros mem i a b Hs L E H k x N. assert (K : (k < length b)%nat) by (apply nth_error_Some; congruence).
    specialize (H (length a + k)%nat x). rewrite nth_error_app2, app_length in H by lia. replace (length a + k - length a)%nat with k in H by lia.
    specialize (H N ltac:(lia)). rewrite <- H. do 2 f_equal.
    replace (i + Z.of_nat (length a + k)) with ((i + Z.of_nat (length a)) + Z.of_nat k) by lia.
    rewrite (Zplus_mod (i + _) _ _), E, <- Zplus_mod. reflexivity.
  Qed.

  Lemma holds_ring : forall mem i l, holds size mem i l -> ring mem i l.
  Proof. intros mem i l H k x N _. auto. Qed.

  Lemma target_mod : forall w len k, 0 <= w < size -> 0 <= k < len -> len <= size -> target size w len k = (w + k) mod size.
  Proof.
    intros w len k Hw Hk Hl. unfold target. pose proof (mod_wrap size (w + k) ltac:(lia)) as M.
    destruct (w + len >? size) eqn:E.
    - destruct (k <? size - w) eqn:E2; lia.
    - destruct M as [[_ ->]|[M _]]; lia.
  Qed.

  Definition storing (r : rtt) (l bs : bytes) (cursor len k : Z) : Prop :=
    cursor = r_write r /\ 0 <= k <= len /\ 0 < len <= Z.of_nat (length bs) /\ len <= size /\ ring (r_mem r) (r_read r) (l ++ firstn (Z.to_nat k) bs).

  (** No host reads: everything since [before] was written from the read offset on. *)
  Record loose (D : bytes) (r : rtt) (before l : bytes) : Prop := {
    l_mem : Z.of_nat (length (r_mem r)) = size;
    l_read : 0 <= r_read r < size;
    l_write : r_write r = (r_read r + Z.of_nat (length l)) mod size;
    l_idle : r_host r = HIdle;
    l_data : before ++ l ++ pending (r_dev r) ++ data (r_ops r) = D;
    l_dev : match r_dev r with
            | DNext | DLoop false _ => ring (r_mem r) (r_read r) l
            | DWrite bs None => bs <> [] /\ ring (r_mem r) (r_read r) l
            | DCopy false bs cursor len k => storing r l bs cursor len k
            | DStore false bs cursor len => storing r l bs cursor len len
            | _ => False
            end }.

  Lemma loose_call : forall D r b l ops, loose D r b l -> loose (D ++ data ops) (call r ops) b l.
  Proof.
    intros D r b l ops [Lm Lr Lw Li Ld Lv]. constructor; auto. cbn [call r_dev r_ops]. rewrite data_app, <- Ld, <- !app_assoc. reflexivity.
  Qed.

  Lemma loose_trimming : forall D r b l, loose D r b l -> r_dev r = DNext \/ trimming (r_dev r) = true.
  Proof.
    intros D r b l [_ _ _ _ _ Lv]. destruct (r_dev r) as [|[|] bs|bs|bs [r0|]|[|] bs cursor len k|[|] bs cursor len| |r0|]; try contradiction; auto.
  Qed.

  (** A step of a write that does not wait. *)
  Lemma loose_write : forall D r b l, loose D r b l -> r_dev r <> DNext ->
    exists l', loose D (dev_step size false r) b l' /\ b ++ l' ++ pending (r_dev (dev_step size false r)) = b ++ l ++ pending (r_dev r) /\
      r_ops (dev_step size false r) = r_ops r.
  Proof.
    intros D [mem w r c d ops h del] b l [Lm Lr Lw Li Ld Lv] N. unfold dev_step. cbn [r_mem r_write r_read r_connected r_dev r_ops r_host r_delivered] in *.
    assert (Hs : 0 < size) by lia.
    assert (Bw : 0 <= w < size) by (rewrite Lw; apply Z.mod_pos_bound; lia).
    destruct d as [|[|] bs|bs|bs [r0|]|[|] bs cursor len k|[|] bs cursor len| |r0|]; try contradiction; cbn [pending] in *.
    - destruct bs as [|x bs]; exists l; (split; [constructor; auto|split; reflexivity]).
      cbn [set_dev r_dev]. split; [discriminate|exact Lv].
    - destruct Lv as [NE Lv]. exists l. split; [constructor; auto|split; reflexivity]. cbn [set_dev r_dev].
      assert (0 < Z.of_nat (length bs)) by (destruct bs; [congruence|cbn [length]; lia]).
      repeat split; cbn [r_write r_mem r_read]; try lia. rewrite app_nil_r. exact Lv.
    - destruct Lv as (-> & B1 & B2 & B3 & Rg). cbn [r_mem r_read r_write] in *. destruct (k <? len) eqn:E.
      + rewrite target_mod by lia. pose proof (Z.mod_pos_bound (w + k) size Hs) as Bk.
        destruct (nth_error bs (Z.to_nat k)) as [x|] eqn:Nx; [|apply nth_error_None in Nx; lia].
        replace ((0 <=? (w + k) mod size) && ((w + k) mod size <? size)) with true by lia.
        exists l. split; [|split; reflexivity]. constructor; auto; cbn [set_dev store_byte r_mem r_read r_write r_host r_dev r_ops].
        * rewrite upd_length. exact Lm.
        * repeat split; cbn [r_mem r_read r_write]; try lia.
          replace (Z.to_nat (k + 1)) with (S (Z.to_nat k)) by lia. rewrite (firstn_succ _ _ _ Nx), app_assoc.
          replace ((w + k) mod size) with ((r + Z.of_nat (length (l ++ firstn (Z.to_nat k) bs))) mod size); [apply ring_add; auto|].
          rewrite app_length, firstn_length, Lw, Zplus_mod_idemp_l. f_equal. lia.
      + exists l. split; [constructor; auto|split; reflexivity]. cbn [set_dev r_dev]. assert (k = len) by lia. subst k.
        repeat split; cbn [r_mem r_read r_write]; auto; lia.
    - destruct Lv as (-> & B1 & B2 & B3 & Rg). cbn [r_mem r_read r_write] in *. replace (size =? 0) with false by lia.
      assert (LN : Z.of_nat (length (firstn (Z.to_nat len) bs)) = len) by (rewrite firstn_length; lia).
      exists (l ++ firstn (Z.to_nat len) bs). split; [|split; [|reflexivity]].
      + constructor; auto; cbn [set_dev store_write r_mem r_read r_write r_host r_dev r_ops pending].
        * rewrite app_length, Nat2Z.inj_add, LN, Z.add_assoc, Lw, Zplus_mod_idemp_l. reflexivity.
        * rewrite <- Ld, <- !app_assoc. do 2 f_equal. rewrite app_assoc, firstn_skipn. reflexivity.
      + cbn [set_dev store_write r_dev pending]. rewrite <- !app_assoc, firstn_skipn. reflexivity.
  Qed.

  (** Between two writes of a device without a host. *)
  Lemma loose_next : forall D r b l, loose D r b l -> r_dev r = DNext -> r_connected r = false -> loose D (dev_step size false r) b l.
  Proof.
    intros D [mem w r c d ops h del] b l [Lm Lr Lw Li Ld Lv] E C. cbn [r_mem r_write r_read r_connected r_dev r_ops r_host r_delivered] in *. subst d c.
    unfold dev_step. cbn [r_dev r_ops r_connected]. destruct ops as [|[bs|] ops]; constructor; auto.
  Qed.

  (** Between two writes the channel is in order for a host that attaches. *)
  Lemma loose_steady : forall D r b l, loose D r b l -> r_dev r = DNext -> r_delivered r = [] ->
    exists lost u, l = lost ++ u /\ inv size D (pad (b ++ lost) r) u /\ (Z.of_nat (length l) < size -> lost = []).
  Proof.
    intros D r b l [Lm Lr Lw Li Ld Lv] E Dl. assert (Hs : 0 < size) by lia. rewrite E in *. cbn [pending app] in Ld.
    set (n := Z.of_nat (length l)) in *. set (q := Z.to_nat (size * (n / size))).
    pose proof (Z.div_mod n size ltac:(lia)) as DM. pose proof (Z.mod_pos_bound n size Hs) as MB.
    assert (Q : 0 <= n / size) by (apply Z.div_pos; lia). assert (Q2 : 0 <= size * (n / size)) by (apply Z.mul_nonneg_nonneg; lia).
    assert (Lq : Z.of_nat (length (firstn q l)) = size * (n / size)) by (rewrite firstn_length; unfold q; lia).
    assert (Ls : Z.of_nat (length (skipn q l)) = n mod size) by (rewrite skipn_length; unfold q; lia).
    exists (firstn q l), (skipn q l). split; [symmetry; apply firstn_skipn|]. split.
    - constructor; cbn [pad r_mem r_write r_read r_connected r_dev r_ops r_host r_delivered]; auto.
      + rewrite Lw. apply Z.mod_pos_bound. lia.
      + rewrite Ls, Lw, Zminus_mod_idemp_l. f_equal. lia.
      + apply (ring_holds _ _ (firstn q l)); auto; try lia; [|rewrite firstn_skipn; exact Lv].
        rewrite Lq, Z.mul_comm. apply Z.mod_add. lia.
      + rewrite E, Dl, app_nil_r. cbn [pending app]. rewrite <- Ld, <- !app_assoc. f_equal. rewrite app_assoc, firstn_skipn. reflexivity.
      + unfold dev_inv. cbn [pad r_dev]. rewrite E. split; exact Logic.I.
      + unfold host_inv. cbn [pad r_host]. rewrite Li. exact Logic.I.
    - intros Sm. unfold q. rewrite Z.div_small by lia. rewrite Z.mul_0_r. reflexivity.
  Qed.

  Lemma steady_loose : forall D r lost u, inv size D (pad lost r) u -> r_dev r = DNext -> r_host r = HIdle -> loose D r (lost ++ r_delivered r) u.
  Proof.
    intros D r lost u [Im Iw Ir Ic Iu Ih Id Iv It] E Hi. cbn [pad r_mem r_write r_read r_connected r_dev r_ops r_host r_delivered] in *.
    constructor; auto.
    - rewrite Iu, Zplus_mod_idemp_r. replace (r_read r + (r_write r - r_read r)) with (r_write r) by lia. symmetry. apply Z.mod_small. lia.
    - rewrite E. now apply holds_ring.
  Qed.

  Lemma pad_dev : forall lost r, r_dev r <> DNext \/ r_connected r = true -> dev_step size false (pad lost r) = pad lost (dev_step size false r).
  Proof.
    intros lost [mem w r c d ops h del] H. cbn [r_dev r_connected] in H. unfold dev_step, pad. cbn [r_mem r_write r_read r_connected r_dev r_ops r_host r_delivered].
    destruct d as [|conn bs|bs|bs [r0|]|conn bs cursor len k|conn bs cursor len| |r0|]; cbn [set_dev store_byte store_write r_mem r_write r_read r_connected r_dev r_ops r_host r_delivered]; auto.
    - destruct H as [H| ->]; [congruence|]. destruct ops as [|[bs|] ops]; reflexivity.
    - destruct bs; reflexivity.
    - destruct (available size r0 w); [destruct (_ =? 0)|]; reflexivity.
    - destruct (k <? len); [|reflexivity]. destruct (nth_error bs (Z.to_nat k)); [|reflexivity]. destruct (_ && _); reflexivity.
    - destruct (size =? 0); reflexivity.
    - destruct (r0 =? w); reflexivity.
  Qed.

  Lemma pad_host : forall lost r r', host_step size r r' -> host_step size (pad lost r) (pad lost r').
  Proof.
    intros lost r r' H. destruct H as [s E|s w got x E L N|s w got E].
    - exact (host_load size (pad lost s) E).
    - exact (host_read size (pad lost s) w got x E L N).
    - pose proof (host_store size (pad lost s) w got E) as S. cbn [pad r_mem r_write r_read r_connected r_dev r_ops r_host r_delivered] in S.
      unfold pad. cbn [r_mem r_write r_read r_connected r_dev r_ops r_host r_delivered]. rewrite app_assoc. exact S.
  Qed.
End Ring.
