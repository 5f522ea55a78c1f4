(** The logger's invariant (C31, C43). *)
From Verif Require Import Base RzcobsModel DecoderModel LoggerModel LoggerSpec.

(* ------------------------------------------------------------------ *)
(** * Lists of contexts *)

Lemma upd_same : forall A (l : list A) i x y, nth_error l i = Some y -> nth_error (upd i x l) i = Some x.
Proof. induction l as [|a l IH]; intros [|i] x y H; cbn in *; try discriminate; auto. eapply IH; eauto. Qed.

Lemma upd_other : forall A (l : list A) i j x, i <> j -> nth_error (upd i x l) j = nth_error l j.
Proof. induction l as [|a l IH]; intros [|i] [|j] x H; cbn; auto; try congruence. Qed.

Lemma upd_length : forall A (l : list A) i x, length (upd i x l) = length l.
Proof. induction l as [|a l IH]; intros [|i] x; cbn; auto. Qed.

(* ------------------------------------------------------------------ *)
(** * The encoder *)

Section Encoder.
  Context (k : encoding).

  Fixpoint k_writes (e : encoder) (w : list bytes) : encoder * bytes :=
    match w with
    | [] => (e, [])
    | b :: w' => let '(e1, o1) := enc_write k e b in let '(e2, o2) := k_writes e1 w' in (e2, o1 ++ o2)
    end.
  Definition k_part (e : encoder) (w : list bytes) : encoder * bytes :=
    let '(e0, o0) := enc_start k e in let '(e1, o1) := k_writes e0 w in (e1, o0 ++ o1).
  Definition k_frame (e : encoder) (w : list bytes) : encoder * bytes :=
    let '(e1, o1) := k_part e w in let '(e2, o2) := enc_end k e1 in (e2, o1 ++ o2).
  Fixpoint k_frames (e : encoder) (fs : list (list bytes)) : encoder * bytes :=
    match fs with
    | [] => (e, [])
    | f :: fs' => let '(e1, o1) := k_frame e f in let '(e2, o2) := k_frames e1 fs' in (e2, o1 ++ o2)
    end.

  Lemma k_writes_snoc : forall w e b,
    k_writes e (w ++ [b]) = let '(e1, o1) := k_writes e w in let '(e2, o2) := enc_write k e1 b in (e2, o1 ++ o2).
  Proof.
    induction w as [|a w IH]; intros e b; cbn [k_writes app].
    - destruct (enc_write k e b). now rewrite app_nil_r.
    - destruct (enc_write k e a) as [e1 o1]. rewrite IH. destruct (k_writes e1 w) as [e2 o2]. destruct (enc_write k e2 b).
      now rewrite app_assoc.
  Qed.

  Lemma k_frames_snoc : forall fs e f,
    k_frames e (fs ++ [f]) = let '(e1, o1) := k_frames e fs in let '(e2, o2) := k_frame e1 f in (e2, o1 ++ o2).
  Proof.
    induction fs as [|a fs IH]; intros e f; cbn [k_frames app].
    - destruct (k_frame e f). now rewrite app_nil_r.
    - destruct (k_frame e a) as [e1 o1]. rewrite IH. destruct (k_frames e1 fs) as [e2 o2]. destruct (k_frame e2 f).
      now rewrite app_assoc.
  Qed.
End Encoder.

Lemma k_writes_rz : forall w e, k_writes EncRzcobs e w = writes e w.
Proof. induction w as [|a w IH]; intros e; cbn [k_writes writes enc_write]; auto. Qed.
Lemma k_frames_rz : forall fs e, k_frames EncRzcobs e fs = frames_chunks e fs.
Proof.
  induction fs as [|a fs IH]; intros e; cbn [k_frames frames_chunks]; auto. unfold k_frame, k_part, frame_chunks. cbn [enc_start enc_end].
  destruct (start_frame e) as [e0 o0]. rewrite k_writes_rz. destruct (writes e0 a) as [e1 o1]. destruct (end_frame e1) as [e2 o2].
  rewrite IH. destruct (frames_chunks e2 fs). now rewrite !app_assoc.
Qed.
Lemma k_writes_raw : forall w e, k_writes EncRaw e w = (e, concat w).
Proof. induction w as [|a w IH]; intros e; cbn [k_writes enc_write concat]; auto. rewrite IH. reflexivity. Qed.
Lemma k_frames_raw : forall fs e, k_frames EncRaw e fs = (e, concat (map raw_frame_chunks fs)).
Proof.
  induction fs as [|a fs IH]; intros e; cbn [k_frames map concat]; auto. unfold k_frame, k_part. cbn [enc_start enc_end].
  rewrite k_writes_raw, IH. unfold raw_frame_chunks, raw_start_frame, raw_end_frame, raw_write. cbn [app]. rewrite map_id. reflexivity.
Qed.

Lemma transmitted_eq : forall k fs, transmitted k fs = snd (k_frames k enc_new fs).
Proof. intros [] fs; cbn [transmitted]; [now rewrite k_frames_raw|now rewrite k_frames_rz]. Qed.
Lemma transmitted_part_eq : forall k fs w, transmitted_part k fs w =
  snd (k_frames k enc_new fs) ++ snd (k_part k (fst (k_frames k enc_new fs)) w).
Proof.
  intros [] fs w; cbn [transmitted_part]; unfold k_part; cbn [enc_start].
  - rewrite k_frames_raw. cbn [fst snd]. rewrite k_writes_raw. reflexivity.
  - rewrite k_frames_rz. destruct (frames_chunks enc_new fs) as [e o]. cbn [fst snd]. destruct (start_frame e) as [e0 o0].
    change (k_writes EncRzcobs e0 w) with (writes e0 w). destruct (writes e0 w). reflexivity.
Qed.

(* ------------------------------------------------------------------ *)
(** * Invariant *)

(** The saved values of [b] nested critical sections. *)
Definition ustack (b : nat) : list bool := match b with O => [] | S n => repeat false n ++ [true] end.
Definition fresh (b : nat) : bool := match b with O => true | S _ => false end.

Lemma ustack_S : forall b, ustack (S b) = fresh b :: ustack b.
Proof. intros [|b]; reflexivity. Qed.


(** What is left of [release] after [end_frame]. *)
Definition tail_ops (r : list op) : Prop :=
  In r [[OLoad; OFree; OLeave]; [OFree; OLeave]; [OLeave]; [OFree; OLoad; OLeave]; [OLoad; OLeave]].
Definition has_free (r : list op) : bool := existsb (fun o => match o with OFree => true | _ => false end) r.
Definition has_load (r : list op) : bool := existsb (fun o => match o with OLoad => true | _ => false end) r.

(** After a panic with the logger taken nothing is written any more. *)
Definition doomed_code (c : list op) : Prop :=
  match c with OHalt :: _ | OCheckFree :: _ | OEnter :: OCheckFree :: _ => True | _ => False end.

Section Inv.
  Context (lg : logger) (k : encoding) (msg : option (list task)) (cl : bool).
  Context (Hmsg : forall body, msg = Some body -> nested true 0 body).
  Notation comp := (comp lg).
  Notation attempts := (attempts msg).

  Definition outside (cd : list op) (ls : list bool) (todo : list (list bytes * bool)) : Prop :=
    exists ts, cd = comp ts /\ ls = [] /\ nested false 0 ts /\ (cl = true -> calm ts) /\ todo = attempts ts.

  (** The context in the critical section. [t], [c]: [taken] and [cs_restore]; [cur]: what has been written of the open frame. *)
  Inductive inside (t c : bool) (cur : option (list bytes)) : list op -> list bool -> list (list bytes * bool) -> Prop :=
  | I_section b ts : t = false -> cur = None -> nested false (S b) ts -> (cl = true -> calm ts) ->
      inside t c cur (comp ts) (ustack (S b)) (attempts ts)
  | I_check b body ts : t = false -> cur = None -> nested true 0 body -> nested false b ts -> (cl = true -> calm_body body /\ calm ts) ->
      inside t c cur (OCheckFree :: OTake :: OSave :: OStart :: comp body ++ release_ops lg ++ comp ts) (ustack (S b)) (attempts (TLog body :: ts))
  | I_take b body ts : t = false -> cur = None -> nested true 0 body -> nested false b ts -> (cl = true -> calm_body body /\ calm ts) ->
      inside t c cur (OTake :: OSave :: OStart :: comp body ++ release_ops lg ++ comp ts) (ustack (S b)) (attempts (TLog body :: ts))
  | I_save b body ts : t = true -> cur = None -> nested true 0 body -> nested false b ts -> (cl = true -> calm_body body /\ calm ts) ->
      inside t c cur (OSave :: OStart :: comp body ++ release_ops lg ++ comp ts) (ustack (S b)) (attempts (TLog body :: ts))
  | I_start b body ts : t = true -> cur = None -> c = fresh b -> nested true 0 body -> nested false b ts -> (cl = true -> calm_body body /\ calm ts) ->
      inside t c cur (OStart :: comp body ++ release_ops lg ++ comp ts) (ustack b) (attempts (TLog body :: ts))
  | I_body b d body ts w : t = true -> cur = Some w -> c = fresh b -> nested true d body -> nested false b ts -> (cl = true -> calm_body body /\ calm ts) ->
      inside t c cur (comp body ++ release_ops lg ++ comp ts) (repeat false d ++ ustack b)
        ((w ++ fst (attempt body), snd (attempt body)) :: (if snd (attempt body) then attempts ts else []))
  | I_write b d body ts w x : t = true -> cur = Some w -> c = fresh b -> nested true d body -> nested false b ts -> (cl = true -> calm_body body /\ calm ts) ->
      inside t c cur (OWrite x :: comp body ++ release_ops lg ++ comp ts) (repeat false d ++ ustack b)
        ((w ++ x :: fst (attempt body), snd (attempt body)) :: (if snd (attempt body) then attempts ts else []))
  | I_end b ts w r : t = true -> cur = Some w -> c = fresh b -> nested false b ts -> (cl = true -> calm ts) ->
      tail_ops r -> has_free r = true -> has_load r = true ->
      inside t c cur (OEnd :: r ++ comp ts) (ustack b) ((w, true) :: attempts ts)
  | I_tail b ts r : cur = None -> tail_ops r -> t = has_free r -> (has_load r = true -> c = fresh b) ->
      nested false b ts -> (cl = true -> calm ts) ->
      inside t c cur (r ++ comp ts) (if has_load r then ustack b else ustack (S b)) (attempts ts)
  | I_doomed w w2 fl more cd ls : cl = false -> t = true -> cur = Some w -> doomed_code cd ->
      inside t c cur cd ls ((w ++ w2, fl) :: more).

  Definition enc_ok (s : sys) (hist : list (nat * list bytes)) (cur : option (list bytes)) : Prop :=
    match cur with
    | None => (enc s, out s) = k_frames k enc_new (map snd hist)
    | Some w => let '(e, o) := k_frames k enc_new (map snd hist) in let '(e1, o1) := k_part k e w in enc s = e1 /\ out s = o ++ o1
    end.

  Lemma attempts_handler : forall p r, exists more, attempts (TPanic :: r) = attempts (handler msg p) ++ more /\ (more = [] \/ p = true).
  Proof.
    intros p r. unfold handler. destruct p.
    - cbn [LoggerSpec.attempts app]. eexists. split; [reflexivity|auto].
    - destruct msg as [body|]; cbn [LoggerSpec.attempts].
      + exists []. rewrite app_nil_r. split; auto. destruct (snd (attempt body)); reflexivity.
      + exists []. auto.
  Qed.

  Lemma nested_handler : forall b p, nested false b (handler msg p).
  Proof. intros b p. unfold handler. destruct p; [constructor|]. destruct msg; repeat constructor. auto. Qed.

  Lemma doomed_handler : forall p, doomed_code (comp (handler msg p)).
  Proof. intros p. unfold handler. destruct p; [constructor|]. destruct msg; cbn; exact Logic.I. Qed.

  Lemma handler_not_nil : forall p, comp (handler msg p) <> [].
  Proof. intros p. unfold handler. destruct p; [discriminate|]. destruct msg; discriminate. Qed.

  Definition after (s' : sys) (i : nat) (hist : list (nat * list bytes)) (rest : list op) (ls' : list bool) (todo : list (list bytes * bool)) : Prop :=
    exists cur' h' todo', enc_ok s' (hist ++ h') cur' /\ (h' = [] \/ exists w, h' = [(i, w)]) /\ todo = complete (map snd h') ++ todo' /\
      ((owner s' = Some i /\ inside (taken s') (cell s') cur' rest ls' todo') \/
       (owner s' = None /\ taken s' = false /\ cur' = None /\ outside rest ls' todo')).

  Lemma after_stay : forall s' i hist rest ls' todo cur', enc_ok s' hist cur' -> owner s' = Some i ->
    inside (taken s') (cell s') cur' rest ls' todo -> after s' i hist rest ls' todo.
  Proof. intros. exists cur', [], todo. rewrite app_nil_r. auto 6. Qed.

  Definition good_next (s : sys) (i : nat) (hist : list (nat * list bytes)) (rest : list op) (todo : list (list bytes * bool)) (x : effect) : Prop :=
    match x with Next s' ls' => ctxs s' = ctxs s /\ panicked s' = panicked s /\ after s' i hist rest ls' todo | _ => False end.

  Lemma stay : forall s s' i hist rest ls' todo cur', ctxs s' = ctxs s -> panicked s' = panicked s -> enc_ok s' hist cur' -> owner s' = Some i ->
    inside (taken s') (cell s') cur' rest ls' todo -> good_next s i hist rest todo (Next s' ls').
  Proof. intros. split; auto. split; auto. eapply after_stay; eauto. Qed.

  Lemma write_step : forall i s b d body ts w x hist, owner s = Some i -> taken s = true -> cell s = fresh b -> enc_ok s hist (Some w) ->
    nested true d body -> nested false b ts -> (cl = true -> calm_body body /\ calm ts) ->
    good_next s i hist (comp body ++ release_ops lg ++ comp ts)
      ((w ++ x :: fst (attempt body), snd (attempt body)) :: (if snd (attempt body) then attempts ts else []))
      (exec k i (OWrite x) s (repeat false d ++ ustack b)).
  Proof.
    intros i s b d body ts w x hist Ho Ht Hc He Hb Hts Hcl. destruct s as [ow t c e ob p cs]. cbn [owner taken cell] in *. subst.
    unfold enc_ok in He. cbn [enc out] in He.
    destruct (k_frames k enc_new (map snd hist)) as [e0 o0] eqn:E. destruct (k_part k e0 w) as [e1 o1] eqn:E1.
    destruct He as [He1 He2]. subst e ob. cbn [exec]. destruct (enc_write k e1 x) as [e2 o2] eqn:E2.
    eapply stay with (cur' := Some (w ++ [x])); auto.
    - unfold enc_ok. cbn [enc out]. rewrite E. unfold k_part in *. destruct (enc_start k e0) as [e3 o3]. rewrite k_writes_snoc.
      destruct (k_writes k e3 w) as [e4 o4]. injection E1 as <- <-. rewrite E2. now rewrite <- !app_assoc.
    - cbn [taken cell]. replace (w ++ x :: fst (attempt body)) with ((w ++ [x]) ++ fst (attempt body)) by now rewrite <- app_assoc.
      now apply I_body.
  Qed.

  Lemma end_step : forall i s b ts w r hist, owner s = Some i -> taken s = true -> cell s = fresh b -> enc_ok s hist (Some w) ->
    nested false b ts -> (cl = true -> calm ts) -> tail_ops r -> has_free r = true -> has_load r = true ->
    good_next s i hist (r ++ comp ts) ((w, true) :: attempts ts) (exec k i OEnd s (ustack b)).
  Proof.
    intros i s b ts w r hist Ho Ht Hc He Hts Hcl Hr Hf Hl. destruct s as [ow t c e ob p cs]. cbn [owner taken cell] in *. subst.
    unfold enc_ok in He. cbn [enc out] in He.
    destruct (k_frames k enc_new (map snd hist)) as [e0 o0] eqn:E. destruct (k_part k e0 w) as [e1 o1] eqn:E1.
    destruct He as [He1 He2]. subst e ob. cbn [exec]. destruct (enc_end k e1) as [e2 o2] eqn:E2. split; [reflexivity|]. split; [reflexivity|].
    exists None, [(i, w)], (attempts ts). split; [|split; [eauto|split; [reflexivity|left; split; [reflexivity|]]]].
    - unfold enc_ok. cbn [enc out]. rewrite map_app. cbn [map snd]. rewrite k_frames_snoc, E. unfold k_frame. rewrite E1, E2. now rewrite app_assoc.
    - cbn [taken cell]. pose proof (I_tail true (fresh b) None b ts r eq_refl Hr) as X. rewrite Hf, Hl in X. apply X; auto.
  Qed.

  (** Leaving a section: the context is out, or still in an outer one. *)
  Lemma leave_step : forall i s b ts hist, owner s = Some i -> taken s = false -> enc_ok s hist None ->
    nested false b ts -> (cl = true -> calm ts) ->
    good_next s i hist (comp ts) (attempts ts) (exec k i OLeave s (ustack (S b))).
  Proof.
    intros i s b ts hist Ho Ht He Hts Hcl. destruct s as [ow t c e ob p cs]. cbn [owner taken cell] in *. subst. rewrite ustack_S. cbn [exec].
    destruct b as [|b]; cbn [fresh].
    - split; [reflexivity|]. split; [reflexivity|]. exists None, [], (attempts ts). rewrite app_nil_r. split; [exact He|]. split; [auto|]. split; [reflexivity|].
      right. split; [reflexivity|]. split; [reflexivity|]. split; [reflexivity|]. exists ts. auto.
    - eapply stay with (cur' := None); auto. now apply I_section.
  Qed.

  Lemma release_step : forall i s b ts w hist o rest, owner s = Some i -> taken s = true -> cell s = fresh b -> enc_ok s hist (Some w) ->
    nested false b ts -> (cl = true -> calm ts) -> release_ops lg ++ comp ts = o :: rest ->
    good_next s i hist rest ((w, true) :: attempts ts) (exec k i o s (ustack b)).
  Proof.
    intros i s b ts w hist o rest Ho Ht Hc He Hts Hcl Q.
    assert (G : forall r, release_ops lg = OCheckTaken :: OEnd :: r -> tail_ops r -> has_free r = true -> has_load r = true ->
      good_next s i hist rest ((w, true) :: attempts ts) (exec k i o s (ustack b))).
    { intros r R T1 T2 T3. rewrite R in Q. injection Q as <- <-. destruct s as [ow t c e ob p cs]. cbn [owner taken cell] in *. subst. cbn [exec].
      eapply stay with (cur' := Some w); auto. cbn [taken cell app]. now apply I_end. }
    destruct lg eqn:L; [eapply G; [reflexivity|cbn; auto|reflexivity|reflexivity]| |eapply G; [reflexivity|cbn; auto|reflexivity|reflexivity]].
    cbn [release_ops app] in Q. injection Q as <- <-. rewrite <- L in *.
    exact (end_step i s b ts w [OFree; OLoad; OLeave] hist Ho Ht Hc He Hts Hcl (or_intror (or_intror (or_intror (or_introl eq_refl)))) eq_refl eq_refl).
  Qed.

  Lemma calm_false : forall ts, (cl = true -> calm ts) -> ~ calm ts -> cl = false.
  Proof. intros ts H N. destruct cl; auto. exfalso. auto. Qed.

  Lemma inside_step : forall i s cur hist o rest ls todo,
    inside (taken s) (cell s) cur (o :: rest) ls todo -> owner s = Some i -> enc_ok s hist cur ->
    good_next s i hist rest todo (exec k i o s ls) \/
    (exec k i o s ls = Blocked /\ o = OHalt /\ cl = false) \/
    (exec k i o s ls = Panics /\ cl = false /\ exists more todo', (more = [] \/ panicked s = true) /\ todo = todo' ++ more /\
        inside (taken s) (cell s) cur (comp (handler msg (panicked s))) ls todo').
  Proof.
    intros i s cur hist o rest ls todo H Ho He.
    remember (taken s) as t eqn:Ht. remember (cell s) as c eqn:Hc. remember (o :: rest) as cd eqn:Q. destruct H.
    - (* between statements, in a section *)
      subst cur. rewrite ustack_S. inversion H1; subst; cbn [LoggerModel.comp flat_map comp_task app] in Q.
      + injection Q as <- <-. left. destruct s as [ow t c e ob p cs]. cbn [owner taken cell] in *. subst. cbn [exec]. rewrite Nat.eqb_refl.
        eapply stay with (cur' := None); auto. rewrite <- !app_assoc. cbn [app taken cell]. rewrite <- ustack_S.
        apply (I_check false c None (S b)); auto. intros X. specialize (H2 X). now inversion H2.
      + injection Q as <- <-. left. destruct s as [ow t c e ob p cs]. cbn [owner taken cell] in *. subst. cbn [exec]. rewrite Nat.eqb_refl.
        eapply stay with (cur' := None); auto. rewrite <- ustack_S. cbn [LoggerSpec.attempts]. apply (I_section false c None (S b)); auto. intros X. specialize (H2 X). now inversion H2.
      + injection Q as <- <-. left. rewrite <- ustack_S. cbn [LoggerSpec.attempts]. apply leave_step; auto. intros X. specialize (H2 X). now inversion H2.
      + injection Q as <- <-. right. right. destruct s as [ow t c e ob p cs]. cbn [owner taken cell panicked] in *. subst. split; [reflexivity|].
        split; [apply (calm_false _ H2); intros X; inversion X; contradiction|]. destruct (attempts_handler p r) as (more & E & M).
        exists more, (attempts (handler msg p)). split; auto. split; auto. rewrite <- ustack_S. apply I_section; auto; [apply nested_handler|].
        intros X. exfalso. specialize (H2 X). inversion H2; contradiction.
      + injection Q as <- <-. right. left. destruct s. split; [reflexivity|]. split; [reflexivity|]. apply (calm_false _ H2). intros X; inversion X; contradiction.
      + injection Q as <- <-. left. destruct s as [ow t c e ob p cs]. cbn [owner taken cell] in *. subst. cbn [exec].
        eapply stay with (cur' := None); auto. rewrite <- ustack_S. cbn [LoggerSpec.attempts]. apply I_section; auto. intros X. specialize (H2 X). now inversion H2.
    - injection Q as <- <-. left. destruct s as [ow t0 c0 e ob p cs]. cbn [owner taken cell] in *. subst. cbn [exec]. eapply stay with (cur' := None); auto. now apply I_take.
    - injection Q as <- <-. left. destruct s as [ow t0 c0 e ob p cs]. cbn [owner taken cell] in *. subst. cbn [exec]. eapply stay with (cur' := None); auto. now apply I_save.
    - injection Q as <- <-. left. destruct s as [ow t0 c0 e ob p cs]. cbn [owner taken cell] in *. subst. rewrite ustack_S. cbn [exec]. eapply stay with (cur' := None); auto. now apply I_start.
    - injection Q as <- <-. left. destruct s as [ow t0 c0 e ob p cs]. cbn [owner taken cell] in *. subst. cbn [exec]. destruct (enc_start k e) as [e0 o0] eqn:E.
      eapply stay with (cur' := Some []); auto.
      + unfold enc_ok in *. cbn [enc out] in *. rewrite <- He. unfold k_part. rewrite E. cbn [k_writes]. now rewrite app_nil_r.
      + cbn [taken cell LoggerSpec.attempts]. rewrite (surjective_pairing (attempt body)) at 1.
        exact (I_body true (fresh b) (Some []) b 0 body ts [] eq_refl eq_refl eq_refl H2 H3 H4).
    - subst cur. inversion H2; subst; cbn [LoggerModel.comp flat_map comp_task app attempt fst snd] in *.
      + left. rewrite app_nil_r. apply release_step with (b := b); auto. intros X. apply H4; auto.
      + injection Q as <- <-. left. destruct s as [ow t0 c0 e ob p cs]. cbn [owner taken cell] in *. subst. cbn [exec]. rewrite Nat.eqb_refl.
        eapply stay with (cur' := Some w); auto. rewrite <- !app_assoc. cbn [app taken cell]. apply I_doomed; auto; [|exact Logic.I].
        destruct cl; auto. destruct (H4 eq_refl) as [X _]. inversion X. contradiction.
      + assert (C : cl = true -> calm_body r /\ calm ts) by (intros X; destruct (H4 X) as [Y ?]; inversion Y; auto).
        destruct (attempt r) as [w' f] eqn:A. cbn [fst snd].
        pose proof (write_step i s b d r ts w b0 hist) as W. rewrite A in W. cbn [fst snd] in W.
        left. assert (O : write_ops lg b0 = [OWrite b0] \/ write_ops lg b0 = [OCheckTaken; OWrite b0]) by (destruct lg; auto).
        rewrite <- app_assoc in Q. destruct O as [O|O]; rewrite O in Q; cbn [app] in Q; injection Q as <- <-; [apply W; auto|].
        destruct s as [ow t0 c0 e ob p cs]. cbn [owner taken cell] in *. subst ow t0 c0. cbn [exec].
        eapply stay with (cur' := Some w); auto. cbn [taken cell].
        pose proof (I_write true (fresh b) (Some w) b d r ts w b0) as Y. rewrite A in Y. apply Y; auto.
      + injection Q as <- <-. left. destruct s as [ow t0 c0 e ob p cs]. cbn [owner taken cell] in *. subst. cbn [exec].
        eapply stay with (cur' := Some w); auto. cbn [taken cell]. apply I_body; auto. intros X. destruct (H4 X) as [Y Z]. inversion Y; auto.
      + injection Q as <- <-. left. destruct s as [ow t0 c0 e ob p cs]. cbn [owner taken cell] in *. subst. cbn [exec]. rewrite Nat.eqb_refl.
        eapply stay with (cur' := Some w); auto. cbn [taken cell]. apply (I_body true (fresh b) (Some w) b (S d)); auto. intros X. destruct (H4 X) as [Y Z]. inversion Y; auto.
      + injection Q as <- <-. left. destruct s as [ow t0 c0 e ob p cs]. cbn [owner taken cell] in *. subst. cbn [exec repeat app].
        eapply stay with (cur' := Some w); auto. cbn [taken cell]. apply I_body; auto. intros X. destruct (H4 X) as [Y Z]. inversion Y; auto.
      + injection Q as <- <-. right. right. destruct s as [ow t0 c0 e ob p cs]. cbn [owner taken cell panicked] in *. subst.
        assert (C : cl = false) by (destruct cl; auto; destruct (H4 eq_refl) as [X _]; inversion X; contradiction).
        split; [reflexivity|]. split; [exact C|]. exists []. eexists. split; [auto|]. split; [symmetry; apply app_nil_r|]. apply I_doomed; auto. apply doomed_handler.
      + injection Q as <- <-. right. left. destruct s. split; [reflexivity|]. split; [reflexivity|].
        destruct cl; auto; destruct (H4 eq_refl) as [X _]; inversion X; contradiction.
      + injection Q as <- <-. left. destruct s as [ow t0 c0 e ob p cs]. cbn [owner taken cell] in *. subst. cbn [exec].
        eapply stay with (cur' := Some w); auto. cbn [taken cell]. apply I_body; auto. intros X. destruct (H4 X) as [Y Z]. inversion Y; auto.
    - injection Q as <- <-. subst cur. left. apply write_step; auto; congruence.
    - injection Q as <- <-. subst cur. left. apply end_step; auto; congruence.
    - subst cur. left. destruct s as [ow t0 c0 e ob p cs]. cbn [owner taken cell] in *. subst t0 c0 ow.
      destruct H0 as [<-|[<-|[<-|[<-|[<-|[]]]]]]; cbn [has_free has_load existsb app orb] in *; injection Q as <- <-; subst t.
      + specialize (H2 eq_refl). subst c. cbn [exec]. rewrite <- ustack_S. eapply stay with (cur' := None); auto. cbn [taken cell].
        apply (I_tail true (fresh b) None b ts [OFree; OLeave]); auto; cbn; auto.
      + cbn [exec]. eapply stay with (cur' := None); auto. cbn [taken cell]. apply (I_tail false c None b ts [OLeave]); auto; cbn; auto.
      + apply leave_step; auto.
      + specialize (H2 eq_refl). subst c. cbn [exec]. eapply stay with (cur' := None); auto. cbn [taken cell].
        apply (I_tail false (fresh b) None b ts [OLoad; OLeave]); auto; cbn; auto 6.
      + specialize (H2 eq_refl). subst c. cbn [exec]. rewrite <- ustack_S. eapply stay with (cur' := None); auto. cbn [taken cell].
        apply (I_tail false (fresh b) None b ts [OLeave]); auto; cbn; auto.
    - subst cur cd. destruct s as [ow t0 c0 e ob p cs]. cbn [owner taken cell panicked] in *. subst t0 c0 ow t. destruct o; cbn [doomed_code] in H2; try contradiction.
      + left. destruct rest as [|[] rest]; try contradiction. cbn [exec]. rewrite Nat.eqb_refl. eapply stay with (cur' := Some w); auto. cbn [taken cell]. now apply I_doomed.
      + right. right. split; [reflexivity|]. split; auto. exists []. eexists. split; [auto|]. split; [symmetry; apply app_nil_r|]. apply I_doomed; auto. apply doomed_handler.
      + right. left. auto.
  Qed.

  Lemma outside_step : forall i s o rest ls todo, outside (o :: rest) ls todo -> owner s <> Some i ->
    (owner s <> None /\ o = OEnter /\ exec k i o s ls = Blocked) \/
    (exec k i o s ls = Blocked /\ o = OHalt /\ cl = false) \/
    (exec k i o s ls = Next s ls /\ outside rest ls todo) \/
    (owner s = None /\ exists b p cs c t e, s = MkSys None t c e b p cs /\ exec k i o s ls = Next (MkSys (Some i) t c e b p cs) [true] /\
      (t = false -> inside t c None rest [true] todo)) \/
    (exec k i o s ls = Panics /\ cl = false /\ exists more todo', (more = [] \/ panicked s = true) /\ todo = todo' ++ more /\
        outside (comp (handler msg (panicked s))) ls todo').
  Proof.
    intros i s o rest ls todo (ts & Q & -> & N & C & ->) Ho. destruct s as [ow t c e ob p cs]. cbn [owner panicked] in *.
    inversion N; subst; cbn [LoggerModel.comp flat_map comp_task app] in Q; try discriminate; injection Q as -> ->.
    - destruct ow as [j|].
      + left. split; [discriminate|]. split; auto. cbn [exec]. destruct (Nat.eqb_spec j i); [congruence|auto].
      + right. right. right. left. split; auto. exists ob, p, cs, c, t, e. split; auto. split; auto. intros ->. rewrite <- !app_assoc. cbn [app].
        apply (I_check false c None 0); auto. intros X. specialize (C X). now inversion C.
    - destruct ow as [j|].
      + left. split; [discriminate|]. split; auto. cbn [exec]. destruct (Nat.eqb_spec j i); [congruence|auto].
      + right. right. right. left. split; auto. exists ob, p, cs, c, t, e. split; auto. split; auto. intros ->.
        cbn [LoggerSpec.attempts]. apply (I_section false c None 0); auto. intros X. specialize (C X). now inversion C.
    - right. right. right. right. split; auto. assert (F : cl = false) by (apply (calm_false _ C); intros X; inversion X; contradiction).
      split; auto. destruct (attempts_handler p r) as (more & E & M). exists more, (attempts (handler msg p)). split; auto. split; auto.
      exists (handler msg p). split; auto. split; auto. split; [apply nested_handler|]. split; auto. congruence.
    - right. left. split; auto. split; auto. apply (calm_false _ C). intros X; inversion X; contradiction.
    - right. right. left. split; auto. exists r. split; auto. split; auto. split; auto. split; auto. intros X. specialize (C X). now inversion C.
  Qed.

  (** ** All contexts *)

  Definition ctx_ok (s : sys) (cur : option (list bytes)) (i : nat) (c : ctx) (todo : list (list bytes * bool)) : Prop :=
    (owner s = Some i /\ inside (taken s) (cell s) cur (code c) (locals c) todo) \/
    (owner s <> Some i /\ outside (code c) (locals c) todo).

  Definition ctx_log (progs : list (list task)) (s : sys) (hist : list (nat * list bytes)) (i : nat) (todo : list (list bytes * bool)) : Prop :=
    exists ts more, nth_error progs i = Some ts /\ attempts ts = complete (by_ctx i hist) ++ todo ++ more /\ (more = [] \/ panicked s = true).

  Record inv (progs : list (list task)) (s : sys) (hist : list (nat * list bytes)) (cur : option (list bytes)) : Prop := MkInv {
    inv_enc : enc_ok s hist cur;
    inv_idle : owner s = None -> taken s = false /\ cur = None;
    inv_owner : forall i, owner s = Some i -> (i < length (ctxs s))%nat;
    inv_length : length (ctxs s) = length progs;
    inv_ctx : forall i c, nth_error (ctxs s) i = Some c -> exists todo, ctx_ok s cur i c todo /\ ctx_log progs s hist i todo;
    inv_calm : cl = true -> panicked s = false;
    inv_hist : forall i w, In (i, w) hist -> (i < length progs)%nat }.

  Lemma by_ctx_app : forall i a b, by_ctx i (a ++ b) = by_ctx i a ++ by_ctx i b.
  Proof. intros. unfold by_ctx. now rewrite filter_app, map_app. Qed.

  Lemma by_ctx_same : forall i h, h = [] \/ (exists w, h = [(i, w)]) -> by_ctx i h = map snd h.
  Proof. intros i h [->|(w & ->)]; [reflexivity|]. unfold by_ctx. cbn [filter fst]. now rewrite Nat.eqb_refl. Qed.

  Lemma by_ctx_other : forall i j h, i <> j -> h = [] \/ (exists w, h = [(i, w)]) -> by_ctx j h = [].
  Proof. intros i j h N [->|(w & ->)]; [reflexivity|]. unfold by_ctx. cbn [filter fst]. destruct (Nat.eqb_spec i j); [contradiction|reflexivity]. Qed.

  Lemma complete_app : forall a b, complete (a ++ b) = complete a ++ complete b.
  Proof. intros. apply map_app. Qed.

  Lemma inv_step : forall progs s hist cur i s', inv progs s hist cur -> step lg k msg i s = Some s' ->
    exists h' cur', inv progs s' (hist ++ h') cur'.
  Proof.
    intros progs s hist cur i s' V E. unfold step in E. destruct (nth_error (ctxs s) i) as [[cd ls]|] eqn:Nc; [|discriminate].
    destruct cd as [|o rest]; [discriminate|].
    destruct (inv_ctx _ _ _ _ V i _ Nc) as (todo & Ok & Lg). cbn [code locals] in *.
    assert (Li : (i < length (ctxs s))%nat) by (apply nth_error_Some; congruence).
    destruct Ok as [(Ho & In)|(Ho & Out)]; cbn [code locals] in *.
    - pose proof (inside_step i s cur hist o rest ls todo In Ho (inv_enc _ _ _ _ V)) as St.
      destruct (exec k i o s ls) as [s1 ls1| |] eqn:X.
      + destruct St as [St|[(St & _)|(St & _)]]; [|discriminate|discriminate]. destruct St as (Cs & Pn & cur' & h' & todo' & En & Hh & Td & Al).
        injection E as <-. exists h', cur'. constructor; cbn [owner taken cell enc out panicked ctxs set_ctx].
        * unfold enc_ok in *. exact En.
        * destruct Al as [(Q & _)|(Q & Q2 & Q3 & _)]; [congruence|auto].
        * rewrite Cs, upd_length. intros j Hj. destruct Al as [(Q & _)|(Q & _)]; congruence.
        * rewrite Cs, upd_length. apply (inv_length _ _ _ _ V).
        * rewrite Cs. intros j cj Hj. destruct (Nat.eq_dec i j) as [<-|Nj].
          -- rewrite (upd_same _ _ _ _ _ Nc) in Hj. injection Hj as <-. exists todo'. split.
             ++ unfold ctx_ok, set_ctx. cbn [owner taken cell code locals]. destruct Al as [(Q & Q2)|(Q & _ & _ & Q2)]; [left; auto|right; split; [rewrite Q; discriminate|auto]].
             ++ destruct Lg as (ts & more & L1 & L2 & L3). exists ts, more. split; auto. unfold set_ctx; cbn [panicked]. rewrite Pn. split; auto.
                rewrite by_ctx_app, complete_app, L2, Td, (by_ctx_same i h') by exact Hh. now rewrite <- !app_assoc.
          -- rewrite upd_other in Hj by auto. destruct (inv_ctx _ _ _ _ V j _ Hj) as (todoj & Okj & Lj). exists todoj. split.
             ++ destruct Okj as [(Q & _)|(Q & Q2)]; [congruence|]. right. split; auto. unfold set_ctx; cbn [owner].
                destruct Al as [(Q3 & _)|(Q3 & _)]; rewrite Q3; congruence.
             ++ destruct Lj as (ts & more & L1 & L2 & L3). exists ts, more. split; auto. unfold set_ctx; cbn [panicked]. rewrite Pn. split; auto.
                rewrite by_ctx_app, (by_ctx_other i j h') by auto. now rewrite app_nil_r.
        * rewrite Pn. apply (inv_calm _ _ _ _ V).
        * intros j w Hj. apply in_app_or in Hj as [Hj|Hj]; [eapply (inv_hist _ _ _ _ V); eauto|].
          destruct Hh as [->|(w' & ->)]; [contradiction|]. destruct Hj as [Hj|[]]. injection Hj as <- <-. rewrite <- (inv_length _ _ _ _ V). auto.
      + destruct St as [St|[(St & _)|(_ & Cf & more & todo' & Mo & Td & In')]]; [contradiction|discriminate|].
        injection E as <-. exists [], cur. rewrite app_nil_r. constructor; cbn [owner taken cell enc out panicked ctxs set_ctx set_panicked].
        * exact (inv_enc _ _ _ _ V).
        * exact (inv_idle _ _ _ _ V).
        * rewrite upd_length. exact (inv_owner _ _ _ _ V).
        * rewrite upd_length. exact (inv_length _ _ _ _ V).
        * intros j cj Hj. destruct (Nat.eq_dec i j) as [<-|Nj].
          -- rewrite (upd_same _ _ _ _ _ Nc) in Hj. injection Hj as <-. exists todo'. split; [left; auto|].
             destruct Lg as (ts & more' & L1 & L2 & L3). exists ts, (more ++ more'). split; auto. split; [|auto]. rewrite L2, Td. now rewrite <- !app_assoc.
          -- rewrite upd_other in Hj by auto. destruct (inv_ctx _ _ _ _ V j _ Hj) as (todoj & Okj & Lj). exists todoj. split; auto.
             destruct Lj as (ts & more' & L1 & L2 & L3). exists ts, more'. auto.
        * congruence.
        * exact (inv_hist _ _ _ _ V).
      + discriminate.
    - pose proof (outside_step i s o rest ls todo Out Ho) as St.
      destruct St as [(_ & _ & X)|[(X & _)|[(X & Out')|[(Ow & b & p & cs & c & t & e & Es & X & In')|(X & Cf & more & todo' & Mo & Td & Out')]]]]; rewrite X in E.
      + discriminate.
      + discriminate.
      + injection E as <-. exists [], cur. rewrite app_nil_r. constructor; cbn [owner taken cell enc out panicked ctxs set_ctx].
        * exact (inv_enc _ _ _ _ V).
        * exact (inv_idle _ _ _ _ V).
        * rewrite upd_length. exact (inv_owner _ _ _ _ V).
        * rewrite upd_length. exact (inv_length _ _ _ _ V).
        * intros j cj Hj. destruct (Nat.eq_dec i j) as [<-|Nj].
          -- rewrite (upd_same _ _ _ _ _ Nc) in Hj. injection Hj as <-. exists todo. split; [right; auto|exact Lg].
          -- rewrite upd_other in Hj by auto. exact (inv_ctx _ _ _ _ V j _ Hj).
        * exact (inv_calm _ _ _ _ V).
        * exact (inv_hist _ _ _ _ V).
      + destruct (inv_idle _ _ _ _ V Ow) as [Tk Cu]. subst s. cbn [taken] in Tk. subst t cur. specialize (In' eq_refl).
        injection E as <-. exists [], None. rewrite app_nil_r. cbn [ctxs] in *. constructor; cbn [owner taken cell enc out panicked ctxs set_ctx].
        * exact (inv_enc _ _ _ _ V).
        * discriminate.
        * rewrite upd_length. intros j Hj. injection Hj as <-. exact Li.
        * rewrite upd_length. exact (inv_length _ _ _ _ V).
        * intros j cj Hj. destruct (Nat.eq_dec i j) as [<-|Nj].
          -- rewrite (upd_same _ _ _ _ _ Nc) in Hj. injection Hj as <-. exists todo. split; [left; auto|exact Lg].
          -- rewrite upd_other in Hj by auto. destruct (inv_ctx _ _ _ _ V j _ Hj) as (todoj & Okj & Lj). exists todoj. split; auto.
             destruct Okj as [(Q & _)|(Q & Q2)]; [discriminate|]. right. split; auto. cbn [owner set_ctx]. congruence.
        * exact (inv_calm _ _ _ _ V).
        * exact (inv_hist _ _ _ _ V).
      + injection E as <-. exists [], cur. rewrite app_nil_r. constructor; cbn [owner taken cell enc out panicked ctxs set_ctx set_panicked].
        * exact (inv_enc _ _ _ _ V).
        * exact (inv_idle _ _ _ _ V).
        * rewrite upd_length. exact (inv_owner _ _ _ _ V).
        * rewrite upd_length. exact (inv_length _ _ _ _ V).
        * intros j cj Hj. destruct (Nat.eq_dec i j) as [<-|Nj].
          -- rewrite (upd_same _ _ _ _ _ Nc) in Hj. injection Hj as <-. exists todo'. split; [right; auto|].
             destruct Lg as (ts & more' & L1 & L2 & L3). exists ts, (more ++ more'). split; auto. split; [|auto]. rewrite L2, Td. now rewrite <- !app_assoc.
          -- rewrite upd_other in Hj by auto. destruct (inv_ctx _ _ _ _ V j _ Hj) as (todoj & Okj & Lj). exists todoj. split; auto.
             destruct Lj as (ts & more' & L1 & L2 & L3). exists ts, more'. auto.
        * congruence.
        * exact (inv_hist _ _ _ _ V).
  Qed.

  Lemma inv_boot : forall progs, Forall (nested false 0) progs -> (cl = true -> Forall calm progs) -> inv progs (boot lg progs) [] None.
  Proof.
    intros progs N C. constructor; cbn [boot owner taken cell enc out panicked ctxs].
    - reflexivity.
    - auto.
    - discriminate.
    - apply map_length.
    - intros i c H. rewrite nth_error_map in H. destruct (nth_error progs i) as [ts|] eqn:E; [|discriminate]. injection H as <-.
      exists (attempts ts). split.
      + right. split; [discriminate|]. exists ts. cbn [code locals]. split; auto. split; auto.
        split; [eapply Forall_forall in N; eauto using nth_error_In|]. split; auto. intros X. specialize (C X). eapply Forall_forall in C; eauto using nth_error_In.
      + exists ts, []. split; auto. split; [now rewrite app_nil_r|auto].
    - auto.
    - intros i w [].
  Qed.

  Lemma inv_runs : forall progs n s, Forall (nested false 0) progs -> (cl = true -> Forall calm progs) ->
    runs lg k msg n (boot lg progs) s -> exists hist cur, inv progs s hist cur.
  Proof.
    intros progs n s N C R. remember (boot lg progs) as s0 eqn:E0. induction R; subst.
    - exists [], None. now apply inv_boot.
    - destruct (IHR eq_refl) as (hist & cur & V). destruct (inv_step _ _ _ _ _ _ V H) as (h' & cur' & V'). eauto.
  Qed.
End Inv.
