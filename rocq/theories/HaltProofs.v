(** A panic between log statements: what is transmitted before it, and the handler's own message. *)
From Verif Require Import Base RzcobsModel DecoderModel LoggerModel LoggerSpec LoggerProofs LoggerMain DeviceModel HaltModel.

(* ------------------------------------------------------------------ *)
(** * Programs up to their panic *)

(** The program up to its panic, with its [d] open sections closed. *)
Fixpoint trunc (d : nat) (ts : list task) : list task :=
  match ts with
  | [] => []
  | TPanic :: _ => repeat TLeave d
  | TEnter :: r => TEnter :: trunc (S d) r
  | TLeave :: r => TLeave :: trunc (pred d) r
  | t :: r => t :: trunc d r
  end.

Fixpoint panics (ts : list task) : bool :=
  match ts with [] => false | TPanic :: _ => true | _ :: r => panics r end.

Lemma nested_leaves : forall d, nested false d (repeat TLeave d).
Proof. induction d; cbn [repeat]; constructor; auto. Qed.
Lemma calm_leaves : forall d, calm (repeat TLeave d).
Proof. induction d; cbn [repeat]; constructor; auto. Qed.

Lemma nested_trunc : forall ts d, nested false d ts -> brave ts -> nested false d (trunc d ts).
Proof.
  induction ts as [|t ts IH]; intros d N B; [exact N|]. destruct t; cbn [brave trunc] in *; try contradiction; inversion N; subst; cbn [pred].
  - constructor; auto. apply IH; auto. apply B.
  - constructor. apply IH; auto.
  - constructor. apply IH; auto.
  - apply nested_leaves.
  - constructor. apply IH; auto.
Qed.

Lemma calm_trunc : forall ts d, brave ts -> calm (trunc d ts).
Proof.
  induction ts as [|t ts IH]; intros d B; [constructor|]. destruct t; cbn [brave trunc] in *; try contradiction; try (apply calm_leaves);
    try (constructor; [exact Logic.I|now apply IH]). destruct B as [B1 B2]. constructor; [exact B1|now apply IH].
Qed.

Lemma messages_leaves : forall d, messages (repeat TLeave d) = [].
Proof. induction d; auto. Qed.

Lemma attempts_brave : forall msg ts d, brave ts ->
  attempts msg ts = complete (messages (trunc d ts)) ++ (if panics ts then match msg with Some body => [attempt body] | None => [] end else []).
Proof.
  intros msg. induction ts as [|t ts IH]; intros d B; [reflexivity|]. destruct t; cbn [brave trunc panics attempts] in *; try contradiction.
  - destruct B as [B1 B2]. rewrite (attempt_calm body B1). cbn [snd]. rewrite (IH d B2). reflexivity.
  - apply (IH (S d) B).
  - apply (IH (pred d) B).
  - rewrite messages_leaves. reflexivity.
  - apply (IH d B).
Qed.

(** The code of a program and of the program up to its panic. *)
Definition related (c c' : list op) : Prop :=
  c = c' \/ exists p rest d, c = p ++ OPanic :: rest /\ c' = p ++ repeat OLeave d.

Lemma related_app : forall p c c', related c c' -> related (p ++ c) (p ++ c').
Proof.
  intros p c c' [->|(q & rest & d & -> & ->)]; [now left|]. right. exists (p ++ q), rest, d. now rewrite !app_assoc.
Qed.

Lemma comp_leaves : forall lg d, comp lg (repeat TLeave d) = repeat OLeave d.
Proof. intros lg. induction d as [|d IH]; auto. cbn [repeat]. change (comp lg (TLeave :: repeat TLeave d)) with (OLeave :: comp lg (repeat TLeave d)). now rewrite IH. Qed.

Lemma comp_cons : forall lg t ts, comp lg (t :: ts) = comp_task lg t ++ comp lg ts.
Proof. reflexivity. Qed.

Lemma related_trunc : forall lg ts d, related (comp lg ts) (comp lg (trunc d ts)).
Proof.
  intros lg. induction ts as [|t ts IH]; intros d; [now left|].
  destruct t; cbn [trunc]; rewrite ?comp_cons; try (apply related_app; apply IH).
  right. exists [], (comp lg ts), d. split; [reflexivity|]. apply comp_leaves.
Qed.

(* ------------------------------------------------------------------ *)
(** * Until a panic the contexts run as if there were none *)

Definition put (cs : list ctx) (s : sys) : sys := MkSys (owner s) (taken s) (cell s) (enc s) (out s) (panicked s) cs.

Lemma exec_put : forall k i o s ls cs, exec k i o (put cs s) ls =
  match exec k i o s ls with Next s' ls' => Next (put cs s') ls' | Panics => Panics | Blocked => Blocked end.
Proof.
  intros k i o [w t c e b p cs0] ls cs. unfold put. cbn [owner taken cell enc out panicked]. destruct o; cbn [exec]; auto;
    repeat match goal with |- context [match ?x with _ => _ end] => destruct x; cbn [owner taken cell enc out panicked]; auto end.
Qed.

Definition twin (c c' : ctx) : Prop := locals c = locals c' /\ related (code c) (code c').

Lemma twin_upd : forall cs cs' i c c', Forall2 twin cs cs' -> twin c c' -> Forall2 twin (upd i c cs) (upd i c' cs').
Proof. intros cs cs' i c c' F T. revert i. induction F as [|a b cs cs' H F IH]; intros i; destruct i; cbn [upd]; constructor; auto. Qed.

Lemma twin_nth : forall cs cs' i c, Forall2 twin cs cs' -> nth_error cs i = Some c -> exists c', nth_error cs' i = Some c' /\ twin c c'.
Proof.
  intros cs cs' i c F. revert i. induction F as [|a b cs cs' H F IH]; intros [|i] E; cbn in *; try discriminate; [|auto].
  injection E as ->. eauto.
Qed.

Section Until.
  Context (lg : logger) (k : encoding) (msg : option (list task)) (progs : list (list task)).
  Context (Hok : programs_ok msg progs) (Hbrave : Forall brave progs).

  Definition calmed : list (list task) := map (trunc 0) progs.

  Lemma calmed_ok : programs_ok msg calmed.
  Proof.
    destruct Hok as [N M]. split; [|exact M]. unfold calmed. apply Forall_forall. intros ts H. apply in_map_iff in H as (ts0 & <- & H).
    rewrite Forall_forall in N, Hbrave. apply nested_trunc; auto.
  Qed.
  Lemma calmed_calm : Forall calm calmed.
  Proof.
    unfold calmed. apply Forall_forall. intros ts H. apply in_map_iff in H as (ts0 & <- & H). rewrite Forall_forall in Hbrave. apply calm_trunc; auto.
  Qed.

  Lemma step_next : forall s i s', step lg k msg i s = Some s' -> panicked s' = false -> exists o rest ls s1 ls1,
    nth_error (ctxs s) i = Some (MkCtx (o :: rest) ls) /\ exec k i o s ls = Next s1 ls1 /\ s' = set_ctx i (MkCtx rest ls1) s1.
  Proof.
    intros s i s' E P. unfold step in E. destruct (nth_error (ctxs s) i) as [[[|o rest] ls]|] eqn:N; try discriminate.
    destruct (exec k i o s ls) as [s1 ls1| |] eqn:X; try discriminate; injection E as <-; [|discriminate P]. exists o, rest, ls, s1, ls1. auto.
  Qed.

  Lemma panic_exec : forall i s ls, exec k i OPanic s ls = Panics.
  Proof. intros i [] ls. reflexivity. Qed.

  Lemma until_panic : forall n s, runs lg k msg n (boot lg progs) s -> panicked s = false ->
    exists cs, runs lg k msg n (boot lg calmed) (put cs s) /\ Forall2 twin (ctxs s) cs.
  Proof.
    intros n s R. remember (boot lg progs) as s0 eqn:Q. induction R as [s|n s s' s'' i R IH St]; intros P; subst s.
    - exists (ctxs (boot lg calmed)). split; [apply Run_start|]. cbn [boot ctxs]. unfold calmed. rewrite map_map. clear. induction progs as [|ts l IH]; constructor; auto.
      split; [reflexivity|apply related_trunc].
    - destruct (step_next _ _ _ St P) as (o & rest & ls & s1 & ls1 & N & X & ->). destruct (exec_same _ _ _ _ _ _ _ X) as (E1 & E2 & _).
      cbn [set_ctx panicked] in P. rewrite E2 in P. destruct (IH eq_refl P) as (cs & R' & T). destruct (twin_nth _ _ _ _ T N) as ([cd' ls'] & N' & L & Rl). cbn [locals code] in *. subst ls'.
      assert (G : exists rest', cd' = o :: rest' /\ related rest rest').
      { destruct Rl as [<-|(p & r & d & E & ->)]; [exists rest; split; auto; now left|]. destruct p as [|o' p].
        - injection E as -> _. rewrite panic_exec in X. discriminate.
        - injection E as <- ->. exists (p ++ repeat OLeave d). split; auto. right. eauto. }
      destruct G as (rest' & -> & Rr). exists (upd i (MkCtx rest' ls1) cs). split.
      + eapply Run_step; [exact R'|]. unfold step. cbn [put ctxs]. rewrite N', exec_put, X. unfold set_ctx, put. cbn [owner taken cell enc out panicked ctxs]. reflexivity.
      + cbn [set_ctx ctxs]. rewrite E1. apply twin_upd; auto. split; [reflexivity|exact Rr].
  Qed.

  Lemma leaves_nothing : forall ts, Forall (eq OLeave) (comp lg ts) -> attempts msg ts = [].
  Proof.
    induction ts as [|t ts IH]; intros F; [reflexivity|]. rewrite comp_cons in F. apply Forall_app in F as [F1 F2].
    destruct t; cbn [comp_task acquire_ops app attempts] in *; auto; inversion F1; discriminate.
  Qed.

  Lemma inside_leaves : forall t c cur cd ls todo, inside lg msg true t c cur cd ls todo -> Forall (eq OLeave) cd -> t = false /\ cur = None /\ todo = [].
  Proof.
    assert (Rel : ~ Forall (eq OLeave) (release_ops lg)) by (intros F; destruct lg; inversion F; discriminate).
    intros t c cur cd ls todo H F. destruct H; try (inversion F; discriminate).
    - split; auto. split; auto. now apply leaves_nothing.
    - exfalso. apply Forall_app in F as [_ F]. apply Forall_app in F as [F _]. auto.
    - apply Forall_app in F as [F1 F2]. apply leaves_nothing in F2. destruct H0 as [<-|[<-|[<-|[<-|[<-|[]]]]]]; try (exfalso; repeat match goal with H : Forall _ (_ :: _) |- _ => inversion H; clear H; subst end; discriminate).
      auto.
  Qed.

  (** Before the panic: whole frames only, all of the context that panics. *)
  Lemma at_panic : forall s i rest ls, reachable lg k msg progs s -> panicked s = false -> nth_error (ctxs s) i = Some (MkCtx (OPanic :: rest) ls) ->
    owner s = None \/ owner s = Some i ->
    taken s = false /\ exists hist ts, nth_error progs i = Some ts /\ panics ts = true /\
      (enc s, out s) = k_frames k enc_new (map snd hist) /\ (forall j w, In (j, w) hist -> (j < length progs)%nat) /\
      by_ctx i hist = messages (trunc 0 ts) /\
      forall j ts, nth_error progs j = Some ts -> exists more, messages (trunc 0 ts) = by_ctx j hist ++ more.
  Proof.
    intros s i rest ls [n R] P N Ow. destruct (until_panic n s R P) as (cs & R' & T). set (s' := put cs s) in *.
    destruct (calm_inv lg k msg calmed calmed_ok calmed_calm s' (ex_intro _ n R')) as (hist & cur & V). destruct (twin_nth _ _ _ _ T N) as ([cd' ls'] & N' & L & Rl). cbn [locals code] in *. subst ls'.
    pose proof (inv_calm _ _ _ _ _ _ _ _ V eq_refl) as Hp.
    assert (Lg : length calmed = length progs) by (unfold calmed; apply map_length).
    destruct (inv_ctx _ _ _ _ _ _ _ _ V i _ N') as (todo & Ok & (ts' & more & L1 & L2 & L3)). cbn [code locals] in *.
    destruct L3 as [->|L3]; [|congruence].
    assert (M : forall w, In w calmed -> attempts msg w = complete (messages w)) by (intros w H; apply attempts_calm; pose proof calmed_calm as C; rewrite Forall_forall in C; auto).
    assert (Lf : Forall (eq OLeave) cd' /\ exists ts, nth_error progs i = Some ts /\ ts' = trunc 0 ts).
    { split.
      - destruct Rl as [<-|(p & r & d & E & ->)].
        + exfalso. destruct calmed_ok as [_ Mg]. destruct Ok as [(Q & In)|(Q & Out)].
          * destruct (inside_step lg k msg true Mg i s' cur hist OPanic rest ls todo In Q (inv_enc _ _ _ _ _ _ _ _ V)) as [G|[(_ & _ & G)|(_ & G & _)]]; try discriminate. rewrite panic_exec in G. exact G.
          * destruct (outside_step lg k msg true Mg i s' OPanic rest ls todo Out Q) as [(_ & G & _)|[(_ & G & _)|[(G & _)|[(_ & b & p & cs' & c & t & e & _ & G & _)|(_ & G & _)]]]]; try discriminate; rewrite panic_exec in G; discriminate.
        + destruct p as [|o p].
          * cbn [app]. clear. induction d; constructor; auto.
          * exfalso. injection E as <- E. destruct calmed_ok as [_ Mg]. cbn [app] in *. destruct Ok as [(Q & In)|(Q & Out)].
            -- destruct (inside_step lg k msg true Mg i s' cur hist _ _ ls todo In Q (inv_enc _ _ _ _ _ _ _ _ V)) as [G|[(_ & _ & G)|(_ & G & _)]]; try discriminate. rewrite panic_exec in G. exact G.
            -- destruct (outside_step lg k msg true Mg i s' _ _ ls todo Out Q) as [(_ & G & _)|[(_ & G & _)|[(G & _)|[(_ & b & p' & cs' & c & t & e & _ & G & _)|(_ & G & _)]]]]; try discriminate; rewrite panic_exec in G; discriminate.
      - unfold calmed in L1. rewrite nth_error_map in L1. destruct (nth_error progs i) as [ts|]; [|discriminate]. injection L1 as <-. eauto. }
    destruct Lf as (Lf & ts & Ni & ->).
    assert (F : taken s = false /\ cur = None /\ todo = []).
    { destruct Ok as [(Q & In)|(Q & Out)].
      - apply inside_leaves in In; auto.
      - destruct Ow as [Ow|Ow]; [|exfalso; apply Q; exact Ow]. destruct (inv_idle _ _ _ _ _ _ _ _ V Ow) as [A B]. split; auto. split; auto.
        destruct Out as (tl & E & _ & _ & _ & ->). apply leaves_nothing. now rewrite <- E. }
    destruct F as (F1 & -> & ->). split; auto. exists hist, ts. split; auto.
    assert (Pa : panics ts = true).
    { destruct (panics ts) eqn:Pa; auto. exfalso.
      (* the code of a program without a panic has none *)
      assert (NP : forall n s, runs lg k msg n (boot lg progs) s -> panicked s = false -> forall c, nth_error (ctxs s) i = Some c -> ~ In OPanic (code c)).
      { clear - Ni Pa Hbrave. intros n s R. remember (boot lg progs) as s0 eqn:Q. induction R as [s|n s s' s'' j R IH St]; intros P c E; subst s.
        - cbn [boot ctxs] in E. rewrite nth_error_map, Ni in E. injection E as <-. cbn [code]. rewrite Forall_forall in Hbrave. specialize (Hbrave _ (nth_error_In _ _ Ni)). clear - Pa Hbrave.
          induction ts as [|t ts IH]; [intros []|]. rewrite comp_cons. intros H. apply in_app_or in H as [H|H].
          + destruct t; cbn [panics brave comp_task] in *; try discriminate; try contradiction; try (destruct H as [H|[]]; discriminate).
            destruct Hbrave as [B _]. apply in_app_or in H as [H|H]; [cbn in H; intuition discriminate|]. apply in_app_or in H as [H|H].
            * apply in_flat_map in H as (x & H1 & H2). rewrite Forall_forall in B. specialize (B x H1). destruct x; try contradiction; cbn in H2; try (intuition discriminate). destruct lg; cbn in H2; intuition discriminate.
            * destruct lg; cbn in H; intuition discriminate.
          + destruct t; cbn [panics brave] in *; try discriminate; try contradiction; apply IH; auto; apply Hbrave.
        - destruct (step_next _ _ _ St P) as (o & rest & ls & s1 & ls1 & N & X & ->). destruct (exec_same _ _ _ _ _ _ _ X) as (E1 & E2 & _).
          cbn [set_ctx panicked ctxs] in P, E. rewrite E2 in P. rewrite E1 in E. specialize (IH eq_refl P). destruct (Nat.eq_dec j i) as [->|Ne].
          + rewrite (upd_same _ _ _ _ _ N) in E. injection E as <-. cbn [code]. intros H. apply (IH _ N). now right.
          + rewrite upd_other in E by auto. eauto. }
      apply (NP n s R P _ N). now left. }
    split; auto. split; [exact (inv_enc _ _ _ _ _ _ _ _ V)|]. split; [intros j w H; rewrite <- Lg; eapply (inv_hist _ _ _ _ _ _ _ _ V); eauto|]. split.
    - rewrite (M _ (nth_error_In _ _ L1)) in L2. cbn [app] in L2. rewrite app_nil_r in L2. symmetry. now apply complete_inj.
    - intros j tj Nj. assert (Nj' : nth_error calmed j = Some (trunc 0 tj)) by (unfold calmed; rewrite nth_error_map, Nj; reflexivity).
      destruct (nth_error (ctxs s') j) as [cj|] eqn:Ej.
      2:{ apply nth_error_None in Ej. rewrite (inv_length _ _ _ _ _ _ _ _ V) in Ej. apply nth_error_None in Ej. congruence. }
      destruct (inv_ctx _ _ _ _ _ _ _ _ V j cj Ej) as (todoj & _ & (ts' & more' & M1 & M2 & _)). assert (ts' = trunc 0 tj) by congruence. subst ts'.
      rewrite (M _ (nth_error_In _ _ Nj')) in M2. clear - M2. revert M2. generalize (messages (trunc 0 tj)) (todoj ++ more'). induction (by_ctx j hist) as [|w h IH]; intros l r E.
      + exists l. reflexivity.
      + destruct l as [|x l]; [discriminate|]. cbn in E. injection E as -> E. destruct (IH _ _ E) as (more & ->). exists more. reflexivity.
  Qed.

  (** A program that panics is not at its end before the panic. *)
  Lemma panic_ahead : forall n s, runs lg k msg n (boot lg progs) s -> panicked s = false ->
    forall i ts c, nth_error progs i = Some ts -> panics ts = true -> nth_error (ctxs s) i = Some c -> In OPanic (code c).
  Proof.
    intros n s R. remember (boot lg progs) as s0 eqn:Q. induction R as [s|n s s' s'' j R IH St]; intros P i ts c Ni Pa E; subst s.
    - cbn [boot ctxs] in E. rewrite nth_error_map, Ni in E. injection E as <-. cbn [code]. clear - Pa. induction ts as [|t ts IH]; [discriminate|]. rewrite comp_cons. apply in_or_app.
      destruct t; cbn [panics comp_task] in *; auto. left. now left.
    - destruct (step_next _ _ _ St P) as (o & rest & ls & s1 & ls1 & N & X & ->). destruct (exec_same _ _ _ _ _ _ _ X) as (E1 & E2 & _).
      cbn [set_ctx panicked ctxs] in P, E. rewrite E2 in P. rewrite E1 in E. specialize (IH eq_refl P i ts). destruct (Nat.eq_dec j i) as [->|Ne].
      + rewrite (upd_same _ _ _ _ _ N) in E. injection E as <-. cbn [code]. destruct (IH _ Ni Pa N) as [H|H]; [|exact H]. cbn in H. subst o. rewrite panic_exec in X. discriminate.
      + rewrite upd_other in E by auto. eauto.
  Qed.

  (** The only panics are those of the programs. *)
  Lemma panic_is_own : forall s i s', reachable lg k msg progs s -> panicked s = false -> step lg k msg i s = Some s' -> panicked s' = true -> next_op s i = Some OPanic.
  Proof.
    intros s i s' [n R] P St P'. unfold step in St. unfold next_op. destruct (nth_error (ctxs s) i) as [[[|o rest] ls]|] eqn:N; try discriminate.
    destruct (exec k i o s ls) as [s1 ls1| |] eqn:X; try discriminate; injection St as <-.
    { apply exec_same in X as (_ & X & _). cbn [set_ctx panicked] in P'. congruence. }
    destruct (until_panic n s R P) as (cs & R' & T). set (s' := put cs s) in *. destruct calmed_ok as [_ Mg].
    destruct (calm_inv lg k msg calmed calmed_ok calmed_calm s' (ex_intro _ n R')) as (hist & cur & V).
    destruct (twin_nth _ _ _ _ T N) as ([cd' ls'] & N' & L & Rl). cbn [locals code] in *. subst ls'.
    assert (Y : o = OPanic \/ exists rest', cd' = o :: rest').
    { destruct Rl as [<-|(p & r & d & E & ->)]; [eauto|]. destruct p as [|o' p]; [injection E as -> _; auto|]. injection E as <- _. right. cbn [app]. eauto. }
    destruct Y as [->|(rest' & ->)]; [reflexivity|]. exfalso. assert (X' : exec k i o s' ls = Panics) by (unfold s'; now rewrite exec_put, X).
    destruct (inv_ctx _ _ _ _ _ _ _ _ V i _ N') as (todo & Ok & _). cbn [code locals] in Ok. destruct Ok as [(Q & In)|(Q & Out)].
    - destruct (inside_step lg k msg true Mg i s' cur hist o rest' ls todo In Q (inv_enc _ _ _ _ _ _ _ _ V)) as [G|[(_ & _ & G)|(_ & G & _)]]; try discriminate. rewrite X' in G. exact G.
    - destruct (outside_step lg k msg true Mg i s' o rest' ls todo Out Q) as [(_ & _ & G)|[(_ & _ & G)|[(G & _)|[(_ & b & p & cs' & c & t & e & _ & G & _)|(_ & G & _)]]]]; congruence.
  Qed.

  (** The end without a panic. *)
  Lemma brave_delivered : forall s, reachable lg k msg progs s -> panicked s = false -> finished s ->
    exists hist, out s = transmitted k (map snd hist) /\ (forall j w, In (j, w) hist -> (j < length progs)%nat) /\
      forall i ts, nth_error progs i = Some ts -> panics ts = false /\ attempts msg ts = complete (by_ctx i hist).
  Proof.
    intros s [n R] P F. destruct (until_panic n s R P) as (cs & R' & T).
    assert (F' : finished (put cs s)).
    { intros c' H. cbn [put ctxs] in H. clear - T F H. unfold finished in F. revert F. induction T as [|a b l l' [L Rl] T IH]; intros F; [contradiction|]. destruct H as [->|H].
      - pose proof (F a (or_introl eq_refl)) as E. rewrite E in Rl. destruct Rl as [<-|(p & r & d & Q & _)]; [reflexivity|destruct p; discriminate].
      - apply IH; auto. intros c H'. apply F. now right. }
    destruct (calm_delivered lg k msg calmed calmed_ok calmed_calm (put cs s) (ex_intro _ n R') F') as (_ & _ & _ & hist & Eo & Hb & Hc).
    exists hist. split; [exact Eo|]. split; [intros j w H; apply Hb in H; unfold calmed in H; now rewrite map_length in H|]. intros i ts Ni.
    assert (Pa : panics ts = false).
    { destruct (panics ts) eqn:Pa; auto. exfalso. destruct (nth_error (ctxs s) i) as [c|] eqn:Ec.
      - pose proof (panic_ahead n s R P i ts c Ni Pa Ec) as H. rewrite (F c (nth_error_In _ _ Ec)) in H. exact H.
      - apply nth_error_None in Ec. destruct Hok as [Np Mg]. destruct (inv_runs lg k msg false Mg progs n s Np ltac:(discriminate) R) as (h & cur & V).
        rewrite (inv_length _ _ _ _ _ _ _ _ V) in Ec. apply nth_error_None in Ec. congruence. }
    split; auto. rewrite (attempts_brave msg ts 0) by (rewrite Forall_forall in Hbrave; apply Hbrave, (nth_error_In _ _ Ni)). rewrite Pa, app_nil_r. f_equal. symmetry. apply Hc.
    unfold calmed. rewrite nth_error_map, Ni. reflexivity.
  Qed.

  (** Nothing stops the contexts before that. *)
  Lemma brave_progress : forall s, reachable lg k msg progs s -> panicked s = false ->
    finished s \/ exists i s', step lg k msg i s = Some s' /\ (owner s = None \/ owner s = Some i).
  Proof.
    intros s [n R] P. destruct (until_panic n s R P) as (cs & R' & T). set (s' := put cs s) in *. destruct calmed_ok as [_ Mg].
    destruct (calm_inv lg k msg calmed calmed_ok calmed_calm s' (ex_intro _ n R')) as (hist & cur & V).
    assert (Go : forall i cd ls, nth_error (ctxs s) i = Some (MkCtx cd ls) -> (owner s = None \/ owner s = Some i) -> cd <> [] \/ (exists cd', nth_error cs i = Some (MkCtx cd' ls) /\ cd' <> []) ->
      exists i s', step lg k msg i s = Some s' /\ (owner s = None \/ owner s = Some i)).
    { intros i cd ls N Ow Ne. destruct (twin_nth _ _ _ _ T N) as ([cd' ls'] & N' & L & Rl). cbn [locals code] in *. subst ls'.
      destruct cd as [|o rest].
      - exfalso. destruct Ne as [Ne|(cd'' & Q & Ne)]; [congruence|]. rewrite N' in Q. injection Q as <-.
        destruct Rl as [<-|(p & r & d & E & ->)]; [congruence|]. destruct p; discriminate.
      - exists i. unfold step. rewrite N.
        destruct (exec k i o s ls) as [s1 ls1| |] eqn:X; [eexists; split; [reflexivity|exact Ow]|eexists; split; [reflexivity|exact Ow]|].
        exfalso. assert (X' : exec k i o s' ls = Blocked) by (unfold s'; now rewrite exec_put, X).
        assert (E : exists rest', cd' = o :: rest').
        { destruct Rl as [<-|(p & r & d & E & ->)]; [eauto|]. destruct p as [|o' p]; [injection E as -> _; rewrite panic_exec in X; discriminate|]. injection E as <- _. cbn [app]. eauto. }
        destruct E as (rest' & ->). destruct (inv_ctx _ _ _ _ _ _ _ _ V i _ N') as (todo & Ok & _). cbn [code locals] in Ok. destruct Ok as [(Q & In)|(Q & Out)].
        + destruct (inside_step lg k msg true Mg i s' cur hist o rest' ls todo In Q (inv_enc _ _ _ _ _ _ _ _ V)) as [G|[(_ & _ & G)|(_ & G & _)]]; try discriminate. rewrite X' in G. exact G.
        + destruct (outside_step lg k msg true Mg i s' o rest' ls todo Out Q) as [(G & _)|[(_ & _ & G)|[(G & _)|[(_ & b & p & cs' & c & t & e & _ & G & _)|(G & _)]]]]; try congruence.
          destruct Ow as [Ow|Ow]; [apply G; exact Ow|apply Q; exact Ow]. }
    destruct (owner s) as [i|] eqn:Ho.
    - right. pose proof (inv_owner _ _ _ _ _ _ _ _ V i Ho) as Li. destruct (nth_error cs i) as [[cd ls]|] eqn:E; [|apply nth_error_None in E; cbn [s' put ctxs] in Li; lia].
      destruct (inv_ctx _ _ _ _ _ _ _ _ V i _ E) as (todo & [(_ & In)|(Q & _)] & _); [|exfalso; apply Q; exact Ho]. cbn [code locals] in In. apply inside_not_nil in In.
      destruct (nth_error (ctxs s) i) as [[cd0 ls0]|] eqn:E0.
      + destruct (twin_nth _ _ _ _ T E0) as (c' & N' & L & _). rewrite E in N'. injection N' as <-. cbn [locals] in L. subst ls0. apply (Go i cd0 ls); [exact E0|now right|]. right. eauto.
      + apply nth_error_None in E0. exfalso. assert (length (ctxs s) = length cs) by (clear - T; induction T; cbn; auto). assert (i < length cs)%nat by (apply nth_error_Some; congruence). lia.
    - destruct (existsb (fun c => match code c with [] => false | _ => true end) (ctxs s)) eqn:X.
      + right. apply existsb_exists in X as ([[|o rest] ls] & Hin & X); [discriminate|]. apply In_nth_error in Hin as [i E]. apply (Go i (o :: rest) ls E); [now left|]. left. discriminate.
      + left. intros c Hc. destruct (code c) eqn:Q; auto. exfalso. assert (T' : existsb (fun c => match code c with [] => false | _ => true end) (ctxs s) = true).
        { apply existsb_exists. exists c. rewrite Q. auto. } congruence.
  Qed.
End Until.

(* ------------------------------------------------------------------ *)
(** * The panic handler on its own *)

Section Solo.
  Context (lg : logger) (k : encoding) (msg : option (list task)) (i : nat).

  (** Context [i] makes [n] steps, and no other one makes any. *)
  Fixpoint solo (n : nat) (s : sys) : option sys :=
    match n with
    | O => Some s
    | S n' => match step lg k msg i s with Some s' => solo n' s' | None => None end
    end.

  Lemma solo_add : forall a b s s1, solo a s = Some s1 -> solo (a + b) s = solo b s1.
  Proof.
    induction a as [|a IH]; intros b s s1 H; cbn [solo Nat.add] in *; [congruence|]. destruct (step lg k msg i s); [auto|discriminate].
  Qed.

  Lemma solo_runs : forall n s s', solo n s = Some s' -> runs lg k msg n s s'.
  Proof.
    assert (A : forall n s s1 s', step lg k msg i s = Some s1 -> runs lg k msg n s1 s' -> runs lg k msg (S n) s s').
    { intros n s s1 s' St R. induction R; [eapply Run_step; [apply Run_start|exact St]|]. eapply Run_step; [apply IHR; auto|eauto]. }
    induction n as [|n IH]; intros s s' H; cbn [solo] in H; [injection H as <-; constructor|]. destruct (step lg k msg i s) eqn:E; [|discriminate]. eapply A; eauto.
  Qed.

  Lemma upd_upd : forall A (l : list A) j x y, upd j x (upd j y l) = upd j x l.
  Proof. induction l as [|a l IH]; intros [|j] x y; cbn [upd]; auto. now rewrite IH. Qed.

  (** One step that does not panic. *)
  Lemma solo_next : forall n s o rest ls s1 ls1, nth_error (ctxs s) i = Some (MkCtx (o :: rest) ls) -> exec k i o s ls = Next s1 ls1 ->
    solo (S n) s = solo n (set_ctx i (MkCtx rest ls1) s1).
  Proof. intros n s o rest ls s1 ls1 N X. cbn [solo]. unfold step. now rewrite N, X. Qed.

  Definition done (s : sys) (w : option nat) (t c : bool) (e : encoder) (b : bytes) (cd : list op) (ls : list bool) : sys :=
    MkSys w t c e b (panicked s) (upd i (MkCtx cd ls) (ctxs s)).

  Lemma solo_body : forall body d r ls s, nested true d body -> calm_body body -> owner s = Some i -> taken s = true ->
    nth_error (ctxs s) i = Some (MkCtx (comp lg body ++ r) (repeat false d ++ ls)) ->
    solo (length (comp lg body)) s = Some (done s (Some i) true (cell s) (fst (k_writes k (enc s) (written body))) (out s ++ snd (k_writes k (enc s) (written body))) r ls).
  Proof.
    induction body as [|t body IH]; intros d r ls [w tk c e b p cs] N C Ow Tk Nt; cbn [owner taken cell enc out panicked ctxs] in *; subst w tk.
    - inversion N; subst. cbn [comp flat_map length solo repeat app written k_writes fst snd] in *. rewrite app_nil_r. unfold done. cbn [panicked ctxs]. do 2 f_equal.
      clear - Nt. revert i Nt. induction cs as [|a cs IH]; intros [|j] Nt; cbn [upd nth_error] in *; try discriminate; [congruence|]. f_equal. auto.
    - inversion C as [|? ? C1 C2]; subst. destruct t; try contradiction; inversion N; subst; rewrite comp_cons in Nt |- *; cbn [comp_task app length] in *.
      + assert (Wr : forall s, s = MkSys (Some i) true c e b p (upd i (MkCtx (OWrite b0 :: comp lg body ++ r) (repeat false d ++ ls)) cs) ->
          solo (S (length (comp lg body))) s = Some (done (MkSys (Some i) true c e b p cs) (Some i) true c (fst (k_writes k e (written (TWrite b0 :: body)))) (b ++ snd (k_writes k e (written (TWrite b0 :: body)))) r ls)).
        { intros s ->. destruct (enc_write k e b0) as [e1 o1] eqn:E. rewrite (solo_next _ _ (OWrite b0) (comp lg body ++ r) (repeat false d ++ ls) (MkSys (Some i) true c e1 (b ++ o1) p (upd i (MkCtx (OWrite b0 :: comp lg body ++ r) (repeat false d ++ ls)) cs)) (repeat false d ++ ls)).
          - unfold set_ctx; cbn [owner taken cell enc out panicked ctxs]. rewrite (IH d r ls); auto; [|cbn [ctxs]; eapply upd_same; eapply upd_same; eauto].
            unfold done. cbn [cell enc out panicked ctxs]. rewrite !upd_upd. change (written (TWrite b0 :: body)) with (b0 :: written body). cbn [k_writes]. rewrite E.
            destruct (k_writes k e1 (written body)) as [e2 o2]. cbn [fst snd]. now rewrite app_assoc.
          - cbn [ctxs]. eapply upd_same; eauto.
          - cbn [exec]. now rewrite E. }
        destruct lg eqn:Lg; cbn [write_ops app length] in *; rewrite <- Lg in *.
        * apply Wr. f_equal. clear - Nt. revert Nt. generalize i. induction cs as [|a cs IH]; intros [|j] Nt; cbn [upd nth_error] in *; try discriminate; [congruence|]. f_equal. auto.
        * apply Wr. f_equal. clear - Nt. revert Nt. generalize i. induction cs as [|a cs IH]; intros [|j] Nt; cbn [upd nth_error] in *; try discriminate; [congruence|]. f_equal. auto.
        * erewrite solo_next; [|exact Nt|reflexivity]. apply Wr. reflexivity.
      + erewrite solo_next; [|exact Nt|reflexivity]. unfold set_ctx; cbn [owner taken cell enc out panicked ctxs]. rewrite (IH d r ls); auto; [|cbn [ctxs]; eapply upd_same; eauto].
        unfold done. cbn [cell enc out panicked ctxs]. now rewrite upd_upd.
      + erewrite solo_next; [|exact Nt|cbn [exec]; rewrite Nat.eqb_refl; reflexivity]. unfold set_ctx; cbn [owner taken cell enc out panicked ctxs]. rewrite (IH (S d) r ls); auto; [|cbn [ctxs]; eapply upd_same; eauto].
        unfold done. cbn [cell enc out panicked ctxs]. now rewrite upd_upd.
      + erewrite solo_next; [|exact Nt|reflexivity]. unfold set_ctx; cbn [owner taken cell enc out panicked ctxs]. rewrite (IH d0 r ls); auto; [|cbn [ctxs]; eapply upd_same; eauto].
        unfold done. cbn [cell enc out panicked ctxs]. now rewrite upd_upd.
      + erewrite solo_next; [|exact Nt|reflexivity]. unfold set_ctx; cbn [owner taken cell enc out panicked ctxs]. rewrite (IH d r ls); auto; [|cbn [ctxs]; eapply upd_same; eauto].
        unfold done. cbn [cell enc out panicked ctxs]. now rewrite upd_upd.
  Qed.

  (** A log statement that nobody disturbs. *)
  Lemma solo_log : forall body r ls s, nested true 0 body -> calm_body body -> owner s = None \/ owner s = Some i -> taken s = false ->
    nth_error (ctxs s) i = Some (MkCtx (comp lg [TLog body] ++ r) ls) ->
    exists c, solo (length (comp lg [TLog body])) s =
      Some (done s (owner s) false c (fst (k_frame k (enc s) (written body))) (out s ++ snd (k_frame k (enc s) (written body))) r ls).
  Proof.
    intros body r ls [w tk c e b p cs] N C Ow Tk Nt. cbn [owner taken cell enc out panicked ctxs] in *. subst tk.
    assert (Q : comp lg [TLog body] = acquire_ops ++ comp lg body ++ release_ops lg) by (unfold comp; cbn [flat_map comp_task]; apply app_nil_r).
    rewrite Q in *. rewrite !app_length. rewrite <- !app_assoc in Nt. set (tl := comp lg body ++ release_ops lg ++ r) in *. unfold k_frame, k_part.
    set (res := match w with None => true | _ => false end).
    destruct (enc_start k e) as [e0 o0] eqn:E0.
    assert (A : solo 5 (MkSys w false c e b p cs) = Some (done (MkSys w false c e b p cs) (Some i) true res e0 (b ++ o0) tl ls)).
    { assert (E : exec k i OEnter (MkSys w false c e b p cs) ls = Next (MkSys (Some i) false c e b p cs) (res :: ls)).
      { cbn [exec]. unfold res. destruct Ow as [->| ->]; [reflexivity|]. now rewrite Nat.eqb_refl. }
      erewrite solo_next; [|exact Nt|exact E]. unfold set_ctx; cbn [owner taken cell enc out panicked ctxs].
      erewrite solo_next; [|eapply upd_same; exact Nt|reflexivity]. unfold set_ctx; cbn [owner taken cell enc out panicked ctxs].
      erewrite solo_next; [|eapply upd_same; eapply upd_same; exact Nt|reflexivity]. unfold set_ctx; cbn [owner taken cell enc out panicked ctxs].
      erewrite solo_next; [|eapply upd_same; eapply upd_same; eapply upd_same; exact Nt|reflexivity]. unfold set_ctx; cbn [owner taken cell enc out panicked ctxs].
      erewrite solo_next; [|eapply upd_same; eapply upd_same; eapply upd_same; eapply upd_same; exact Nt|cbn [exec]; rewrite E0; reflexivity].
      unfold set_ctx; cbn [owner taken cell enc out panicked ctxs solo]. unfold done. cbn [panicked ctxs]. now rewrite !upd_upd. }
    change (length acquire_ops) with 5%nat. rewrite (solo_add 5 _ _ _ A).
    pose proof (solo_body body 0 (release_ops lg ++ r) ls (done (MkSys w false c e b p cs) (Some i) true res e0 (b ++ o0) tl ls) N C eq_refl eq_refl) as B.
    specialize (B (upd_same _ _ _ _ _ Nt)). rewrite (solo_add _ _ _ _ B). clear A B.
    unfold done. cbn [cell enc out panicked ctxs]. rewrite upd_upd. destruct (k_writes k e0 (written body)) as [e1 o1] eqn:E1. cbn [fst snd].
    destruct (enc_end k e1) as [e2 o2] eqn:E2. cbn [fst snd]. exists res.
    assert (Nx : forall x, nth_error (upd i x cs) i = Some x) by (intros x; eapply upd_same; exact Nt).
    assert (Lv : forall s, s = MkSys (Some i) false res e2 (((b ++ o0) ++ o1) ++ o2) p (upd i (MkCtx (OLeave :: r) (res :: ls)) cs) ->
      solo 1 s = Some (MkSys w false res e2 (b ++ (o0 ++ o1) ++ o2) p (upd i (MkCtx r ls) cs))).
    { intros s ->. assert (E : exec k i OLeave (MkSys (Some i) false res e2 (((b ++ o0) ++ o1) ++ o2) p (upd i (MkCtx (OLeave :: r) (res :: ls)) cs)) (res :: ls) =
        Next (MkSys w false res e2 (((b ++ o0) ++ o1) ++ o2) p (upd i (MkCtx (OLeave :: r) (res :: ls)) cs)) ls).
      { cbn [exec]. unfold res. destruct Ow as [->| ->]; reflexivity. }
      erewrite solo_next; [|cbn [ctxs]; apply Nx|exact E]. unfold set_ctx; cbn [owner taken cell enc out panicked ctxs solo]. rewrite upd_upd. now rewrite !app_assoc. }
    assert (En : forall tl' n, solo (S n) (MkSys (Some i) true res e1 ((b ++ o0) ++ o1) p (upd i (MkCtx (OEnd :: tl') ls) cs)) =
      solo n (MkSys (Some i) true res e2 (((b ++ o0) ++ o1) ++ o2) p (upd i (MkCtx tl' ls) cs))).
    { intros tl' n. erewrite solo_next; [|cbn [ctxs]; apply Nx|cbn [exec]; rewrite E2; reflexivity]. unfold set_ctx; cbn [owner taken cell enc out panicked ctxs]. now rewrite upd_upd. }
    destruct lg; cbn [release_ops app length]; [| |];
      try (erewrite solo_next; [|cbn [ctxs]; apply Nx|reflexivity]; unfold set_ctx; cbn [owner taken cell enc out panicked ctxs]; rewrite upd_upd);
      rewrite En; (erewrite solo_next; [|cbn [ctxs]; apply Nx|reflexivity]); unfold set_ctx; cbn [owner taken cell enc out panicked ctxs]; rewrite upd_upd;
      (erewrite solo_next; [|cbn [ctxs]; apply Nx|reflexivity]); unfold set_ctx; cbn [owner taken cell enc out panicked ctxs]; rewrite upd_upd; apply Lv; reflexivity.
  Qed.
End Solo.

Lemma step_owner : forall lg k msg i s s', step lg k msg i s = Some s' -> owner s = None \/ owner s = Some i -> owner s' = None \/ owner s' = Some i.
Proof.
  intros lg k msg i s s' St Ow. unfold step in St. destruct (nth_error (ctxs s) i) as [[[|o rest] ls]|]; try discriminate.
  destruct (exec k i o s ls) as [s1 ls1| |] eqn:X; try discriminate; injection St as <-; cbn [set_ctx set_panicked owner]; auto.
  destruct s as [w t c e b p cs]. cbn [owner] in Ow. destruct o; cbn [exec] in X;
    repeat match type of X with context [match ?x with _ => _ end] => destruct x eqn:?; try discriminate end; try discriminate; injection X as <- <-; cbn [owner]; auto.
Qed.

Lemma solo_owner : forall lg k msg i n s s', solo lg k msg i n s = Some s' -> owner s = None \/ owner s = Some i -> owner s' = None \/ owner s' = Some i.
Proof.
  intros lg k msg i. induction n as [|n IH]; intros s s' H Ow; cbn [solo] in H; [congruence|]. destruct (step lg k msg i s) as [s1|] eqn:E; [|discriminate].
  eapply IH; eauto. eapply step_owner; eauto.
Qed.

(** What the handler adds to the frames. *)
Definition last_words (msg : option (list task)) (i : nat) : list (nat * list bytes) :=
  match msg with Some body => [(i, fst (attempt body))] | None => [] end.

(** The panic and the handler, up to the hard fault. *)
Theorem words_of_panic : forall lg k msg progs s i, programs_ok msg progs -> Forall brave progs -> (forall body, msg = Some body -> calm_body body) ->
  reachable lg k msg progs s -> panicked s = false -> next_op s i = Some OPanic -> owner s = None \/ owner s = Some i ->
  exists n s' hist ts, solo lg k msg i n s = Some s' /\ (0 < n)%nat /\ next_op s' i = Some OHalt /\ panicked s' = true /\ taken s' = false /\
    nth_error progs i = Some ts /\ panics ts = true /\
    out s' = transmitted k (map snd (hist ++ last_words msg i)) /\
    (forall j w, In (j, w) hist -> (j < length progs)%nat) /\
    attempts msg ts = complete (by_ctx i (hist ++ last_words msg i)) /\
    forall j tj, nth_error progs j = Some tj -> exists more, attempts msg tj = complete (by_ctx j (hist ++ last_words msg i)) ++ more.
Proof.
  intros lg k msg progs s i Hok Hb Hm R P Nx Ow. unfold next_op in Nx. destruct (nth_error (ctxs s) i) as [[[|o rest] ls]|] eqn:N; try discriminate. injection Nx as ->.
  destruct (at_panic lg k msg progs Hok Hb s i rest ls R P N Ow) as (Tk & hist & ts & Ni & Pa & En & Hb' & Bi & Bj).
  set (s1 := set_ctx i (MkCtx (comp lg (handler msg false)) ls) (set_panicked s)).
  assert (St : step lg k msg i s = Some s1) by (unfold step; rewrite N, panic_exec, P; reflexivity).
  assert (N1 : nth_error (ctxs s1) i = Some (MkCtx (comp lg (handler msg false)) ls)) by (eapply upd_same; exact N).
  assert (Bts : brave ts) by (rewrite Forall_forall in Hb; apply Hb, (nth_error_In _ _ Ni)).
  assert (At : attempts msg ts = complete (by_ctx i (hist ++ last_words msg i))).
  { rewrite (attempts_brave msg ts 0 Bts), Pa, by_ctx_app, complete_app, Bi. f_equal. unfold last_words. destruct msg as [body|]; [|reflexivity].
    unfold by_ctx. cbn [filter fst]. rewrite Nat.eqb_refl. cbn [map snd]. rewrite (attempt_calm body (Hm body eq_refl)). reflexivity. }
  assert (Aj : forall j tj, nth_error progs j = Some tj -> exists more, attempts msg tj = complete (by_ctx j (hist ++ last_words msg i)) ++ more).
  { intros j tj Nj. destruct (Nat.eq_dec i j) as [<-|Ne].
    - exists []. rewrite app_nil_r. congruence.
    - assert (Btj : brave tj) by (rewrite Forall_forall in Hb; apply Hb, (nth_error_In _ _ Nj)). destruct (Bj j tj Nj) as (more & E).
      rewrite (attempts_brave msg tj 0 Btj), E, by_ctx_app, !complete_app. replace (by_ctx j (last_words msg i)) with (@nil (list bytes)).
      + rewrite app_nil_r, <- app_assoc. eexists. reflexivity.
      + unfold last_words. destruct msg; [|reflexivity]. unfold by_ctx. cbn [filter fst]. apply Nat.eqb_neq in Ne. now rewrite Ne. }
  destruct msg as [body|] eqn:Em.
  - cbn [handler] in *. assert (Nb : nested true 0 body) by (destruct Hok as [_ M]; auto).
    destruct (solo_log lg k (Some body) i body [OHalt] ls s1 Nb (Hm body eq_refl) Ow Tk) as (c & So).
    { rewrite N1. do 2 f_equal. rewrite !comp_cons. cbn [comp flat_map]. now rewrite !app_nil_r. }
    exists (S (length (comp lg [TLog body]))). eexists. exists hist, ts. split; [cbn [solo]; rewrite St; exact So|]. split; [lia|]. split.
    { unfold next_op, done. cbn [ctxs]. rewrite (upd_same _ _ _ _ _ N1). reflexivity. }
    split; [reflexivity|]. split; [reflexivity|]. split; auto. split; auto. split; [|auto].
    unfold done. cbn [out]. rewrite transmitted_eq, map_app. cbn [last_words map snd]. rewrite k_frames_snoc, <- En.
    rewrite (attempt_calm body (Hm body eq_refl)). cbn [fst]. unfold s1. cbn [enc out set_ctx set_panicked]. now destruct (k_frame k (enc s) (written body)).
  - cbn [handler] in *. exists 1%nat, s1, hist, ts. split; [cbn [solo]; rewrite St; reflexivity|]. split; [lia|]. split; [unfold next_op; now rewrite N1|].
    split; [reflexivity|]. split; [exact Tk|]. split; auto. split; auto. split; [|auto]. cbn [last_words]. rewrite app_nil_r. unfold s1. cbn [out set_ctx set_panicked].
    rewrite transmitted_eq, <- En. reflexivity.
Qed.

(** A panic in a log statement: nothing more is transmitted, by any context. *)
Theorem panic_inside : forall lg k msg progs s i s1, programs_ok msg progs -> reachable lg k msg progs s ->
  next_op s i = Some OPanic -> owner s = Some i -> taken s = true -> step lg k msg i s = Some s1 ->
  forall n s', runs lg k msg n s1 s' -> out s' = out s.
Proof.
  intros lg k msg progs s i s1 Hok [n0 R] Nx Ow Tk St. destruct Hok as [Np M].
  destruct (inv_runs lg k msg false M progs n0 s Np ltac:(discriminate) R) as (hist & cur & V).
  unfold next_op in Nx. destruct (nth_error (ctxs s) i) as [[[|o rest] ls]|] eqn:N; try discriminate. injection Nx as ->.
  unfold step in St. rewrite N, panic_exec in St. injection St as <-.
  assert (Sk : stuck lg msg i (set_ctx i (MkCtx (comp lg (handler msg (panicked s))) ls) (set_panicked s))).
  { split; [exact Ow|]. split; [exact Tk|]. split.
    - eexists. split; [eapply upd_same; exact N|]. apply doomed_handler; auto.
    - intros j c Ne E. cbn [set_ctx set_panicked ctxs] in E. rewrite upd_other in E by auto. destruct (inv_ctx _ _ _ _ _ _ _ _ V j c E) as (todo & [(Q & _)|(_ & O)] & _); [congruence|]. eauto. }
  intros n s' Rn. assert (G : stuck lg msg i s' /\ out s' = out s); [|apply G].
  remember (set_ctx i _ _) as s2 eqn:Q. induction Rn as [s2|n s2 s3 s4 j Rn IH St]; [subst; split; auto|].
  destruct (IH Q Sk) as (Sk' & E). destruct (stuck_step lg k msg i s3 j s4 M Sk' St) as (Sk2 & E2). split; auto. congruence.
Qed.
