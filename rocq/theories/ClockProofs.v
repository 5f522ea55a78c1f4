From Verif Require Import Base ClockModel ClockSpec.

(** Where a context is. *)
Inductive phase := Out | Start | Inside (rem : list op) | Done.
Record place := MkPlace { locked : bool; ph : phase; todo : list item }.

Definition tail (src : source) (g : place) : list op := (if locked g then [Unlock] else []) ++ comp src (todo g).
Definition code_at (src : source) (g : place) : list op :=
  match ph g with
  | Out => comp src (todo g)
  | Start => Begin :: evaluate src ++ Emit :: tail src g
  | Inside rem => rem ++ Emit :: tail src g
  | Done => Unlock :: comp src (todo g)
  end.
Definition place_ok (g : place) : Prop :=
  match ph g with Out => locked g = false | Start => locked g = true | Done => locked g = true | Inside _ => True end.

(** What a step of a context can be. *)
Inductive did (src : source) (i : nat) (s : sys) : place -> ctx -> place -> ctx -> sys -> Prop :=
| D_work p t h l : did src i s (MkPlace false Out (Other :: p)) (MkCtx (code_at src (MkPlace false Out (Other :: p))) t h l)
    (MkPlace false Out p) (MkCtx (code_at src (MkPlace false Out p)) t h l)
    (MkSys (now s) (overflows s) (pending s) (owner s) (count s) (upd i (MkCtx (code_at src (MkPlace false Out p)) t h l) (ctxs s)) (uses s))
| D_lock p t h l : did src i s (MkPlace false Out (Log :: p)) (MkCtx (code_at src (MkPlace false Out (Log :: p))) t h l)
    (MkPlace true Start p) (MkCtx (code_at src (MkPlace true Start p)) t h l)
    (MkSys (now s) (overflows s) (pending s) (Some i) (count s) (upd i (MkCtx (code_at src (MkPlace true Start p)) t h l) (ctxs s)) (uses s))
| D_read p t h l : did src i s (MkPlace false Out (Read :: p)) (MkCtx (code_at src (MkPlace false Out (Read :: p))) t h l)
    (MkPlace false (Inside (evaluate src)) p) (MkCtx (code_at src (MkPlace false (Inside (evaluate src)) p)) (now s) 0 0)
    (MkSys (now s) (overflows s) (pending s) (owner s) (count s) (upd i (MkCtx (code_at src (MkPlace false (Inside (evaluate src)) p)) (now s) 0 0) (ctxs s)) (uses s))
| D_begin p t h l : did src i s (MkPlace true Start p) (MkCtx (code_at src (MkPlace true Start p)) t h l)
    (MkPlace true (Inside (evaluate src)) p) (MkCtx (code_at src (MkPlace true (Inside (evaluate src)) p)) (now s) 0 0)
    (MkSys (now s) (overflows s) (pending s) (owner s) (count s) (upd i (MkCtx (code_at src (MkPlace true (Inside (evaluate src)) p)) (now s) 0 0) (ctxs s)) (uses s))
| D_count b p t h l : src = Counter -> did src i s (MkPlace b (Inside [Count]) p) (MkCtx (code_at src (MkPlace b (Inside [Count]) p)) t h l)
    (MkPlace b (Inside []) p) (MkCtx (code_at src (MkPlace b (Inside []) p)) t h (count s))
    (MkSys (now s) (overflows s) (pending s) (owner s) ((count s + 1) mod 2 ^ 32) (upd i (MkCtx (code_at src (MkPlace b (Inside []) p)) t h (count s)) (ctxs s)) (uses s))
| D_timer b p t h l : src = Hardware -> did src i s (MkPlace b (Inside [Low]) p) (MkCtx (code_at src (MkPlace b (Inside [Low]) p)) t h l)
    (MkPlace b (Inside []) p) (MkCtx (code_at src (MkPlace b (Inside []) p)) t h (timer s))
    (MkSys (now s) (overflows s) (pending s) (owner s) (count s) (upd i (MkCtx (code_at src (MkPlace b (Inside []) p)) t h (timer s)) (ctxs s)) (uses s))
| D_high1 b p t h l : src = Extended -> did src i s (MkPlace b (Inside [High1; Low; High2]) p) (MkCtx (code_at src (MkPlace b (Inside [High1; Low; High2]) p)) t h l)
    (MkPlace b (Inside [Low; High2]) p) (MkCtx (code_at src (MkPlace b (Inside [Low; High2]) p)) t (overflows s) l)
    (MkSys (now s) (overflows s) (pending s) (owner s) (count s) (upd i (MkCtx (code_at src (MkPlace b (Inside [Low; High2]) p)) t (overflows s) l) (ctxs s)) (uses s))
| D_low b p t h l : src = Extended -> did src i s (MkPlace b (Inside [Low; High2]) p) (MkCtx (code_at src (MkPlace b (Inside [Low; High2]) p)) t h l)
    (MkPlace b (Inside [High2]) p) (MkCtx (code_at src (MkPlace b (Inside [High2]) p)) t h (timer s))
    (MkSys (now s) (overflows s) (pending s) (owner s) (count s) (upd i (MkCtx (code_at src (MkPlace b (Inside [High2]) p)) t h (timer s)) (ctxs s)) (uses s))
| D_same b p t l : src = Extended -> did src i s (MkPlace b (Inside [High2]) p) (MkCtx (code_at src (MkPlace b (Inside [High2]) p)) t (overflows s) l)
    (MkPlace b (Inside []) p) (MkCtx (code_at src (MkPlace b (Inside []) p)) t (overflows s) l)
    (MkSys (now s) (overflows s) (pending s) (owner s) (count s) (upd i (MkCtx (code_at src (MkPlace b (Inside []) p)) t (overflows s) l) (ctxs s)) (uses s))
| D_again b p t h l : src = Extended -> did src i s (MkPlace b (Inside [High2]) p) (MkCtx (code_at src (MkPlace b (Inside [High2]) p)) t h l)
    (MkPlace b (Inside [High1; Low; High2]) p) (MkCtx (code_at src (MkPlace b (Inside [High1; Low; High2]) p)) t h l)
    (MkSys (now s) (overflows s) (pending s) (owner s) (count s) (upd i (MkCtx (code_at src (MkPlace b (Inside [High1; Low; High2]) p)) t h l) (ctxs s)) (uses s))
| D_emit_log p t h l : did src i s (MkPlace true (Inside []) p) (MkCtx (code_at src (MkPlace true (Inside []) p)) t h l)
    (MkPlace true Done p) (MkCtx (code_at src (MkPlace true Done p)) t h l)
    (MkSys (now s) (overflows s) (pending s) (owner s) (count s) (upd i (MkCtx (code_at src (MkPlace true Done p)) t h l) (ctxs s))
      (uses s ++ [MkUsed (h * 2 ^ 32 + l) (is_some (owner s)) t (now s)]))
| D_emit_read p t h l : did src i s (MkPlace false (Inside []) p) (MkCtx (code_at src (MkPlace false (Inside []) p)) t h l)
    (MkPlace false Out p) (MkCtx (code_at src (MkPlace false Out p)) t h l)
    (MkSys (now s) (overflows s) (pending s) (owner s) (count s) (upd i (MkCtx (code_at src (MkPlace false Out p)) t h l) (ctxs s))
      (uses s ++ [MkUsed (h * 2 ^ 32 + l) (is_some (owner s)) t (now s)]))
| D_unlock p t h l : did src i s (MkPlace true Done p) (MkCtx (code_at src (MkPlace true Done p)) t h l)
    (MkPlace false Out p) (MkCtx (code_at src (MkPlace false Out p)) t h l)
    (MkSys (now s) (if pending s then overflow_handler (overflows s) else overflows s) false None (count s) (upd i (MkCtx (code_at src (MkPlace false Out p)) t h l) (ctxs s)) (uses s)).

(** The operations left inside an evaluation. *)
Definition rem_ok (src : source) (g : place) : Prop :=
  match ph g with
  | Inside rem =>
    match src with
    | Counter => rem = [Count] \/ rem = []
    | Hardware => rem = [Low] \/ rem = []
    | Extended => rem = [High1; Low; High2] \/ rem = [Low; High2] \/ rem = [High2] \/ rem = []
    end
  | _ => True
  end.

Lemma exec_did src i s s' g c : exec i s = Some s' -> nth_error (ctxs s) i = Some c -> code c = code_at src g -> place_ok g -> rem_ok src g ->
  exists g' c', did src i s g c g' c' s' /\ may_run i (owner s) = true.
Proof.
  intros X N E P R. unfold exec in X. destruct (may_run i (owner s)) eqn:M; [|discriminate X]. cbn [negb] in X. rewrite N in X.
  destruct c as [cd t h l]. cbn [code] in E. subst cd. destruct g as [lk p td]. destruct p as [| |rem|]; cbn [place_ok ph] in P.
  - cbn in P. subst lk. destruct td as [|[| |] td]; cbn [code_at ph todo comp flat_map comp_item app] in X; [discriminate X|..].
    + injection X as <-. exists (MkPlace true Start td). eexists. split; [|reflexivity].
      replace (Begin :: (evaluate src ++ [Emit; Unlock]) ++ flat_map (comp_item src) td) with (code_at src (MkPlace true Start td));
        [apply D_lock|]. cbn [code_at ph tail locked todo app]. unfold tail, comp. cbn [locked todo]. rewrite <- app_assoc. reflexivity.
    + injection X as <-. exists (MkPlace false (Inside (evaluate src)) td). eexists. split; [|reflexivity].
      replace ((evaluate src ++ [Emit]) ++ flat_map (comp_item src) td) with (code_at src (MkPlace false (Inside (evaluate src)) td));
        [apply D_read|]. cbn [code_at ph]. unfold tail, comp. cbn [locked todo]. rewrite <- app_assoc. reflexivity.
    + injection X as <-. exists (MkPlace false Out td). eexists. split; [|reflexivity]. apply D_work.
  - cbn in P. subst lk. cbn [code_at ph] in X. injection X as <-. do 2 eexists. split; [apply D_begin|reflexivity].
  - clear P. cbn [rem_ok ph] in R. destruct src; repeat (destruct R as [R|R]); subst rem; cbn [code_at ph app] in X.
    + injection X as <-. do 2 eexists. split; [now apply D_count|reflexivity].
    + injection X as <-. destruct lk; do 2 eexists; (split; [apply D_emit_log || apply D_emit_read|reflexivity]).
    + injection X as <-. do 2 eexists. split; [now apply D_timer|reflexivity].
    + injection X as <-. destruct lk; do 2 eexists; (split; [apply D_emit_log || apply D_emit_read|reflexivity]).
    + injection X as <-. do 2 eexists. split; [now apply D_high1|reflexivity].
    + injection X as <-. do 2 eexists. split; [now apply D_low|reflexivity].
    + destruct (Z.eqb_spec (overflows s) h) as [<-|]; injection X as <-; do 2 eexists; (split; [|reflexivity]); [now apply D_same|now apply D_again].
    + injection X as <-. destruct lk; do 2 eexists; (split; [apply D_emit_log || apply D_emit_read|reflexivity]).
  - cbn in P. subst lk. cbn [code_at ph] in X. injection X as <-. do 2 eexists. split; [apply D_unlock|reflexivity].
Qed.

Lemma nth_upd {A} i (x : A) l j : (i < length l)%nat -> nth_error (upd i x l) j = if Nat.eqb j i then Some x else nth_error l j.
Proof.
  revert l j. induction i as [|i IH]; intros [|y l] j H; cbn [length] in H; try lia; destruct j; cbn; try reflexivity.
  apply IH. lia.
Qed.

Lemma tick_owner s s' : tick s = Some s' -> owner s' = owner s /\ ctxs s' = ctxs s.
Proof. unfold tick. cbv zeta. destruct (2 ^ 64 <=? _); [discriminate|]. destruct (_ =? 0); [destruct (owner s)|]; intros E; injection E as <-; auto. Qed.

Lemma did_places src i s g c g' c' s' : did src i s g c g' c' s' -> place_ok g -> rem_ok src g ->
  code c' = code_at src g' /\ place_ok g' /\ rem_ok src g' /\ ctxs s' = upd i c' (ctxs s).
Proof.
  intros D P R. destruct D; (split; [reflexivity|]); (split; [exact P || reflexivity || exact Logic.I|]); (split; [|reflexivity]);
    cbn [rem_ok ph] in *; auto; try (subst src; auto); destruct src; cbn [evaluate]; auto.
Qed.

Lemma did_owner src i s g c g' c' s' : did src i s g c g' c' s' -> may_run i (owner s) = true -> (locked g = true <-> owner s = Some i) ->
  (locked g' = true <-> owner s' = Some i) /\ forall j, j <> i -> (owner s' = Some j <-> owner s = Some j).
Proof.
  intros D M O. destruct D; cbn [locked owner] in *; split; try tauto.
  - intros j J. split; intros K; [congruence|]. rewrite K in M. cbn in M. apply Nat.eqb_eq in M. congruence.
  - split; intros K; discriminate.
  - intros j J. destruct O as [O _]. rewrite (O eq_refl). split; intros K; congruence.
Qed.

(** Invariants: one part for all, one for each context by its place. *)
Section Invariant.
  Context (src : source) (fine : sys -> Prop) (G : sys -> Prop) (L : sys -> nat -> place -> ctx -> Prop).

  Definition at_ok (s : sys) (i : nat) (g : place) (c : ctx) : Prop :=
    code c = code_at src g /\ place_ok g /\ rem_ok src g /\ (locked g = true <-> owner s = Some i) /\ L s i g c.
  Definition inv (s : sys) : Prop := G s /\ forall i c, nth_error (ctxs s) i = Some c -> exists g, at_ok s i g c.

  Context (tick_good : forall s s', tick s = Some s' -> ((now s + 1) mod 2 ^ 32 = 0 -> fine s) -> G s ->
    G s' /\ forall i g c, L s i g c -> (locked g = true <-> owner s = Some i) -> L s' i g c).
  Context (step_good : forall i s g c g' c' s', did src i s g c g' c' s' -> G s -> L s i g c -> (locked g = true <-> owner s = Some i) ->
    may_run i (owner s) = true ->
    G s' /\ L s' i g' c' /\ forall j gj cj, j <> i -> L s j gj cj -> (locked gj = true <-> owner s = Some j) -> L s' j gj cj).

  Theorem inv_runs s s' : runs_if fine s s' -> inv s -> inv s'.
  Proof using tick_good step_good.
    intros H. induction H as [s|s s1 s2 H IH T F|i s s1 s2 H IH X]; intros J; [exact J| |].
    - specialize (IH J). destruct IH as [IG IL]. cbn [step] in T. destruct (tick_owner _ _ T) as [O C].
      destruct (tick_good _ _ T F IG) as [G2 L2]. split; [exact G2|]. intros i c N. rewrite C in N. destruct (IL i c N) as (g & A1 & A2 & A3 & A4 & A5).
      exists g. unfold at_ok. rewrite O. auto 7.
    - specialize (IH J). destruct IH as [IG IL]. cbn [step] in X. destruct (nth_error (ctxs s1) i) as [c|] eqn:N.
      2:{ unfold exec in X. rewrite N in X. destruct (negb _); discriminate X. }
      destruct (IL i c N) as (g & A1 & A2 & A3 & A4 & A5). destruct (exec_did _ _ _ _ _ _ X N A1 A2 A3) as (g' & c' & D & M).
      destruct (did_places _ _ _ _ _ _ _ _ D A2 A3) as (B1 & B2 & B3 & B4). destruct (did_owner _ _ _ _ _ _ _ _ D M A4) as [O1 O2].
      destruct (step_good _ _ _ _ _ _ _ D IG A5 A4 M) as (G2 & L2 & L3). split; [exact G2|].
      intros j cj Nj. rewrite B4, nth_upd in Nj by (apply nth_error_Some; congruence).
      destruct (Nat.eqb_spec j i) as [->|Ne].
      + injection Nj as <-. exists g'. unfold at_ok. auto 7.
      + destruct (IL j cj Nj) as (gj & C1 & C2 & C3 & C4 & C5). exists gj. unfold at_ok. specialize (O2 j Ne).
        repeat (split; [assumption|]). split; [rewrite O2; exact C4|]. now apply (L3 j gj cj).
  Qed.

  Theorem inv_boot progs : G (boot src progs) -> (forall i p, nth_error progs i = Some p -> L (boot src progs) i (MkPlace false Out p) (MkCtx (comp src p) 0 0 0)) -> inv (boot src progs).
  Proof using.
    intros HG HL. split; [exact HG|]. intros i c N. cbn [boot ctxs] in N. rewrite nth_error_map in N. destruct (nth_error progs i) as [p|] eqn:E; [|discriminate N].
    injection N as <-. exists (MkPlace false Out p). unfold at_ok. split; [reflexivity|]. split; [reflexivity|]. split; [exact Logic.I|].
    split; [split; discriminate|]. now apply HL.
  Qed.
End Invariant.

Lemma runs_any ms s s' : runs ms s s' -> runs_if (fun _ => True) s s'.
Proof. intros H. induction H as [|ms m s s' s'' H IH X]; [constructor|]. destruct m; [eapply If_tick; eauto|eapply If_step; eauto]. Qed.

Lemma tick_now s s' : tick s = Some s' -> now s' = now s + 1 /\ now s' < 2 ^ 64 /\ uses s' = uses s /\ count s' = count s.
Proof.
  unfold tick. cbv zeta. destruct (Z.leb_spec (2 ^ 64) (now s + 1)); [discriminate|]. destruct (_ =? 0); [destruct (owner s)|]; intros E; injection E as <-; auto.
Qed.

Lemma did_now src i s g c g' c' s' : did src i s g c g' c' s' -> now s' = now s.
Proof. intros D. destruct D; reflexivity. Qed.

(** The counter. *)
Definition numbers (n : nat) : list Z := map (fun k => Z.of_nat k mod 2 ^ 32) (seq 0 n).

Lemma numbers_S n : numbers (S n) = numbers n ++ [Z.of_nat n mod 2 ^ 32].
Proof. unfold numbers. rewrite seq_S, map_app. reflexivity. Qed.

Definition only_logs (g : place) : Prop := ~ In Read (todo g) /\ (locked g = false -> ph g = Out).

Definition count_all (s : sys) : Prop :=
  map u_value (uses s) = numbers (length (uses s)) /\ (owner s = None -> count s = Z.of_nat (length (uses s)) mod 2 ^ 32).
Definition count_at (s : sys) (i : nat) (g : place) (c : ctx) : Prop :=
  only_logs g /\
  (locked g = true ->
   match ph g with
   | Inside [Count] => high c = 0 /\ count s = Z.of_nat (length (uses s)) mod 2 ^ 32
   | Inside _ => high c = 0 /\ low c = Z.of_nat (length (uses s)) mod 2 ^ 32 /\ count s = (Z.of_nat (length (uses s)) + 1) mod 2 ^ 32
   | _ => count s = Z.of_nat (length (uses s)) mod 2 ^ 32
   end).

Theorem counter_values progs ms s : logs_only progs -> runs ms (boot Counter progs) s -> map u_value (uses s) = numbers (length (uses s)).
Proof.
  intros O R. apply runs_any in R. revert R. intros R.
  assert (J : inv Counter count_all count_at s); [|apply J].
  eapply (inv_runs Counter (fun _ => True) count_all count_at); [| |exact R|apply inv_boot].
  - intros s0 s1 T _ [G1 G2]. destruct (tick_now _ _ T) as (_ & _ & U & C). destruct (tick_owner _ _ T) as [Ow _].
    unfold count_all, count_at. rewrite U, C, Ow. auto.
  - intros i s0 g c g' c' s1 D [G1 G2] [[L1 L2] L3] A M.
    assert (F : uses s1 = uses s0 -> count s1 = count s0 -> forall j gj cj, j <> i -> count_at s0 j gj cj -> (locked gj = true <-> owner s0 = Some j) -> count_at s1 j gj cj)
      by (intros E1 E2 j gj cj _ K _; unfold count_at in *; rewrite E1, E2; exact K).
    assert (F' : owner s0 = Some i -> forall j gj cj, j <> i -> count_at s0 j gj cj -> (locked gj = true <-> owner s0 = Some j) -> count_at s1 j gj cj).
    { intros E1 j gj cj Ne [K1 _] K2. split; [exact K1|]. intros K. apply K2 in K. congruence. }
    destruct D; cbn [locked ph todo high low] in *;
      try (specialize (L2 eq_refl); discriminate L2); try discriminate; try (subst; discriminate).
    + (* work *) split; [split; auto|]. split; [|now apply F]. split; [|discriminate]. split; [|auto]. intros K. apply L1. now right.
    + (* lock *) assert (Ow : owner s0 = None).
      { destruct (owner s0) as [k|] eqn:E; [|reflexivity]. cbn in M. apply Nat.eqb_eq in M. subst k. destruct A as [_ A]. discriminate (A eq_refl). }
      split; [split; [exact G1|discriminate]|]. split; [|now apply F]. split; [split; [|discriminate]; intros K; apply L1; now right|].
      intros _. cbn [ph]. now apply G2.
    + (* read *) exfalso. apply L1. now left.
    + (* begin *) split; [split; auto|]. split; [|now apply F]. split; [split; [auto|discriminate]|]. intros _. cbn. split; [reflexivity|now apply L3].
    + (* count *) destruct b; [|specialize (L2 eq_refl); discriminate L2]. destruct (L3 eq_refl) as [L4 L5]. pose proof (proj1 A eq_refl) as Ow.
      split; [split; [exact G1|]; cbn [owner]; congruence|]. split; [|now apply F']. split; [split; [auto|discriminate]|].
      intros _. cbn. split; [exact L4|]. split; [exact L5|]. rewrite L5. now rewrite Zplus_mod_idemp_l.
    + (* emit *) destruct (L3 eq_refl) as (L4 & L5 & L6). pose proof (proj1 A eq_refl) as Ow.
      split; [split; cbn [owner uses]; [|congruence]|].
      { rewrite map_app, app_length, Nat.add_comm. cbn [length Nat.add map u_value]. rewrite numbers_S, G1, L4, L5. reflexivity. }
      split; [|now apply F']. split; [split; [auto|discriminate]|]. intros _. cbn [ph uses count]. rewrite L6, app_length. cbn [length]. f_equal. lia.
    + (* unlock *) pose proof (proj1 A eq_refl) as Ow. split; [split; [exact G1|]; intros _; now apply L3|]. split; [|now apply F'].
      split; [split; auto|discriminate].
  - split; [reflexivity|intros _; reflexivity].
  - intros i p N. split; [split; [|auto]; apply (O p); eapply nth_error_In; eauto|discriminate].
Qed.

(** The timer. *)
Definition timer_all (s : sys) : Prop := Forall true_low (uses s).
Definition timer_at (s : sys) (i : nat) (g : place) (c : ctx) : Prop :=
  match ph g with
  | Inside [] => high c = 0 /\ exists t, since c <= t <= now s /\ low c = t mod 2 ^ 32
  | Inside _ => high c = 0 /\ since c <= now s
  | _ => True
  end.

Theorem timer_values progs ms s : runs ms (boot Hardware progs) s -> Forall true_low (uses s).
Proof.
  intros R. apply runs_any in R. assert (J : inv Hardware timer_all timer_at s); [|apply J].
  eapply (inv_runs Hardware (fun _ => True) timer_all timer_at); [| |exact R|apply inv_boot].
  - intros s0 s1 T _ G1. destruct (tick_now _ _ T) as (N & _ & U & _). unfold timer_all. rewrite U. split; [exact G1|].
    intros i g c K _. unfold timer_at in *. destruct (ph g) as [| |[|o rem]|]; auto; rewrite N.
    + destruct K as [K1 (t & K2 & K3)]. split; [exact K1|]. exists t. split; [lia|exact K3].
    + destruct K. split; [assumption|lia].
  - intros i s0 g c g' c' s1 D G1 L1 A M. pose proof (did_now _ _ _ _ _ _ _ _ D) as N.
    split; [|split].
    + destruct D; try exact G1; unfold timer_all; cbn [uses]; apply Forall_app; (split; [exact G1|]);
        (constructor; [|constructor]); cbn in L1; destruct L1 as [-> (t0 & L1 & ->)]; exists t0; cbn; auto.
    + destruct D; try exact Logic.I; try discriminate; cbn in L1 |- *.
      * split; [reflexivity|lia].
      * split; [reflexivity|lia].
      * destruct L1 as [L1 L2]. split; [exact L1|]. exists (now s0). split; [lia|reflexivity].
    + intros j gj cj _ K _. unfold timer_at in *. rewrite N. exact K.
  - constructor.
  - intros. exact Logic.I.
Qed.

(** The extended timer. *)
Definition knows (s : sys) (rem : list op) (c : ctx) : Prop :=
  match rem with
  | [] => since c <= high c * 2 ^ 32 + low c <= now s
  | [High2] => exists t1 t2, since c <= t1 /\ t1 <= t2 /\ t2 <= now s /\ high c = t1 / 2 ^ 32 /\ low c = t2 mod 2 ^ 32
  | [Low; High2] => exists t1, since c <= t1 /\ t1 <= now s /\ high c = t1 / 2 ^ 32
  | _ => since c <= now s
  end.

Lemma knows_later s s' rem c : now s <= now s' -> knows s rem c -> knows s' rem c.
Proof.
  intros N K. unfold knows in *.
  repeat match goal with |- match ?x with _ => _ end => destruct x end; try lia.
  - destruct K as (t1 & K1 & K2 & K3). exists t1. repeat split; auto; lia.
  - destruct K as (t1 & t2 & K1 & K2 & K3 & K4 & K5). exists t1, t2. repeat split; auto; lia.
Qed.

Section Extended.
  Context (all : bool).
  Definition clock_fine (s : sys) : Prop := if all then not_masked s else not_pending s.
  Definition trusted (b : bool) : Prop := b = false \/ all = true.
  Definition clock_all (s : sys) : Prop :=
    0 <= now s < 2 ^ 64 /\ overflows s + (if pending s then 1 else 0) = now s / 2 ^ 32 /\ (pending s = true -> owner s <> None) /\
    (all = true -> pending s = false) /\ Forall (fun u => trusted (u_logged u) -> true_time u) (uses s).
  Definition clock_at (s : sys) (i : nat) (g : place) (c : ctx) : Prop :=
    trusted (locked g) -> match ph g with Inside rem => knows s rem c | _ => True end.

  Lemma tick_overflow n : 0 <= n -> (n + 1) mod 2 ^ 32 = 0 -> (n + 1) / 2 ^ 32 = n / 2 ^ 32 + 1.
  Proof using. intros H E. pose proof (Z.div_mod (n + 1) (2 ^ 32) ltac:(lia)). pose proof (Z.div_mod n (2 ^ 32) ltac:(lia)). pose proof (Z.mod_pos_bound n (2 ^ 32) ltac:(lia)). lia. Qed.
  Lemma tick_no_overflow n : 0 <= n -> (n + 1) mod 2 ^ 32 <> 0 -> (n + 1) / 2 ^ 32 = n / 2 ^ 32.
  Proof using.
    intros H E. pose proof (Z.div_mod (n + 1) (2 ^ 32) ltac:(lia)). pose proof (Z.div_mod n (2 ^ 32) ltac:(lia)). pose proof (Z.mod_pos_bound n (2 ^ 32) ltac:(lia)).
    pose proof (Z.mod_pos_bound (n + 1) (2 ^ 32) ltac:(lia)). lia.
  Qed.

  Lemma handler_small n : 0 <= n -> n + 1 < 2 ^ 32 -> overflow_handler n = n + 1.
  Proof using. intros. unfold overflow_handler. apply Z.mod_small. lia. Qed.

  Theorem clock_inv progs s : runs_if clock_fine (boot Extended progs) s -> clock_all s.
  Proof using.
    intros R. assert (J : inv Extended clock_all clock_at s); [|apply J].
    eapply (inv_runs Extended clock_fine clock_all clock_at); [| |exact R|apply inv_boot].
    - intros s0 s1 T F (G1 & G2 & G3 & G4 & G5). destruct (tick_now _ _ T) as (N & N2 & U & _).
      split.
      + unfold clock_all. rewrite U. split; [lia|]. unfold tick in T. cbv zeta in T. rewrite N in N2 |- *.
        destruct (Z.leb_spec (2 ^ 64) (now s0 + 1)); [discriminate T|].
        destruct (Z.eqb_spec ((now s0 + 1) mod 2 ^ 32) 0) as [E|E].
        * rewrite (tick_overflow _ (proj1 G1) E). specialize (F E).
          assert (B : now s0 / 2 ^ 32 + 1 < 2 ^ 32) by (rewrite <- (tick_overflow _ (proj1 G1) E); apply Z.div_lt_upper_bound; lia).
          assert (P0 : pending s0 = false).
          { unfold clock_fine in F. destruct all; [now apply G4|exact F]. }
          rewrite P0 in G2. assert (Q : 0 <= overflows s0) by (pose proof (Z.div_pos (now s0) (2 ^ 32)); lia).
          destruct (owner s0) as [k|] eqn:Ow; injection T as <-; cbn [overflows pending owner].
          -- split; [lia|]. split; [congruence|]. split; [|exact G5]. intros W. unfold clock_fine, not_masked in F. rewrite W in F. congruence.
          -- rewrite P0, handler_small by lia. split; [lia|]. split; [discriminate|]. split; [auto|exact G5].
        * rewrite (tick_no_overflow _ (proj1 G1) E). injection T as <-. cbn [overflows pending owner]. auto.
      + intros i g c K A W. specialize (K W). destruct (ph g); auto. apply (knows_later s0); [lia|exact K].
    - intros i s0 g c g' c' s1 D (G1 & G2 & G3 & G4 & G5) K A M.
      assert (Ex : trusted (locked g) -> overflows s0 = now s0 / 2 ^ 32).
      { intros W. assert (P0 : pending s0 = false); [|rewrite P0 in G2; lia]. destruct W as [W|W]; [|now apply G4].
        destruct (pending s0); [|reflexivity]. exfalso. specialize (G3 eq_refl). destruct (owner s0) as [k|]; [|congruence]. cbn in M. apply Nat.eqb_eq in M. subst k.
        destruct A as [_ A]. specialize (A eq_refl). congruence. }
      assert (St : locked g = is_some (owner s0)).
      { destruct (owner s0) as [k|]; cbn in M |- *; [apply Nat.eqb_eq in M; subst k; now apply A|]. destruct (locked g); [|reflexivity]. destruct A as [A _]. discriminate (A eq_refl). }
      pose proof (did_now _ _ _ _ _ _ _ _ D) as N.
      split; [|split].
      + destruct D; cbn [locked] in *; try (unfold clock_all; cbn [now overflows pending owner uses]; auto 7; fail).
        * split; [exact G1|]. split; [exact G2|]. split; [intros _; discriminate|]. split; [exact G4|exact G5].
        * split; [exact G1|]. split; [exact G2|]. split; [exact G3|]. split; [exact G4|]. cbn [uses]. apply Forall_app. split; [exact G5|].
          constructor; [|constructor]. rewrite <- St. intros W. specialize (K W). exact K.
        * split; [exact G1|]. split; [exact G2|]. split; [exact G3|]. split; [exact G4|]. cbn [uses]. apply Forall_app. split; [exact G5|].
          constructor; [|constructor]. rewrite <- St. intros W. specialize (K W). exact K.
        * split; [exact G1|]. cbn [now overflows pending owner uses]. split; [|split; [discriminate|split; [auto|exact G5]]].
          destruct (pending s0); [|lia]. assert (now s0 / 2 ^ 32 < 2 ^ 32) by (apply Z.div_lt_upper_bound; lia).
          unfold overflow_handler. rewrite G2, Z.mod_small; [lia|]. split; [apply Z.div_pos; lia|assumption].
      + destruct D; cbn [locked ph] in *; intros W; cbn [ph]; try exact Logic.I; try (subst; discriminate).
        * cbn. lia.
        * cbn. lia.
        * specialize (K W). cbn in K |- *. exists (now s0). rewrite (Ex W). repeat split; lia.
        * specialize (K W). cbn in K |- *. destruct K as (t1 & K1 & K2 & K3). exists t1, (now s0). repeat split; auto; lia.
        * specialize (K W). destruct K as (t1 & t2 & K1 & K2 & K3 & K4 & K5). cbn [since high low now] in *. unfold knows. cbn [since high low now].
          rewrite (Ex W) in K4 |- *. rewrite K5.
          pose proof (Z.div_le_mono t1 t2 (2 ^ 32) ltac:(lia) K2). pose proof (Z.div_le_mono t2 (now s0) (2 ^ 32) ltac:(lia) K3).
          pose proof (Z.div_mod t2 (2 ^ 32) ltac:(lia)). lia.
        * specialize (K W). destruct K as (t1 & t2 & K1 & K2 & K3 & _). cbn in *. lia.
      + intros j gj cj _ Kj _ W. specialize (Kj W). destruct (ph gj); auto. apply (knows_later s0); [lia|exact Kj].
    - split; [cbn; lia|]. split; [reflexivity|]. split; [discriminate|]. split; [auto|constructor].
    - intros i p N W. exact Logic.I.
  Qed.
End Extended.

(** Messages take turns. *)
Definition turn_all (s : sys) : Prop := in_turn (uses s) /\ Forall (fun u => u_until u <= now s) (uses s).
Definition turn_at (s : sys) (i : nat) (g : place) (c : ctx) : Prop :=
  only_logs g /\ (locked g = true -> match ph g with Inside _ => Forall (fun u => u_until u <= since c) (uses s) | _ => True end).

Lemma in_turn_snoc l u : in_turn l -> Forall (fun v => u_until v <= u_since u) l -> in_turn (l ++ [u]).
Proof.
  intros H F i j a b Lt A B. destruct (Nat.lt_ge_cases j (length l)) as [J|J].
  - rewrite nth_error_app1 in A, B by lia. exact (H i j a b Lt A B).
  - assert (Hj : (j < length (l ++ [u]))%nat) by (apply nth_error_Some; congruence). rewrite app_length in Hj. cbn [length] in Hj.
    assert (j = length l) by lia. subst j. rewrite nth_error_app2, Nat.sub_diag in B by lia. injection B as <-.
    rewrite nth_error_app1 in A by lia. rewrite Forall_forall in F. apply F. eapply nth_error_In; eauto.
Qed.

Lemma runs_weaker (f f' : sys -> Prop) s s' : (forall x, f x -> f' x) -> runs_if f s s' -> runs_if f' s s'.
Proof. intros W H. induction H as [s|s s1 s2 H IH T F|i s s1 s2 H IH X]; [constructor|eapply If_tick; eauto|eapply If_step; eauto]. Qed.

Theorem turns_if src fine progs s : logs_only progs -> runs_if fine (boot src progs) s -> in_turn (uses s).
Proof.
  intros O R. apply (runs_weaker _ (fun _ => True)) in R; [|auto]. assert (J : inv src turn_all turn_at s); [|apply J].
  eapply (inv_runs src (fun _ => True) turn_all turn_at); [| |exact R|apply inv_boot].
  - intros s0 s1 T _ [G1 G2]. destruct (tick_now _ _ T) as (N & _ & U & _). unfold turn_all, turn_at. rewrite U, N. split; [split; [exact G1|]|auto].
    eapply Forall_impl; [|exact G2]. intros u Hu. cbn in *. lia.
  - intros i s0 g c g' c' s1 D [G1 G2] [[L1 L2] L3] A M. pose proof (did_now _ _ _ _ _ _ _ _ D) as N.
    split; [|split].
    + destruct D; cbn [locked ph] in *; try (split; assumption); [|specialize (L2 eq_refl); discriminate L2].
      specialize (L3 eq_refl). split.
      * apply in_turn_snoc; [exact G1|]. exact L3.
      * cbn [uses now]. apply Forall_app. split; [exact G2|]. constructor; [cbn; lia|constructor].
    + destruct D; cbn [locked ph todo] in *; try (specialize (L2 eq_refl); discriminate L2); try (subst; discriminate).
      all: try (destruct b; [|specialize (L2 eq_refl); discriminate L2]).
      all: try (split; [split; [assumption|discriminate]|exact L3]).
      * split; [split; [|auto]|discriminate]. intros K. apply L1. now right.
      * split; [split; [|discriminate]|intros _; exact Logic.I]. intros K. apply L1. now right.
      * exfalso. apply L1. now left.
      * split; [split; [assumption|discriminate]|]. intros _. exact G2.
      * split; [split; [assumption|discriminate]|]. intros _. exact Logic.I.
      * split; [split; auto|discriminate].
    + intros j gj cj Ne [Kj1 Kj2] Aj. split; [exact Kj1|]. intros W. specialize (Kj2 W).
      destruct D; try exact Kj2. all: exfalso; cbn [locked] in A; pose proof (proj1 Aj W) as O1.
      * pose proof (proj1 A eq_refl). congruence.
      * specialize (L2 eq_refl). discriminate L2.
  - split; [|constructor]. intros i j a b _ E. cbn in E. destruct i; discriminate.
  - intros i p N. split; [split; [|auto]; apply (O p); eapply nth_error_In; eauto|discriminate].
Qed.

Theorem turns src progs ms s : logs_only progs -> runs ms (boot src progs) s -> in_turn (uses s).
Proof. intros O R. eapply turns_if; [exact O|]. eapply runs_any, R. Qed.

(** Times of evaluation. *)
Definition spans_all (s : sys) : Prop := 0 <= now s /\ Forall (fun u => 0 <= u_since u /\ u_since u <= u_until u /\ u_until u <= now s) (uses s).
Definition spans_at (s : sys) (i : nat) (g : place) (c : ctx) : Prop := match ph g with Inside _ => 0 <= since c <= now s | _ => True end.

Theorem spans src fine progs s : runs_if fine (boot src progs) s -> Forall (fun u => 0 <= u_since u /\ u_since u <= u_until u /\ u_until u <= now s) (uses s).
Proof.
  intros R. assert (J : inv src spans_all spans_at s); [|apply J].
  eapply (inv_runs src fine spans_all spans_at); [| |exact R|apply inv_boot].
  - intros s0 s1 T _ [G0 G1]. destruct (tick_now _ _ T) as (N & _ & U & _). unfold spans_all. rewrite U, N. split; [split; [lia|]|].
    + eapply Forall_impl; [|exact G1]. cbn. intros; lia.
    + intros i g c K _. unfold spans_at in *. destruct (ph g); auto. lia.
  - intros i s0 g c g' c' s1 D [G0 G1] L1 A M. pose proof (did_now _ _ _ _ _ _ _ _ D) as N. split; [|split].
    + destruct D; try (split; assumption); (split; [exact G0|]); cbn [uses now]; apply Forall_app; (split; [exact G1|]);
        (constructor; [|constructor]); cbn in L1 |- *; lia.
    + destruct D; try exact Logic.I; cbn in L1 |- *; lia.
    + intros j gj cj _ K _. unfold spans_at in *. rewrite N. exact K.
  - split; [cbn; lia|constructor].
  - intros. exact Logic.I.
Qed.

Lemma Forall_nth {A} (P : A -> Prop) l i a : Forall P l -> nth_error l i = Some a -> P a.
Proof. intros F E. rewrite Forall_forall in F. apply F. eapply nth_error_In; eauto. Qed.

Theorem timer_ascending progs ms s : logs_only progs -> runs ms (boot Hardware progs) s -> now s < 2 ^ 32 -> ascending (uses s).
Proof.
  intros O R N i j a b Lt A B. pose proof (turns _ _ _ _ O R i j a b Lt A B) as T. pose proof (timer_values _ _ _ R) as V.
  pose proof (spans _ _ _ _ (runs_any _ _ _ R)) as S0. destruct (Forall_nth _ _ _ _ V A) as (ta & A1 & ->). destruct (Forall_nth _ _ _ _ V B) as (tb & B1 & ->).
  pose proof (Forall_nth _ _ _ _ S0 A) as SA. pose proof (Forall_nth _ _ _ _ S0 B) as SB. cbv beta in SA, SB. rewrite !Z.mod_small by lia. lia.
Qed.

Theorem extended_reads progs s : runs_if not_pending (boot Extended progs) s -> Forall (fun u => u_logged u = false -> true_time u) (uses s).
Proof.
  intros R. destruct (clock_inv false progs s R) as (_ & _ & _ & _ & F). eapply Forall_impl; [|exact F]. intros u K W. apply K. now left.
Qed.

Theorem extended_all progs s : runs_if not_masked (boot Extended progs) s -> Forall true_time (uses s).
Proof.
  intros R. destruct (clock_inv true progs s R) as (_ & _ & _ & _ & F). eapply Forall_impl; [|exact F]. intros u K. apply K. now right.
Qed.

Theorem extended_ascending progs s : logs_only progs -> runs_if not_masked (boot Extended progs) s -> ascending (uses s).
Proof.
  intros O R i j a b Lt A B. pose proof (turns_if _ _ _ _ O R i j a b Lt A B) as T. pose proof (extended_all _ _ R) as V.
  pose proof (Forall_nth _ _ _ _ V A) as [_ A1]. pose proof (Forall_nth _ _ _ _ V B) as [B1 _]. lia.
Qed.

(** Runs, step by step. *)
Fixpoint go (ms : list move) (s : sys) : option sys :=
  match ms with [] => Some s | m :: ms' => match step m s with Some s' => go ms' s' | None => None end end.

Lemma runs_front m ms s s' s'' : step m s = Some s' -> runs ms s' s'' -> runs (m :: ms) s s''.
Proof.
  intros X H. revert s X. induction H as [s'|ms m' s' s1 s2 H IH X']; intros s X.
  - apply (Run_step [] m s s s'); [constructor|exact X].
  - apply (Run_step (m :: ms) m' s s1 s2); auto.
Qed.

Lemma go_runs ms s s' : go ms s = Some s' -> runs ms s s'.
Proof.
  revert s. induction ms as [|m ms IH]; intros s E; cbn [go] in E; [injection E as <-; constructor|].
  destruct (step m s) as [s1|] eqn:X; [|discriminate E]. eapply runs_front; eauto.
Qed.

Lemma go_app ms ms' s s' : go ms s = Some s' -> go (ms ++ ms') s = go ms' s'.
Proof. revert s. induction ms as [|m ms IH]; intros s E; cbn [go app] in *; [now injection E as ->|]. destruct (step m s); [auto|discriminate E]. Qed.

Definition later (n : Z) (s : sys) : sys := MkSys (now s + n) (overflows s) (pending s) (owner s) (count s) (ctxs s) (uses s).

(** Time passes without a wrap-around. *)
Lemma go_ticks n s : 0 <= now s -> now s + Z.of_nat n < 2 ^ 64 -> (now s + Z.of_nat n) / 2 ^ 32 = now s / 2 ^ 32 -> go (repeat Tick n) s = Some (later (Z.of_nat n) s).
Proof.
  revert s. induction n as [|n IH]; intros s H0 H1 H2.
  - destruct s. cbn. unfold later. cbn. now rewrite Z.add_0_r.
  - cbn [repeat go step].
    assert (E : (now s + 1) / 2 ^ 32 = now s / 2 ^ 32).
    { pose proof (Z.div_le_mono (now s) (now s + 1) (2 ^ 32)). pose proof (Z.div_le_mono (now s + 1) (now s + Z.of_nat (S n)) (2 ^ 32)). lia. }
    assert (Tk : tick s = Some (later 1 s)).
    { unfold tick. cbv zeta. replace (2 ^ 64 <=? now s + 1) with false by (symmetry; apply Z.leb_gt; lia).
      replace ((now s + 1) mod 2 ^ 32 =? 0) with false; [reflexivity|]. symmetry. apply Z.eqb_neq. intros K. pose proof (tick_overflow _ H0 K). lia. }
    rewrite Tk, IH; cbn [later now]; try lia.
    + unfold later. cbn [now overflows pending owner count ctxs uses]. do 2 f_equal. lia.
Qed.

Definition wrong_moves : list move :=
  repeat Tick (Z.to_nat (2 ^ 32 - 1)) ++ repeat (Step 0) 9 ++ [Tick] ++ repeat (Step 0) 5.

Theorem extended_goes_back : exists ms s, runs ms (boot Extended [[Log; Log]]) s /\ now s = 2 ^ 32 /\ map u_value (uses s) = [2 ^ 32 - 1; 0].
Proof.
  exists wrong_moves. eexists. split.
  - apply go_runs. unfold wrong_moves. rewrite (go_app _ _ _ (later (2 ^ 32 - 1) (boot Extended [[Log; Log]]))).
    + vm_compute. reflexivity.
    + rewrite go_ticks; rewrite ?Z2Nat.id; try lia; reflexivity.
  - split; vm_compute; reflexivity.
Qed.

(** The loop ends after a round without a wrap-around. *)
Theorem round_ends s i rest t h l n1 n2 n3 :
  nth_error (ctxs s) i = Some (MkCtx (High1 :: Low :: High2 :: rest) t h l) -> may_run i (owner s) = true ->
  0 <= now s -> now s + Z.of_nat (n1 + n2 + n3) < 2 ^ 64 -> (now s + Z.of_nat (n1 + n2 + n3)) / 2 ^ 32 = now s / 2 ^ 32 ->
  exists s', go (repeat Tick n1 ++ [Step i] ++ repeat Tick n2 ++ [Step i] ++ repeat Tick n3 ++ [Step i]) s = Some s' /\
    nth_error (ctxs s') i = Some (MkCtx rest t (overflows s) ((now s + Z.of_nat (n1 + n2)) mod 2 ^ 32)).
Proof.
  intros N M H0 H1 H2.
  assert (Le : (i < length (ctxs s))%nat) by (apply nth_error_Some; congruence).
  assert (Mono : forall k, (k <= n1 + n2 + n3)%nat -> (now s + Z.of_nat k) / 2 ^ 32 = now s / 2 ^ 32).
  { intros k K. pose proof (Z.div_le_mono (now s) (now s + Z.of_nat k) (2 ^ 32)). pose proof (Z.div_le_mono (now s + Z.of_nat k) (now s + Z.of_nat (n1 + n2 + n3)) (2 ^ 32)). lia. }
  assert (Len : forall {A} k (x : A) q, length (upd k x q) = length q).
  { intros A k. induction k; intros x [|y q]; cbn; auto. }
  rewrite (go_app _ _ _ _ (go_ticks n1 s H0 ltac:(lia) (Mono n1 ltac:(lia)))).
  cbn [app go step]. unfold exec at 1. cbn [later owner ctxs]. rewrite M, N. cbn [negb].
  set (s1 := MkSys _ _ _ _ _ _ _).
  assert (T2 : go (repeat Tick n2) s1 = Some (later (Z.of_nat n2) s1)).
  { apply go_ticks; subst s1; cbn [now later]; pose proof (Mono n1 ltac:(lia)); pose proof (Mono (n1 + n2)%nat ltac:(lia)); lia. }
  rewrite (go_app _ _ _ _ T2). cbn [app go step]. unfold exec at 1. subst s1. cbn [later owner ctxs now overflows pending count uses].
  rewrite M, nth_upd, Nat.eqb_refl by exact Le. cbn [negb].
  set (s2 := MkSys _ _ _ _ _ _ _).
  assert (T3 : go (repeat Tick n3) s2 = Some (later (Z.of_nat n3) s2)).
  { apply go_ticks; subst s2; cbn [now later]; pose proof (Mono (n1 + n2)%nat ltac:(lia)); pose proof (Mono (n1 + n2 + n3)%nat ltac:(lia)); lia. }
  rewrite (go_app _ _ _ _ T3). cbn [app go step]. unfold exec at 1. subst s2. cbn [later owner ctxs now overflows pending count uses].
  rewrite M, nth_upd, Nat.eqb_refl by (rewrite Len; exact Le). cbn [negb]. rewrite Z.eqb_refl. eexists. split; [reflexivity|].
  cbn [ctxs]. rewrite nth_upd, Nat.eqb_refl by (rewrite !Len; exact Le). unfold timer. cbn [now later]. do 3 f_equal. lia.
Qed.
