(** How the host programs end, for every table and every stream (C57, C58). *)
From Verif Require Import Base RzcobsModel ParserModel DecoderModel DecoderPanic StreamModel StreamSpec StreamProofs
  DisplayModel HostModel HostSpec HostProofs.

Lemma turn_success : forall s t buf r, snd (turn s t buf r) = Finished true -> s = Stdin /\ r = Ok [].
Proof.
  intros s t buf r. unfold turn. destruct r as [c0| | |]; try discriminate.
  destruct s; cbn [source_read]; try (destruct (drain _ _ _ _) as [evs []]; discriminate).
  destruct c0 as [|c c0]; [auto|]. destruct (drain _ _ _ _) as [evs []]; discriminate.
Qed.

Lemma run_success : forall watch json s hs file d, d <> Finished true ->
  snd (run_print watch json s file d hs) = Finished true -> watch = false /\ s = Stdin /\ In (Read (Ok [])) hs.
Proof.
  intros watch json s. induction hs as [|h hs IH]; intros file d D H; (destruct d as [t buf|ok|]; [|contradiction|discriminate]).
  - discriminate.
  - cbn [run_print] in H. destruct h as [r|e].
    + destruct (turn s t buf r) as [out d1] eqn:T. destruct d1 as [t1 b1|[]|].
      * destruct (run_print _ _ _ _ _ hs) as [rest d3] eqn:R. cbn [snd] in H. subst d3.
        destruct (IH file (Running t1 b1)) as (W & E & I); [discriminate|now rewrite R|]. repeat split; auto. now right.
      * pose proof (turn_success s t buf r) as S. rewrite T in S. destruct (S eq_refl) as [-> ->]. destruct watch.
        -- destruct file as [t'|]; cbn [begin] in H; destruct (run_print _ _ _ _ _ hs) as [rest d3] eqn:R; cbn [snd] in H; subst d3.
           ++ destruct (IH (Loads t') (Running t' [])) as (W & E & I); [discriminate|now rewrite R|]. repeat split; auto. now right.
           ++ destruct (IH Unusable (Finished false)) as (W & E & I); [discriminate|now rewrite R|]. repeat split; auto. now right.
        -- repeat split; auto. now left.
      * destruct (run_print _ _ _ _ _ hs) as [rest d3] eqn:R. cbn [snd] in H. subst d3.
        destruct (IH file (Finished false)) as (W & E & I); [discriminate|now rewrite R|]. repeat split; auto. now right.
      * destruct (run_print _ _ _ _ _ hs) as [rest d3] eqn:R. cbn [snd] in H. subst d3.
        destruct (IH file Crashed) as (W & E & I); [discriminate|now rewrite R|]. repeat split; auto. now right.
    + destruct watch; [destruct e as [t'|]; cbn [begin] in H|]; destruct (run_print _ _ _ _ _ hs) as [rest d3] eqn:R; cbn [snd] in H; subst d3.
      * destruct (IH (Loads t') (Running t' [])) as (W & E & I); [discriminate|now rewrite R|]. discriminate.
      * destruct (IH Unusable (Finished false)) as (W & E & I); [discriminate|now rewrite R|]. discriminate.
      * destruct (IH e (Running t buf)) as (W & E & I); [discriminate|now rewrite R|]. repeat split; auto. now right.
Qed.

(** defmt-print reports success in one situation only. *)
Theorem print_success : forall watch json s file hs, snd (defmt_print watch json s file hs) = Finished true ->
  watch = false /\ s = Stdin /\ In (Read (Ok [])) hs.
Proof.
  intros watch json s file hs H. unfold defmt_print in H. destruct file as [t|]; cbn [begin] in H;
    destruct (run_print _ _ _ _ _ hs) as [rest d3] eqn:R; cbn [snd] in H; subst d3.
  - apply (run_success watch json s hs (Loads t) (Running t [])); [discriminate|now rewrite R].
  - apply (run_success watch json s hs Unusable (Finished false)); [discriminate|now rewrite R].
Qed.

(** A closed connection after readable frames leaves the program running. *)
Theorem closed_runs : forall watch json s p n, s <> Stdin -> phase_fine (MkPhase (ph_table p) [concat (ph_chunks p)] (ph_events p)) ->
  exists buf, defmt_print watch json s (Loads (ph_table p)) (reads (ph_chunks p) ++ closed n) =
    (phase_shown json p, Running (ph_table p) buf).
Proof.
  intros watch json s p n S [rest E]. cbn [ph_table ph_chunks ph_events] in E. exists rest. rewrite closed_run by exact S.
  rewrite E. reflexivity.
Qed.

(** QEMU killed by any signal. *)
Theorem qemu_killed_any : forall X t fs frs ls pieces last n rest, table_safe t -> Forall2 (frame_decodes t) fs frs ->
  sent t fs (qemu_output pieces last rest) -> Forall2 (line_of X t) frs ls ->
  qemu_run X t (qemu_turns pieces last (Signal n) rest) = (ls, Some 0).
Proof. intros X t fs frs ls pieces last n rest. exact (qemu_frames X t fs frs ls pieces last (Signal n) rest). Qed.

Theorem schema_each_time : forall p n, phase_fine p -> Forall some_bytes (ph_chunks p) ->
  exists buf, defmt_print true true Stdin (Loads (ph_table p)) (reads (ph_chunks p) ++ closed n) =
    (phase_shown true p ++ repeat Schema n, Running (ph_table p) buf).
Proof.
  intros p n F S. destruct (stdin_watch_run true p n F S) as (buf & E). exists buf. rewrite E. f_equal. f_equal.
  clear. unfold closed. induction n as [|n IH]; [reflexivity|]. cbn [repeat flat_map schema app]. f_equal. exact IH.
Qed.
