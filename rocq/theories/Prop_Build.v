(** C71.  What the build scripts hand to the compiler and the linker. *)
From Verif Require Import Base ParserModel ParserProofs RttModel RttProofs RttLive RttExamples LinkModel BuildModel BuildProofs.

(** A value of [DEFMT_RTT_BUFFER_SIZE] builds, with that size, exactly when it is a
    decimal numeral (a plus sign may come first) of a number a host and a target
    [usize] can hold; without it, and also when it is not Unicode, the size is 1024. *)
Theorem C71_buffer_size : forall bits v n, rtt_build bits v = Some n <->
  (((v = VAbsent \/ v = VNotUnicode) /\ n = 1024) \/ (exists s, v = VText s /\ numeral s n /\ n < 2 ^ 64)) /\
  n < 2 ^ bits.
Proof. intros bits v n. rewrite rtt_build_iff, rtt_size_iff. reflexivity. Qed.
Print Assumptions C71_buffer_size.

(** The generated source says the size the script has read. *)
Theorem C71_constant : forall bits n, 0 <= n < 2 ^ bits -> rustc_const bits (rtt_consts n) = Some n.
Proof.
  intros bits n H. rewrite rustc_reads by lia. destruct (Z.leb_spec n (2 ^ bits - 1)); [reflexivity|lia].
Qed.
Print Assumptions C71_constant.

(** Sizes for which the channel does not work are accepted: 0 (the device faults on
    its first byte) and 1 (nothing is ever delivered). *)
Theorem C71_small_sizes_refuted :
  (rtt_build 32 (VText (lit "0")) = Some 0 /\
   forall nonblocking, exists s s', r_mem s = [] /\ r_dev s = DNext /\ r_ops s = [OWrite [1]] /\
     s' = Nat.iter 10 (dev_step 0 nonblocking) s /\ r_dev s' = DFault) /\
  (rtt_build 32 (VText (lit "1")) = Some 1 /\
   forall s ops s', start 1 s ops -> r_connected s = true -> steps 1 false s s' -> r_delivered s' = []).
Proof.
  split; (split; [reflexivity|]).
  - intros nb. destruct (size_zero_faults nb) as (s & s' & A & _ & _ & B & C & D & E). exists s, s'. auto.
  - exact size_one_blocks.
Qed.
Print Assumptions C71_small_sizes_refuted.

(** Any other accepted size gives a channel that delivers everything. *)
Theorem C71_channel_works : forall bits v n, rtt_build bits v = Some n -> n <> 0 -> n <> 1 ->
  forall run ops, fair_run n run ops ->
  exists i, r_dev (run i) = DNext /\ r_ops (run i) = [] /\ r_delivered (run i) = data ops.
Proof.
  intros bits v n H N0 N1. apply all_delivered. apply rtt_build_iff in H. destruct H as [H _].
  pose proof (rtt_size_range v n H). lia.
Qed.
Print Assumptions C71_channel_works.

(** [panic-probe] builds exactly for the Cortex-M architectures, and there
    [hard_fault] disables the usage fault exactly where there is one. *)
Theorem C71_probe_targets : forall arch rest, ~ In 45 arch ->
  (probe_compiles (arch ++ 45 :: rest) = true <-> is_cortex_m arch) /\
  (is_cortex_m arch -> (probe_usage_fault (arch ++ 45 :: rest) = true <-> has_usage_fault arch)).
Proof. exact probe_targets. Qed.
Print Assumptions C71_probe_targets.

(** [defmt-itm] says it cannot be used on Cortex-M0, which has no ITM, but its
    check never fires. *)
Theorem C71_itm_refuted : exists target, cfg_set "armv6m" (probe_cfgs target) = true /\ itm_compiles target = true.
Proof. exists (lit "thumbv6m-none-eabi"). split; reflexivity. Qed.
Print Assumptions C71_itm_refuted.

(** [avoid-default-panic] takes the first occurrence of the line out, and nothing
    else, whatever the script. *)
Theorem C71_line_removed : forall from s, from <> [] ->
  (exists a b, s = a ++ from ++ b /\ remove_first from s = a ++ b /\
     forall a' b', s = a' ++ from ++ b' -> (length a <= length a')%nat) \/
  ((forall a b, s <> a ++ from ++ b) /\ remove_first from s = s).
Proof. exact remove_first_spec. Qed.
Print Assumptions C71_line_removed.

(** The text of the linker script, after [build.rs], says what [LinkModel] (the claims
    about linking) works with: the input sections in this order, the addresses from 1,
    the section not loaded, the limit, and the provided symbols. *)
Theorem C71_script : forall ft, exists before after,
  read_script (built_script ft script_file) =
    Some (before ++ LSections (lit ".defmt") 1 (lit "INFO") (LSet 1 :: map written script) :: after) /\
  after = [LAssert end_marker 65534 (lit ".defmt section cannot contain more than 65534 interned strings")] /\
  (forall name, provide (before ++ after) name = provided ft name) /\
  (forall name, In (LExtern name) (before ++ after) <->
     In name [lit "_defmt_acquire"; lit "_defmt_release"; lit "__defmt_default_timestamp";
              lit "__DEFMT_MARKER_TIMESTAMP_WAS_DEFINED"]).
Proof.
  intros ft.
  exists (firstn (if feat_avoid_default_panic ft then 5 else 6) (full_script ft)),
    [LAssert end_marker 65534 (lit ".defmt section cannot contain more than 65534 interned strings")].
  split; [rewrite script_read; destruct ft as [r z []]; reflexivity|]. split; [reflexivity|]. split.
  - intros name. rewrite <- script_provides. destruct ft as [r z []]; reflexivity.
  - intros name. destruct ft as [r z []];
      unfold full_script; cbn [feat_avoid_default_panic app firstn In]; split; intros H;
      repeat match goal with H : _ \/ _ |- _ => destruct H as [H|H] end; try contradiction; try discriminate;
      try (injection H as <-); try subst name; auto 12.
Qed.
Print Assumptions C71_script.

Example C71_sizes : map (rtt_build 32)
  [VAbsent; VText (lit "4096"); VText (lit "+64"); VText (lit "0064"); VText (lit ""); VText (lit "+");
   VText (lit "-1"); VText (lit "64 "); VText (lit "0x40"); VText (lit "4294967296"); VNotUnicode] =
  [Some 1024; Some 4096; Some 64; Some 64; None; None; None; None; None; None; Some 1024].
Proof. vm_compute. reflexivity. Qed.

Example C71_targets : map (fun t => (probe_compiles (lit t), probe_usage_fault (lit t)))
  ["thumbv6m-none-eabi"; "thumbv7em-none-eabihf"; "thumbv8m.base-none-eabi"; "thumbv8m.main-none-eabihf";
   "riscv32imc-unknown-none-elf"; "x86_64-unknown-linux-gnu"]%string =
  [(true, false); (true, true); (true, false); (true, true); (false, true); (false, true)].
Proof. vm_compute. reflexivity. Qed.

(** With [alloc], defmt compiles for every target if the list of [build.rs] has those without compare-and-swap, and
    [Arc] can be logged exactly on the others. *)
Theorem C71_arc : forall has_cas, (forall target, has_cas target = false -> In target no_cas_targets) -> forall target,
  alloc_compiles has_cas target = true /\ (has_cas target = false -> arc_formats target = false) /\ (arc_formats target = true <-> ~ In target no_cas_targets).
Proof.
  intros has_cas H target. assert (E : no_cas target = true <-> In target no_cas_targets).
  { unfold no_cas. rewrite existsb_exists. split; [intros (x & I & X); apply beq_true in X; now subst|intros I; exists target; split; auto; apply beq_refl]. }
  unfold alloc_compiles, arc_formats. rewrite negb_involutive. split; [|split].
  - destruct (has_cas target) eqn:C; [now rewrite orb_true_r|]. apply H in C. apply E in C. now rewrite C.
  - intros C. apply H, E in C. now rewrite C.
  - rewrite <- E. destruct (no_cas target); cbn [negb]; split; congruence.
Qed.
Print Assumptions C71_arc.

(** It does not compile for a target that has no compare-and-swap and is not in the list.  Such a target is
    riscv32im-unknown-none-elf, which rustc has since version 1.75: defmt needs 1.76. *)
Theorem C71_arc_refuted : forall has_cas, has_cas (lit "riscv32im-unknown-none-elf") = false -> alloc_compiles has_cas (lit "riscv32im-unknown-none-elf") = false.
Proof. intros has_cas H. unfold alloc_compiles. rewrite H. reflexivity. Qed.
Print Assumptions C71_arc_refuted.

(** The targets of the tests. *)
Example C71_arc_ex : map (fun t => arc_formats (lit t)) ["thumbv6m-none-eabi"; "thumbv8m.base-none-eabi"; "riscv32i-unknown-none-elf"; "thumbv7em-none-eabihf"]%string =
  [false; true; false; true].
Proof. reflexivity. Qed.
