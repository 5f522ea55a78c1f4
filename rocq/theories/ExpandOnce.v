(** No expression is evaluated more often than it is written; [dbg!]; frames and tasks. *)
From Verif Require Import Base Numerals ParserModel DecoderModel EncodeModel MacroModel ExpandModel ExpandSpec ExpandProofs ExpandMain.
From Verif Require LoggerModel.

Lemma evaluations_app : forall n a b, evaluations n (a ++ b) = (evaluations n a + evaluations n b)%nat.
Proof. induction a as [|e a IH]; intros b; [reflexivity|]. destruct e; cbn [app evaluations]; rewrite IH; lia. Qed.

Definition trace {world} (r : run (world := world)) : list event := fst (fst r).

Section Once.
  Context {world : Type}.
  Context (user : nat -> names -> world -> list LoggerModel.task * world * (value + leave)).
  Context (equal : value -> value -> world -> list LoggerModel.task * world * (bool + leave)).

  Section Stamp.
    Context (stamp : world -> run (world := world)) (n : nat) (NS : forall w, evaluations n (trace (stamp w)) = 0%nat).
    Notation exec := (exec user equal stamp).
    Notation count := (fun r : run (world := world) => evaluations n (trace r)).

    Lemma count_then : forall r f k m, (count r <= k)%nat -> (forall v w, count (f v w) <= m)%nat -> (count (andThen r f) <= k + m)%nat.
    Proof using All.
      intros [[evs w] [v|x|]] f k m R F; unfold trace in *; cbn [andThen fst] in *; try lia.
      specialize (F v w). destruct (f v w) as [[evs' w'] r']. cbn [fst] in *. rewrite evaluations_app. lia.
    Qed.

    Lemma count_header : forall p s w, count (header stamp p s w) = 0%nat.
    Proof using All.
      intros p s w. unfold header, trace. cbn [andThen]. pose proof (NS w) as H. unfold trace in H.
      destruct (stamp w) as [[evs w'] r]. cbn [fst] in *. exact H.
    Qed.

    Lemma once : forall c en w, (count (exec c en w) <= mentions n c)%nat.
    Proof using All.
      fix IH 1. intros c en w. destruct c; cbn [exec mentions]; try (unfold trace; cbn; lia).
      - destruct (user n0 en w) as [[ts w'] [v|x]]; unfold trace; cbn; lia.
      - apply IH.
      - apply IH.
      - replace (mentions n c) with (mentions n c + 0)%nat by lia. apply count_then; [apply IH|]. intros v w'. destruct v; unfold trace; cbn; lia.
      - apply count_then; [apply IH|]. intros v w'. replace (mentions n c2) with (mentions n c2 + 0)%nat by lia.
        apply count_then; [apply IH|]. intros v' w''. destruct (equal v v' w'') as [[ts w3] [b|x]]; unfold trace; cbn; lia.
      - destruct cs as [|c0 cs0]; [unfold trace; cbn; lia|].
        apply count_then; [apply IH|]. intros v0 w0. generalize (v0 :: []) as done. revert w0.
        induction cs0 as [|d ds IHds]; intros w0 done; [unfold trace; cbn; lia|].
        apply count_then; [apply IH|]. intros v w'. apply IHds.
      - apply count_then; [apply IH|]. intros v w'. induction arms as [|[p d] arms IHa]; [unfold trace; cbn; lia|].
        destruct (matches p v en) as [[en'|]|].
        + specialize (IH d en' w'). lia.
        + lia.
        + unfold trace; cbn; lia.
      - apply count_then; [apply IH|]. intros v w'. destruct v; try (unfold trace; cbn; lia). destruct b; [apply IH|unfold trace; cbn; lia].
      - apply count_then; [apply IH|]. intros v w'. apply IH.
      - apply count_then; [apply IH|]. intros v w'. apply IH.
      - replace (mentions n c) with (mentions n c + 0)%nat by lia. apply count_then; [apply IH|]. intros v w'. destruct v; try (unfold trace; cbn; lia).
        replace 0%nat with (0 + 0)%nat by lia. apply count_then; [rewrite count_header; lia|]. intros; unfold trace; cbn; lia.
      - replace (mentions n c) with (mentions n c + 0)%nat by lia. apply count_then; [apply IH|]. intros v w'. destruct v; try (unfold trace; cbn; lia).
        rewrite count_header. lia.
      - replace (mentions n c) with (mentions n c + 0)%nat by lia. apply count_then; [apply IH|]. intros v w'. destruct v; unfold trace; cbn; lia.
      - replace (mentions n c) with (mentions n c + 0)%nat by lia. apply count_then; [apply IH|]. intros v w'. destruct v; unfold trace; cbn; lia.
      - replace (mentions n c) with (mentions n c + 0)%nat by lia. apply count_then; [apply IH|]. intros v w'. destruct (into_result_value v); unfold trace; cbn; lia.
    Qed.
  End Stamp.

  (* ---------------------------------------------------------------- *)
  (** * How often the macros write an expression *)

  Lemma mentions_tuple : forall n cs, mentions n (CTuple cs) = mentions_all n cs.
  Proof using All. intros n cs. cbn [mentions]. induction cs as [|c cs IH]; [reflexivity|]. cbn [mentions_all fold_right]. now rewrite IH. Qed.

  Lemma mentions_parens : forall n cs, mentions n (parens cs) = mentions_all n cs.
  Proof using All. intros n [|c [|d cs]]; [reflexivity| |apply mentions_tuple]. cbn. lia. Qed.

  Lemma mentions_all_ref : forall n cs, mentions_all n (map CRef cs) = mentions_all n cs.
  Proof using All. intros n cs. unfold mentions_all. induction cs as [|c cs IH]; [reflexivity|]. cbn [map fold_right mentions]. now rewrite IH. Qed.

  Lemma mentions_all_app : forall n a b, mentions_all n (a ++ b) = (mentions_all n a + mentions_all n b)%nat.
  Proof using All. intros n a b. unfold mentions_all. induction a as [|c a IH]; [reflexivity|]. cbn [app fold_right]. rewrite IH. lia. Qed.

  Lemma mentions_seq : forall n cs last, mentions n (seq cs last) = (mentions_all n cs + mentions n last)%nat.
  Proof using All. intros n cs last. induction cs as [|c cs IH]; [reflexivity|]. cbn [seq mentions mentions_all fold_right]. rewrite IH. unfold mentions_all. lia. Qed.

  Lemma mentions_puts : forall n ps is, mentions_all n (map (fun i => CPut ps i (CName (arg_ident i))) is) = 0%nat.
  Proof using All. intros n ps is. unfold mentions_all. induction is as [|i is IH]; [reflexivity|]. cbn [map fold_right mentions]. exact IH. Qed.

  Lemma mentions_content : forall n p s ps is, mentions n (content (CIntern p s) (map (fun i => CPut ps i (CName (arg_ident i))) is)) = 0%nat.
  Proof using All.
    intros n p s ps is. pose proof (mentions_puts n ps is) as H. unfold content.
    destruct (map (fun i => CPut ps i (CName (arg_ident i))) is) as [|c cs] eqn:E; [reflexivity|].
    cbn [mentions]. rewrite mentions_seq. cbn [mentions]. lia.
  Qed.

  Lemma codegen_inv : forall frags given xs cs, codegen frags given = Some (xs, cs) ->
    exists is, cs = map (fun i => CPut (frag_parameters frags) i (CName (arg_ident i))) is.
  Proof using All. intros frags given xs cs H. unfold codegen in H. destruct (_ =? _); [|discriminate]. injection H as <- <-. eauto. Qed.

  Lemma mentions_log : forall n filter l a c, log_code filter l a = Some c -> mentions n c = mentions_all n (in_exprs a).
  Proof using All.
    intros n filter l a c H. unfold log_code in H. destruct (parse (in_format a) Strict) as [frags| | |]; try discriminate.
    destruct (codegen frags (length (in_exprs a))) as [[xs cs]|] eqn:G; [|discriminate]. destruct (codegen_inv _ _ _ _ G) as (is & ->).
    destruct (filter l); injection H as <-; cbn [mentions]; rewrite ?mentions_content, mentions_parens, mentions_all_ref; lia.
  Qed.

  Lemma mentions_println : forall n a c, println_code a = Some c -> mentions n c = mentions_all n (in_exprs a).
  Proof using All.
    intros n a c H. unfold println_code in H. destruct (parse (in_format a) Strict) as [frags| | |]; try discriminate.
    destruct (codegen frags (length (in_exprs a))) as [[xs cs]|] eqn:G; [|discriminate]. destruct (codegen_inv _ _ _ _ G) as (is & ->).
    injection H as <-. cbn [mentions]. rewrite mentions_content, mentions_parens, mentions_all_ref. lia.
  Qed.

  Lemma mentions_timestamp : forall n a c, timestamp_code a = Some c -> mentions n c = mentions_all n (in_exprs a).
  Proof using All.
    intros n a c H. unfold timestamp_code in H. destruct (parse (in_format a) Strict) as [frags| | |]; try discriminate.
    destruct (codegen frags (length (in_exprs a))) as [[xs cs]|] eqn:G; [|discriminate]. destruct (codegen_inv _ _ _ _ G) as (is & ->).
    injection H as <-. cbn [mentions]. rewrite mentions_seq, mentions_puts, mentions_parens, mentions_all_ref. cbn [mentions]. lia.
  Qed.

  Lemma mentions_write : forall n f a c, write_code f a = Some c -> mentions n c = (mentions n f + mentions_all n (in_exprs a))%nat.
  Proof using All.
    intros n f a c H. unfold write_code in H. destruct (parse (in_format a) Strict) as [frags| | |]; try discriminate.
    destruct (codegen frags (length (in_exprs a))) as [[xs cs]|] eqn:G; [|discriminate]. destruct (codegen_inv _ _ _ _ G) as (is & ->).
    injection H as <-. cbn [mentions]. rewrite mentions_seq, mentions_puts, mentions_parens, mentions_all_ref. cbn [mentions]. lia.
  Qed.

  Lemma mentions_fail : forall n filter a c, fail filter a = Some c -> mentions n c = mentions_all n (in_exprs a).
  Proof using All.
    intros n filter a c H. unfold fail in H. destruct (log_code filter LError a) as [d|] eqn:G; [|discriminate]. injection H as <-.
    cbn [mentions]. rewrite (mentions_log n _ _ _ _ G). lia.
  Qed.

  Lemma mentions_panic : forall n filter z tr args c, panic_like_code filter z tr args = Some c -> mentions n c = mentions_args n args.
  Proof using All. intros n filter z tr args c H. rewrite (mentions_fail n _ _ _ H). destruct args; reflexivity. Qed.

  Lemma mentions_assert : forall n filter text cond args c, assert_code filter text cond args = Some c ->
    mentions n c = (mentions n cond + mentions_args n args)%nat.
  Proof using All.
    intros n filter text cond args c H. unfold assert_code in H. destruct (fail filter _) as [d|] eqn:G; [|discriminate]. injection H as <-.
    cbn [mentions]. rewrite (mentions_fail n _ _ _ G). destruct args; reflexivity.
  Qed.

  Lemma mentions_unwrap : forall n filter text v args c, unwrap_code filter text v args = Some c ->
    mentions n c = (mentions n v + mentions_args n args)%nat.
  Proof using All.
    intros n filter text v args c H. unfold unwrap_code in H. destruct (fail filter _) as [d|] eqn:G; [|discriminate]. injection H as <-.
    cbn [mentions]. rewrite (mentions_fail n _ _ _ G). rewrite Nat.add_0_r, Nat.add_0_l. destruct args; reflexivity.
  Qed.

  Lemma mentions_binop : forall n filter op l r args c, binop_code filter op l r args = Some c ->
    mentions n c = (mentions n l + mentions n r + mentions_args n args)%nat.
  Proof using All.
    intros n filter op l r args c H. unfold binop_code in H. destruct (fail filter _) as [d|] eqn:G; [|discriminate]. injection H as <-.
    pose proof (mentions_fail n _ _ _ G) as M.
    assert (E : mentions n d = mentions_args n args).
    { rewrite M. destruct op, args; cbn [binop_invocation in_exprs mentions_args]; rewrite mentions_all_app; cbn; lia. }
    destruct op; cbn [mentions]; rewrite E; lia.
  Qed.

  Lemma mentions_dbg : forall n filter es c, dbg_code filter es = Some c -> mentions n c = mentions_all n (map snd es).
  Proof using All.
    intros n filter es c H. unfold dbg_code in H. destruct es as [|e es]; [exact (mentions_log n _ _ _ _ H)|].
    destruct (dbg_codes filter (e :: es)) as [cs|] eqn:G; [|discriminate]. injection H as <-. rewrite mentions_parens.
    revert cs G. generalize (e :: es) as l. induction l as [|[text d] l IH]; intros cs G; cbn [dbg_codes] in G; [injection G as <-; reflexivity|].
    destruct (dbg_one_code filter text d) as [c1|] eqn:O; [|discriminate]. destruct (dbg_codes filter l) as [r|]; [|discriminate]. injection G as <-.
    cbn [map snd mentions_all fold_right]. unfold mentions_all in IH. rewrite (IH r eq_refl). f_equal.
    unfold dbg_one_code in O. destruct (log_code _ _ _) as [c2|] eqn:L; [|discriminate]. injection O as <-. cbn [mentions].
    rewrite (mentions_log n _ _ _ _ L). cbn. lia.
  Qed.

  (** The timestamp evaluates only its own expressions. *)
  Lemma mentions_users : forall n ns, ~ In n ns -> mentions_all n (map CUser ns) = 0%nat.
  Proof using All.
    intros n ns H. unfold mentions_all. induction ns as [|m ns IH]; [reflexivity|]. cbn [map fold_right mentions].
    destruct (Nat.eqb_spec m n) as [->|_]; [exfalso; apply H; now left|]. rewrite IH; [reflexivity|]. intros X. apply H. now right.
  Qed.

  Lemma stamp_silent : forall items tm n, ~ In n (message_exprs tm) ->
    forall w, evaluations n (trace (stamp_function user equal items (stamp_code tm) w)) = 0%nat.
  Proof using All.
    intros items tm n H w. unfold stamp_function. destruct (stamp_code tm) as [c|] eqn:E; [|reflexivity].
    destruct tm as [[s ns]|]; [|discriminate]. cbn [stamp_code message_exprs] in *.
    assert (L : (evaluations n (trace (exec user equal no_stamp c (stamp_names items) w)) <= 0)%nat).
    { rewrite <- (mentions_users n ns H). change (map CUser ns) with (in_exprs (invoke s ns)). rewrite <- (mentions_timestamp n _ _ E).
      apply once. intros w'. reflexivity. }
    destruct (exec user equal no_stamp c (stamp_names items) w) as [[evs w'] [v|[|]|]]; unfold trace in *; cbn [fst] in *; lia.
  Qed.

  Theorem at_most_written : forall items tm n c k en w evs w' r, expansion n c k -> ~ In n (message_exprs tm) ->
    does user equal items tm c en w evs w' r -> (evaluations n evs <= k)%nat.
  Proof using All.
    intros items tm n c k en w evs w' r X H (c' & E & Q).
    assert (L : (evaluations n evs <= mentions n c')%nat).
    { pose proof (once (stamp_function user equal items (stamp_code tm)) n (stamp_silent items tm n H) c' en w) as O.
      unfold execute in Q. rewrite Q in O. exact O. }
    clear Q. enough (M : mentions n c' = k) by now rewrite M in L. clear L. revert c' E. induction X; intros c' E; try now eauto using mentions_log, mentions_println.
    - exact (mentions_write _ _ _ _ E).
    - exact (mentions_panic _ _ _ _ _ _ E).
    - exact (mentions_assert _ _ _ _ _ _ E).
    - exact (mentions_unwrap _ _ _ _ _ _ E).
    - exact (mentions_binop _ _ _ _ _ _ _ E).
    - exact (mentions_dbg _ _ _ _ E).
    - destruct c as [c|]; [|discriminate]. injection E as <-. exact (IHX c eq_refl).
  Qed.
End Once.
