From Verif Require Import Base Numerals ParserModel DecoderModel EncodeModel MacroModel ExpandModel ExpandSpec.
From Verif Require LoggerModel.

(* ------------------------------------------------------------------ *)
(** * Names *)

Lemma arg_ident_inj : forall i j, 0 <= i -> 0 <= j -> arg_ident i = arg_ident j -> i = j.
Proof.
  intros i j Hi Hj E. unfold arg_ident in E. apply app_inv_head in E.
  rewrite <- (dec_str_value i Hi), <- (dec_str_value j Hj). now rewrite E.
Qed.

Lemma bind_same : forall en x v, bind en x v x = Some v.
Proof. intros. unfold bind. now rewrite beq_refl. Qed.

Lemma bind_other : forall en x v y, x <> y -> bind en x v y = en y.
Proof. intros en x v y H. unfold bind. destruct (beq x y) eqn:E; [apply beq_true in E; contradiction|reflexivity]. Qed.

Definition idents (i : nat) (n : nat) : list bytes := map arg_ident (map Z.of_nat (List.seq i n)).

Lemma bind_all_ok : forall vs en i, exists en', bind_all en (idents i (length vs)) vs = Some en' /\
  (forall k v, nth_error vs k = Some v -> en' (arg_ident (Z.of_nat (i + k))) = Some v) /\
  (forall x, (forall k, (i <= k)%nat -> x <> arg_ident (Z.of_nat k)) -> en' x = en x).
Proof.
  induction vs as [|v vs IH]; intros en i.
  - exists en. split; [reflexivity|]. split; [|auto]. intros [|k] v; discriminate.
  - unfold idents. cbn [length List.seq map bind_all]. fold (idents (S i) (length vs)).
    destruct (IH (bind en (arg_ident (Z.of_nat i)) v) (S i)) as (en' & E & L & F). exists en'. split; [exact E|]. split.
    + intros [|k] u H.
      * injection H as <-. rewrite Nat.add_0_r. rewrite F, bind_same; [reflexivity|].
        intros k Hk Q. apply arg_ident_inj in Q; lia.
      * cbn in H. replace (i + S k)%nat with (S i + k)%nat by lia. now apply L.
    + intros x Hx. rewrite F by (intros k Hk; apply Hx; lia). apply bind_other. intros Q. apply (Hx i); auto.
Qed.

(** The value of a parenthesised list. *)
Definition tuple_value (vs : list value) : value := match vs with [] => VoUnit | [v] => v | _ => VoTuple vs end.

Lemma matches_tuple : forall xs vs en en', length xs = length vs -> bind_all en xs vs = Some en' ->
  matches (parens_pattern xs) (tuple_value vs) en = Some (Some en').
Proof.
  intros [|x [|x' xs]] [|v [|v' vs]] en en' HL HB; try discriminate; cbn [parens_pattern tuple_value matches].
  - injection HB as <-. reflexivity.
  - injection HB as <-. reflexivity.
  - rewrite HB. reflexivity.
Qed.

Section Exec.
  Context {world : Type}.
  Context (user : nat -> names -> world -> list LoggerModel.task * world * (value + leave)).
  Context (equal : value -> value -> world -> list LoggerModel.task * world * (bool + leave)).
  Context (stamp : world -> run (world := world)).

  Notation exec := (exec user equal stamp).

  (* ---------------------------------------------------------------- *)
  (** * Arguments *)

  Definition exec_all (en : names) : list code -> list value -> world -> run :=
    fix all (cs : list code) (done : list value) (w : world) : run :=
      match cs with
      | [] => ([], w, Val (VoTuple (rev done)))
      | c :: cs' => andThen (exec c en w) (fun v w => all cs' (v :: done) w)
      end.

  Lemma exec_tuple : forall c cs en w, exec (CTuple (c :: cs)) en w = exec_all en (c :: cs) [] w.
  Proof. reflexivity. Qed.

  Inductive arg_runs (en : names) : list code -> world -> list event -> world -> list value -> Prop :=
  | AR_nil w : arg_runs en [] w [] w []
  | AR_cons c cs w e1 w1 v e2 w2 vs : exec c en w = (e1, w1, Val v) -> arg_runs en cs w1 e2 w2 vs ->
      arg_runs en (c :: cs) w (e1 ++ e2) w2 (v :: vs).

  Inductive arg_stops (en : names) : list code -> world -> list event -> world -> leave -> Prop :=
  | AS_here c cs w e1 w1 x : exec c en w = (e1, w1, Exit x) -> arg_stops en (c :: cs) w e1 w1 x
  | AS_later c cs w e1 w1 v e2 w2 x : exec c en w = (e1, w1, Val v) -> arg_stops en cs w1 e2 w2 x ->
      arg_stops en (c :: cs) w (e1 ++ e2) w2 x.

  Lemma exec_all_runs : forall en cs w evs w' vs, arg_runs en cs w evs w' vs -> forall done,
    exec_all en (map CRef cs) done w = (evs, w', Val (VoTuple (rev done ++ vs))).
  Proof using.
    induction 1 as [w|c cs w e1 w1 v e2 w2 vs E R IH]; intros done.
    - cbn. now rewrite app_nil_r.
    - cbn [map exec_all]. change (exec (CRef c) en w) with (exec c en w). rewrite E. cbn [andThen].
      rewrite (IH (v :: done)). cbn [rev]. now rewrite <- app_assoc.
  Qed.

  Lemma exec_all_stops : forall en cs w evs w' x, arg_stops en cs w evs w' x -> forall done,
    exec_all en (map CRef cs) done w = (evs, w', Exit x).
  Proof using.
    induction 1 as [c cs w e1 w1 x E|c cs w e1 w1 v e2 w2 x E R IH]; intros done; cbn [map exec_all];
      change (exec (CRef c) en w) with (exec c en w); rewrite E; cbn [andThen]; [reflexivity|].
    now rewrite (IH (v :: done)).
  Qed.

  Lemma parens_runs : forall en cs w evs w' vs, arg_runs en cs w evs w' vs ->
    exec (parens (map CRef cs)) en w = (evs, w', Val (tuple_value vs)).
  Proof using.
    intros en cs w evs w' vs R. destruct R as [w|c cs w e1 w1 v e2 w2 vs E R]; [reflexivity|].
    destruct R as [w1|d cs w1 e2 w2 u e3 w3 vs E' R].
    - cbn [map parens]. change (exec (CRef c) en w) with (exec c en w). rewrite E, app_nil_r. reflexivity.
    - cbn [map parens]. rewrite exec_tuple.
      change (CRef c :: CRef d :: map CRef cs) with (map CRef (c :: d :: cs)).
      erewrite exec_all_runs; [cbn [rev app tuple_value]; reflexivity|]. econstructor; [exact E|]. econstructor; eassumption.
  Qed.

  Lemma parens_stops : forall en cs w evs w' x, arg_stops en cs w evs w' x ->
    exec (parens (map CRef cs)) en w = (evs, w', Exit x).
  Proof using.
    intros en cs w evs w' x R. destruct cs as [|c [|d cs]]; [inversion R| |].
    - cbn [map parens]. change (exec (CRef c) en w) with (exec c en w). inversion R; subst; [assumption|]. match goal with H : arg_stops _ [] _ _ _ _ |- _ => inversion H end.
    - cbn [map parens]. rewrite exec_tuple. change (CRef c :: CRef d :: map CRef cs) with (map CRef (c :: d :: cs)).
      now apply exec_all_stops.
  Qed.

  Lemma evaluated_runs : forall en ns w evs w' vs, evaluated user en ns w evs w' vs ->
    arg_runs en (map CUser ns) w evs w' (map VoArg vs).
  Proof using.
    induction 1 as [w|n ns w ts w1 a evs w2 vs E R IH]; cbn [map]; [constructor|].
    change (EExpr n ts :: evs) with ([EExpr n ts] ++ evs). econstructor; [|exact IH]. cbn [ExpandModel.exec]. now rewrite E.
  Qed.

  Lemma interrupted_stops : forall en ns w evs w' x, interrupted user en ns w evs w' x ->
    arg_stops en (map CUser ns) w evs w' x.
  Proof using.
    induction 1 as [n ns w ts w1 x E|n ns w ts w1 a evs w2 x E R IH]; cbn [map].
    - apply AS_here. cbn [ExpandModel.exec]. now rewrite E.
    - change (EExpr n ts :: evs) with ([EExpr n ts] ++ evs). eapply AS_later; [|exact IH]. cbn [ExpandModel.exec]. now rewrite E.
  Qed.

  Lemma arg_runs_app : forall en cs w e1 w1 vs, arg_runs en cs w e1 w1 vs -> forall ds e2 w2 us, arg_runs en ds w1 e2 w2 us ->
    arg_runs en (cs ++ ds) w (e1 ++ e2) w2 (vs ++ us).
  Proof using.
    induction 1 as [w|c cs w e1 w1 v e2 w2 vs E R IH]; intros ds e3 w3 us R'; [exact R'|].
    cbn [app]. rewrite <- app_assoc. econstructor; [exact E|]. now apply IH.
  Qed.

  Lemma arg_stops_app : forall en cs w e1 w1 x, arg_stops en cs w e1 w1 x -> forall ds, arg_stops en (cs ++ ds) w e1 w1 x.
  Proof using. induction 1; intros ds; cbn [app]; [now apply AS_here|eapply AS_later; eauto]. Qed.

  (* ---------------------------------------------------------------- *)
  (** * Writing the arguments *)

  Lemma mapi_app : forall {B C} (g : Z -> B -> C) l i m, mapi g i (l ++ m) = mapi g i l ++ mapi g (i + Z.of_nat (length l)) m.
  Proof using.
    induction l as [|b l IH]; intros i m; cbn [app mapi length]; [f_equal; lia|].
    rewrite IH. do 3 f_equal. lia.
  Qed.

  Lemma seq_puts : forall ps en last vs i w,
    (forall k v, nth_error vs k = Some v -> en (arg_ident (Z.of_nat (i + k))) = Some (VoArg v)) ->
    exec (seq (map (fun j => CPut ps j (CName (arg_ident j))) (map Z.of_nat (List.seq i (length vs)))) last) en w =
    (let '(evs, w', r) := exec last en w in (mapi (EPut ps) (Z.of_nat i) vs ++ evs, w', r)).
  Proof using.
    intros ps en last vs. induction vs as [|v vs IH]; intros i w H.
    - cbn [length List.seq map seq mapi app]. now destruct (exec last en w) as [[evs w'] r].
    - cbn [length List.seq map seq]. cbn [ExpandModel.exec]. pose proof (H 0%nat v eq_refl) as H0. rewrite Nat.add_0_r in H0. rewrite H0.
      cbn [andThen]. cbn [app]. rewrite IH.
      + destruct (exec last en w) as [[evs w'] r]. cbn [mapi app]. replace (Z.of_nat i + 1) with (Z.of_nat (S i)) by lia. reflexivity.
      + intros k u Hk. replace (S i + k)%nat with (i + S k)%nat by lia. now apply H.
  Qed.

  (** The content of a log statement. *)
  Lemma content_runs : forall p s ps en vs w,
    (forall k v, nth_error vs k = Some v -> en (arg_ident (Z.of_nat k)) = Some (VoArg v)) ->
    exec (content (CIntern p s) (map (fun j => CPut ps j (CName (arg_ident j))) (arg_numbers (length vs)))) en w =
    match stamp w with
    | (tevs, w', Val _) => (EAcquire :: EHeader p s :: tevs ++ mapi (EPut ps) 0 vs ++ [ERelease], w', Val VoUnit)
    | (tevs, w', r) => (EAcquire :: EHeader p s :: tevs, w', r)
    end.
  Proof using.
    intros p s ps en vs w H. destruct vs as [|v vs].
    - cbn. now destruct (stamp w) as [[tevs w'] [v|x|]].
    - unfold arg_numbers. cbn [length List.seq map content].
      change (CPut ps (Z.of_nat 0) (CName (arg_ident (Z.of_nat 0))) :: map (fun j => CPut ps j (CName (arg_ident j))) (map Z.of_nat (List.seq 1 (length vs))))
        with (map (fun j => CPut ps j (CName (arg_ident j))) (map Z.of_nat (List.seq 0 (length (v :: vs))))).
      remember (v :: vs) as us. cbn [ExpandModel.exec andThen header]. destruct (stamp w) as [[tevs w'] [u|x|]]; cbn [andThen app]; [|reflexivity|reflexivity].
      rewrite seq_puts by exact H. cbn [ExpandModel.exec]. reflexivity.
  Qed.

  (* ---------------------------------------------------------------- *)
  (** * Code around the arguments *)

  Definition log_arm (check : bool) (p : purpose) (s : bytes) (exprs : list code) : code :=
    CIf (CBool check) (content (CIntern p s) exprs).

  (** An arm with the arguments bound. *)
  Lemma match_args : forall cs body en w evs w' vs, arg_runs en cs w evs w' (map VoArg vs) ->
    exists en', (forall k v, nth_error vs k = Some v -> en' (arg_ident (Z.of_nat k)) = Some (VoArg v)) /\
    exec (CMatch (parens (map CRef cs)) [(parens_pattern (map arg_ident (arg_numbers (length vs))), body)]) en w =
    (let '(e2, w2, r) := exec body en' w' in (evs ++ e2, w2, r)).
  Proof using.
    intros cs body en w evs w' vs R. destruct (bind_all_ok (map VoArg vs) en 0) as (en' & B & L & _).
    exists en'. split. { intros k v Hk. apply (L k). now apply map_nth_error. }
    cbn [ExpandModel.exec]. rewrite (parens_runs _ _ _ _ _ _ R). cbn [andThen]. rewrite map_length in B.
    rewrite (matches_tuple _ (map VoArg vs) en en'); [reflexivity| |exact B].
    unfold arg_numbers. now rewrite !map_length, seq_length.
  Qed.

  Lemma match_stops : forall cs arms en w evs w' x, arg_stops en cs w evs w' x ->
    exec (CMatch (parens (map CRef cs)) arms) en w = (evs, w', Exit x).
  Proof using.
    intros cs arms en w evs w' x R. cbn [ExpandModel.exec]. rewrite (parens_stops _ _ _ _ _ _ R). reflexivity.
  Qed.

  Lemma arg_runs_length : forall en cs w evs w' vs, arg_runs en cs w evs w' vs -> length cs = length vs.
  Proof using. induction 1; cbn; lia. Qed.

  Lemma log_code_inv : forall filter l a c, log_code filter l a = Some c -> accepts (in_format a) (length (in_exprs a)).
  Proof using.
    intros filter l a c H. unfold log_code in H. destruct (parse (in_format a) Strict) as [frags| | |] eqn:P; try discriminate.
    unfold codegen in H. destruct (expected_arg_count frags =? Z.of_nat (length (in_exprs a))) eqn:E; [|discriminate].
    exists frags. split; [exact P|lia].
  Qed.

  Lemma log_code_some : forall filter l a, accepts (in_format a) (length (in_exprs a)) -> exists c, log_code filter l a = Some c.
  Proof using.
    intros filter l a (frags & P & E). unfold log_code. rewrite P. unfold codegen.
    replace (expected_arg_count frags =? Z.of_nat (length (in_exprs a))) with true by lia. eauto.
  Qed.

  (** A log statement, for any argument code. *)
  Lemma log_runs : forall filter l a c en w evs w1 vs, log_code filter l a = Some c -> arg_runs en (in_exprs a) w evs w1 (map VoArg vs) ->
    exec c en w =
    match filter l with
    | Some true =>
        match stamp w1 with
        | (tevs, w2, Val _) => (evs ++ frame (ForLevel l) (in_format a) tevs vs, w2, Val VoUnit)
        | (tevs, w2, r) => (evs ++ EAcquire :: EHeader (ForLevel l) (in_format a) :: tevs, w2, r)
        end
    | _ => (evs, w1, Val VoUnit)
    end.
  Proof using.
    intros filter l a c en w evs w1 vs H R. unfold log_code in H. destruct (parse (in_format a) Strict) as [frags| | |] eqn:P; try discriminate.
    unfold codegen in H. destruct (expected_arg_count frags =? Z.of_nat (length (in_exprs a))) eqn:E; [|discriminate].
    pose proof (arg_runs_length _ _ _ _ _ _ R) as HL. rewrite map_length in HL. rewrite HL in H.
    destruct (filter l) as [check|] eqn:F; injection H as <-.
    - destruct (match_args (in_exprs a) (CIf (CBool check) (content (CIntern (ForLevel l) (in_format a))
        (map (fun i => CPut (frag_parameters frags) i (CName (arg_ident i))) (arg_numbers (length vs))))) en w evs w1 vs R) as (en' & L & Q).
      rewrite Q. cbn [ExpandModel.exec andThen]. destruct check.
      + rewrite content_runs by exact L. unfold frame, puts. rewrite P. destruct (stamp w1) as [[tevs w2] [v|x|]]; reflexivity.
      + cbn [app]. now rewrite app_nil_r.
    - cbn [ExpandModel.exec]. rewrite (parens_runs _ _ _ _ _ _ R). cbn [andThen matches]. now rewrite app_nil_r.
  Qed.

  Lemma log_stops : forall filter l a c en w evs w1 x, log_code filter l a = Some c -> arg_stops en (in_exprs a) w evs w1 x ->
    exec c en w = (evs, w1, Exit x).
  Proof using.
    intros filter l a c en w evs w1 x H R. unfold log_code in H. destruct (parse (in_format a) Strict) as [frags| | |]; try discriminate.
    destruct (codegen frags (length (in_exprs a))) as [[ns exprs]|]; [|discriminate].
    destruct (filter l); injection H as <-; now apply match_stops.
  Qed.

  Lemma println_runs : forall a c en w evs w1 vs, println_code a = Some c -> arg_runs en (in_exprs a) w evs w1 (map VoArg vs) ->
    exec c en w =
    match stamp w1 with
    | (tevs, w2, Val _) => (evs ++ frame ForPrintln (in_format a) tevs vs, w2, Val VoUnit)
    | (tevs, w2, r) => (evs ++ EAcquire :: EHeader ForPrintln (in_format a) :: tevs, w2, r)
    end.
  Proof using.
    intros a c en w evs w1 vs H R. unfold println_code in H. destruct (parse (in_format a) Strict) as [frags| | |] eqn:P; try discriminate.
    unfold codegen in H. destruct (expected_arg_count frags =? Z.of_nat (length (in_exprs a))) eqn:E; [|discriminate].
    pose proof (arg_runs_length _ _ _ _ _ _ R) as HL. rewrite map_length in HL. rewrite HL in H. injection H as <-.
    destruct (match_args (in_exprs a) (content (CIntern ForPrintln (in_format a))
        (map (fun i => CPut (frag_parameters frags) i (CName (arg_ident i))) (arg_numbers (length vs)))) en w evs w1 vs R) as (en' & L & Q).
    rewrite Q, content_runs by exact L. unfold frame, puts. rewrite P. destruct (stamp w1) as [[tevs w2] [v|x|]]; reflexivity.
  Qed.

  Lemma println_stops : forall a c en w evs w1 x, println_code a = Some c -> arg_stops en (in_exprs a) w evs w1 x ->
    exec c en w = (evs, w1, Exit x).
  Proof using.
    intros a c en w evs w1 x H R. unfold println_code in H. destruct (parse (in_format a) Strict) as [frags| | |]; try discriminate.
    destruct (codegen frags (length (in_exprs a))) as [[ns exprs]|]; [|discriminate]. injection H as <-. now apply match_stops.
  Qed.

  Lemma timestamp_runs : forall a c en w evs w1 vs, timestamp_code a = Some c -> arg_runs en (in_exprs a) w evs w1 (map VoArg vs) ->
    exec c en w = (evs ++ puts (in_format a) vs, w1, Val VoUnit).
  Proof using.
    intros a c en w evs w1 vs H R. unfold timestamp_code in H. destruct (parse (in_format a) Strict) as [frags| | |] eqn:P; try discriminate.
    unfold codegen in H. destruct (expected_arg_count frags =? Z.of_nat (length (in_exprs a))) eqn:E; [|discriminate].
    pose proof (arg_runs_length _ _ _ _ _ _ R) as HL. rewrite map_length in HL. rewrite HL in H. injection H as <-.
    destruct (match_args (in_exprs a) (seq (map (fun i => CPut (frag_parameters frags) i (CName (arg_ident i))) (arg_numbers (length vs))) CUnit) en w evs w1 vs R) as (en' & L & Q).
    rewrite Q. unfold arg_numbers. rewrite seq_puts by exact L. cbn [ExpandModel.exec]. unfold puts. rewrite P. cbn [Z.of_nat]. now rewrite app_nil_r.
  Qed.

  Lemma timestamp_stops : forall a c en w evs w1 x, timestamp_code a = Some c -> arg_stops en (in_exprs a) w evs w1 x ->
    exec c en w = (evs, w1, Exit x).
  Proof using.
    intros a c en w evs w1 x H R. unfold timestamp_code in H. destruct (parse (in_format a) Strict) as [frags| | |]; try discriminate.
    destruct (codegen frags (length (in_exprs a))) as [[ns exprs]|]; [|discriminate]. injection H as <-. now apply match_stops.
  Qed.

  Lemma write_runs : forall n a c en w ts w0 v evs w1 vs, write_code (CUser n) a = Some c -> user n en w = (ts, w0, inl v) ->
    arg_runs (bind en typecheck_formatter v) (in_exprs a) w0 evs w1 (map VoArg vs) ->
    exec c en w = (EExpr n ts :: evs ++ ETag (in_format a) :: puts (in_format a) vs, w1, Val VoUnit).
  Proof using.
    intros n a c en w ts w0 v evs w1 vs H U R. unfold write_code in H. destruct (parse (in_format a) Strict) as [frags| | |] eqn:P; try discriminate.
    unfold codegen in H. destruct (expected_arg_count frags =? Z.of_nat (length (in_exprs a))) eqn:E; [|discriminate].
    pose proof (arg_runs_length _ _ _ _ _ _ R) as HL. rewrite map_length in HL. rewrite HL in H. injection H as <-.
    destruct (match_args (in_exprs a) (CSeq (CIstr (CIntern ForWrite (in_format a)))
        (seq (map (fun i => CPut (frag_parameters frags) i (CName (arg_ident i))) (arg_numbers (length vs))) CUnit))
        (bind en typecheck_formatter v) w0 evs w1 vs R) as (en' & L & Q).
    change (exec (CLet typecheck_formatter (CUser n) ?d) en w) with
      (andThen (exec (CUser n) en w) (fun v w => exec d (bind en typecheck_formatter v) w)).
    change (exec (CUser n) en w) with (match user n en w with (ts, w', inl v) => ([EExpr n ts], w', Val v) | (ts, w', inr x) => ([EExpr n ts], w', Exit x) end).
    rewrite U. cbn [andThen]. rewrite Q. cbn [ExpandModel.exec andThen]. unfold arg_numbers. rewrite seq_puts by exact L.
    cbn [ExpandModel.exec]. unfold puts. rewrite P. cbn [Z.of_nat app]. now rewrite app_nil_r.
  Qed.

  Lemma write_stops : forall n a c en w ts w0 v evs w1 x, write_code (CUser n) a = Some c -> user n en w = (ts, w0, inl v) ->
    arg_stops (bind en typecheck_formatter v) (in_exprs a) w0 evs w1 x -> exec c en w = (EExpr n ts :: evs, w1, Exit x).
  Proof using.
    intros n a c en w ts w0 v evs w1 x H U R. unfold write_code in H. destruct (parse (in_format a) Strict) as [frags| | |]; try discriminate.
    destruct (codegen frags (length (in_exprs a))) as [[ns exprs]|]; [|discriminate]. injection H as <-.
    change (exec (CLet typecheck_formatter (CUser n) ?d) en w) with
      (andThen (exec (CUser n) en w) (fun v w => exec d (bind en typecheck_formatter v) w)).
    change (exec (CUser n) en w) with (match user n en w with (ts, w', inl v) => ([EExpr n ts], w', Val v) | (ts, w', inr x) => ([EExpr n ts], w', Exit x) end).
    rewrite U. cbn [andThen]. now rewrite (match_stops _ _ _ _ _ _ _ R).
  Qed.
End Exec.
