(** Concrete cases of C68. *)
From Verif Require Import Base Numerals ParserModel DecoderModel EncodeModel MacroModel MacroSpec ExpandModel ExpandSpec ExpandProofs ExpandMain ExpandOnce.
From Verif Require LoggerModel LoggerSpec.

(** The state is a counter.  Expression 0 is [tick()], which counts; 1 has a log statement
    inside; 2 is [return]; 3 is the name [left_val]; 4 is the name [S]; 5 is [true], 6 is [false]. *)
Definition num (z : Z) : aval := AvPrim (VNum z).
Definition ex_user (n : nat) (en : names) (w : Z) : list LoggerModel.task * Z * (value + leave) :=
  match n with
  | 0%nat => ([], w + 1, inl (VoArg (num w)))
  | 1%nat => ([LoggerModel.TLog [LoggerModel.TWrite [7; 0]]], w, inl (VoArg (num 42)))
  | 2%nat => ([], w, inr Leaves)
  | 3%nat => ([], w, match en left_val with Some v => inl v | None => inr Unwinds end)
  | 4%nat => ([], w, match en (lit "S") with Some v => inl v | None => inr Unwinds end)
  | 5%nat => ([], w, inl (VoBool true))
  | _ => ([], w, inl (VoBool false))
  end.
Definition ex_equal (a b : value) (w : Z) : list LoggerModel.task * Z * (bool + leave) :=
  ([], w, inl match a, b with VoArg (AvPrim (VNum x)), VoArg (AvPrim (VNum y)) => x =? y | _, _ => false end).
Definition ex_items : names := fun x => if beq x (lit "S") then Some (VoArg (num 99)) else None.
Definition ex_scope : names := bind (fun _ => None) left_val (VoArg (num 50)).
Definition all_on (l : level) : option bool := Some true.
Definition all_off (l : level) : option bool := match l with LTrace | LDebug => None | _ => Some false end.

Definition go (tm : option (bytes * list nat)) (c : option code) (w : Z) :=
  match c with Some c => execute ex_user ex_equal ex_items (stamp_code tm) c ex_scope w | None => ([], w, Stuck) end.

(** The parameters of the fragments of a format string. *)
Definition ps (s : bytes) : list parameter := match parse s Strict with Ok frags => frag_parameters frags | _ => [] end.

Definition two : bytes := lit "{=u8} {=u8}".
Definition us : bytes := lit "{=u32:us}".

Example ex_log : go None (log_code all_on LInfo (invoke two [0; 0]%nat)) 5 =
  ([EExpr 0 []; EExpr 0 []; EAcquire; EHeader (ForLevel LInfo) two; EPut (ps two) 0 (num 5); EPut (ps two) 1 (num 6); ERelease], 7, Val VoUnit).
Proof. vm_compute. reflexivity. Qed.

Example ex_off : go None (log_code all_off LInfo (invoke two [0; 0]%nat)) 5 = ([EExpr 0 []; EExpr 0 []], 7, Val VoUnit) /\
  go None (log_code all_off LTrace (invoke two [0; 0]%nat)) 5 = ([EExpr 0 []; EExpr 0 []], 7, Val VoUnit).
Proof. vm_compute. split; reflexivity. Qed.

Example ex_return : go None (log_code all_on LInfo (invoke two [0; 2]%nat)) 5 = ([EExpr 0 []; EExpr 2 []], 6, Exit Leaves).
Proof. vm_compute. reflexivity. Qed.

Example ex_nested : let '(evs, _, _) := go None (log_code all_on LInfo (invoke (lit "{=u8}") [1]%nat)) 5 in
  tasks_of (fun _ => 300) evs [LoggerModel.TLog [LoggerModel.TWrite [7; 0]]; LoggerModel.TLog [LoggerModel.TWrite [44; 1]; LoggerModel.TWrite [42]]].
Proof.
  vm_compute. change ([LoggerModel.TLog [LoggerModel.TWrite [7; 0]]; LoggerModel.TLog [LoggerModel.TWrite [44; 1]; LoggerModel.TWrite [42]]])
    with ([LoggerModel.TLog [LoggerModel.TWrite [7; 0]]] ++ [LoggerModel.TLog [LoggerModel.TWrite [44; 1]; LoggerModel.TWrite [42]]]).
  apply (Tasks_event _ (EExpr 1 [LoggerModel.TLog [LoggerModel.TWrite [7; 0]]])); [discriminate|discriminate|].
  match goal with |- tasks_of _ (EAcquire :: ?a :: ?b :: ERelease :: []) _ => apply (Tasks_frame (fun _ => 300) [a; b] [] []) end;
    [intros [X|[X|[]]]; discriminate|intros [X|[X|[]]]; discriminate|constructor].
Qed.

Example ex_assert : go None (assert_code all_on (lit "x") (CUser 5) (Some (invoke (lit "{=u8}") [0]%nat))) 5 = ([EExpr 5 []], 5, Val VoUnit) /\
  fst (go None (assert_code all_on (lit "x") (CUser 6) (Some (invoke (lit "{=u8}") [0]%nat))) 5) =
    ([EExpr 6 []; EExpr 0 []; EAcquire; EHeader (ForLevel LError) (lit "panicked at '{=u8}'"); EPut (ps (lit "panicked at '{=u8}'")) 0 (num 5); ERelease; EPanic], 6).
Proof. vm_compute. split; reflexivity. Qed.

Example ex_debug_assert : go None (debug_code false (assert_code all_on (lit "x") (CUser 6) None)) 5 = ([], 5, Val VoUnit).
Proof. vm_compute. reflexivity. Qed.

Example ex_dbg : let '(evs, w, r) := go None (dbg_code all_on [(lit "a", CUser 0); (lit "b", CUser 0)]) 5 in
  evaluations 0 evs = 2%nat /\ w = 7 /\ r = Val (VoTuple [VoArg (num 5); VoArg (num 6)]) /\
  map (fun e => match e with EExpr _ _ => 0 | EHeader _ s => Z.of_nat (length s) | _ => 1 end) evs = [0; 1; 6; 1; 1; 0; 1; 6; 1; 1].
Proof. vm_compute. repeat split. Qed.

(** The message sees the macro's [left_val], not the caller's. *)
Example ex_captured : match go None (binop_code all_on Eq (CUser 0) (CUser 1) (Some (invoke (lit "{=u8}") [3]%nat))) 5 with
  | (evs, _, _) => nth_error evs 6 = Some (EPut (ps (comparison_message Eq (Some (lit "{=u8}", [3]%nat)))) 0 (num 5)) end.
Proof. vm_compute. reflexivity. Qed.

(* ------------------------------------------------------------------ *)
(** * Timestamps *)

Definition is_expr (e : event) : bool := match e with EExpr _ _ => true | _ => false end.

Lemma timestamp_held : exists tm s evs w r n, stamp_ok tm /\ accepts s 0 /\
  does ex_user ex_equal ex_items tm (log_code all_on LInfo (invoke s [])) ex_scope 5 evs w r /\
  nth_error evs 0 = Some EAcquire /\ nth_error evs (S n) = Some (EExpr 0 []) /\ nth_error evs (S (S (S n))) = Some ERelease.
Proof.
  exists (Some (us, [0]%nat)), (lit "hi"), (fst (fst (go (Some (us, [0]%nat)) (log_code all_on LInfo (invoke (lit "hi") [])) 5))), 6, (Val VoUnit), 1%nat.
  split; [exists (match parse us Strict with Ok f => f | _ => [] end); split; vm_compute; reflexivity|].
  split; [exists [FLit (lit "hi")]; split; vm_compute; reflexivity|].
  split; [eexists; split; [reflexivity|vm_compute; reflexivity]|]. vm_compute. repeat split.
Qed.

(** A log statement in a timestamp expression is inside the other one: it never ends. *)
Lemma timestamp_logs : exists tm s evs w r, stamp_ok tm /\ accepts s 0 /\
  does ex_user ex_equal ex_items tm (log_code all_on LInfo (invoke s [])) ex_scope 5 evs w r /\
  exists body, tasks_of (fun _ => 1) evs [LoggerModel.TLog body] /\ snd (LoggerSpec.attempt body) = false.
Proof.
  exists (Some (us, [1]%nat)), (lit "hi"), (fst (fst (go (Some (us, [1]%nat)) (log_code all_on LInfo (invoke (lit "hi") [])) 5))), 5, (Val VoUnit).
  split; [exists (match parse us Strict with Ok f => f | _ => [] end); split; vm_compute; reflexivity|].
  split; [exists [FLit (lit "hi")]; split; vm_compute; reflexivity|].
  split; [eexists; split; [reflexivity|vm_compute; reflexivity]|]. vm_compute.
  eexists. split; [match goal with |- tasks_of _ (EAcquire :: ?a :: ?b :: ?c :: ERelease :: []) _ => apply (Tasks_frame (fun _ => 1) [a; b; c] [] []) end;
    [intros [X|[X|[X|[]]]]; discriminate|intros [X|[X|[X|[]]]]; discriminate|constructor]|reflexivity].
Qed.

(** A user's [S] is not seen by the timestamp. *)
Lemma timestamp_captures : exists tm s evs w r, stamp_ok tm /\ accepts s 0 /\ ex_items (lit "S") = Some (VoArg (num 99)) /\
  does ex_user ex_equal ex_items tm (log_code all_on LInfo (invoke s [])) ex_scope 5 evs w r /\
  In (EExpr 4 []) evs /\ exists q, In (EPut q 0 (num 0)) evs /\ ~ In (EPut q 0 (num 99)) evs.
Proof.
  exists (Some (us, [4]%nat)), (lit "hi"), (fst (fst (go (Some (us, [4]%nat)) (log_code all_on LInfo (invoke (lit "hi") [])) 5))), 5, (Val VoUnit).
  split; [exists (match parse us Strict with Ok f => f | _ => [] end); split; vm_compute; reflexivity|].
  split; [exists [FLit (lit "hi")]; split; vm_compute; reflexivity|]. split; [reflexivity|].
  split; [eexists; split; [reflexivity|vm_compute; reflexivity]|]. split; [vm_compute; tauto|]. exists (ps us). vm_compute. split; [tauto|].
  intros [X|[X|[X|[X|[X|[]]]]]]; discriminate.
Qed.

(** With [return] in the timestamp the frame has no timestamp. *)
Lemma timestamp_leaves : exists tm s evs w, stamp_ok tm /\ accepts s 0 /\
  does ex_user ex_equal ex_items tm (log_code all_on LInfo (invoke s [])) ex_scope 5 evs w (Val VoUnit) /\
  exists body, tasks_of (fun _ => 1) evs [LoggerModel.TLog body] /\
    forall z, written body <> encode_frame (fun _ => 1) 1 (option_map fst tm) [num z] s [].
Proof.
  exists (Some (us, [2]%nat)), (lit "hi"), (fst (fst (go (Some (us, [2]%nat)) (log_code all_on LInfo (invoke (lit "hi") [])) 5))), 5.
  split; [exists (match parse us Strict with Ok f => f | _ => [] end); split; vm_compute; reflexivity|].
  split; [exists [FLit (lit "hi")]; split; vm_compute; reflexivity|].
  split; [eexists; split; [reflexivity|vm_compute; reflexivity]|].
  exists [LoggerModel.TWrite [1; 0]]. split.
  - vm_compute. match goal with |- tasks_of _ (EAcquire :: ?a :: ?b :: ERelease :: []) _ => apply (Tasks_frame (fun _ => 1) [a; b] [] []) end;
    [intros [X|[X|[]]]; discriminate|intros [X|[X|[]]]; discriminate|constructor].
  - intros z Q. apply (f_equal (@length Z)) in Q. change (2%nat = length (le_bytes 2 1 ++ (le_bytes 4 z ++ []) ++ [])) in Q.
    rewrite !app_nil_r, app_length in Q. cbn in Q. discriminate.
Qed.
