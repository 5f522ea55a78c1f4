(** Property C49: formatting values does not panic on the device. *)
From Verif Require Import Base ParserModel EncodeModel PanicModel PanicSpec PanicProofs PanicExamples.

(** C49.  A log statement panics exactly if formatting its arguments asks for the tag
    of [Infallible], or a hand-written [format] calls the derived [format] of another
    value. *)
Theorem C49_panic_iff : forall addr index ts ts_args s args,
  run_frame addr index ts ts_args s args = None <->
  exists i, in_frame ts ts_args s args i /\ bad i.
Proof. exact frame_panic. Qed.
Print Assumptions C49_panic_iff.

(** Otherwise it writes the frame that C13 is about. *)
Theorem C49_no_panic : forall addr index ts ts_args s args,
  (forall i, in_frame ts ts_args s args i -> ~ bad i) ->
  run_frame addr index ts ts_args s args = Some (encode_frame addr index ts ts_args s args).
Proof. exact frame_quiet. Qed.
Print Assumptions C49_no_panic.

Example C49_ex : (forall i, in_frame None [] (lit "{=[?]} {=?} {=?}") ex_args i -> ~ bad i) /\
  exists t, in_frame None [] (lit "{=[?]} {=?} {=?}") ex_args (ITag t) /\ derived t.
Proof.
  split; [exact ex_quiet|]. exists ex_point. split; [|constructor].
  eapply (IF_arg _ _ _ _ _ 0%nat); [reflexivity|].
  apply IA_slice.
  - eexists _, _. split; [vm_compute; reflexivity|]. split; [left; reflexivity|]. split; reflexivity.
  - eapply IE_data; [left; reflexivity|]. eapply (ID_libenum _ 1 _ _ _ 0%nat); try reflexivity. apply IV_tag.
Qed.

(** An empty slice of [Infallible] panics. *)
Theorem C49_infallible_refuted : forall addr index,
  run_frame addr index None [] (lit "{=[?]}") [AvSlice infallible_ty []] = None.
Proof. exact infallible_slice. Qed.
Print Assumptions C49_infallible_refuted.

(** So does calling [format] on a value whose [Format] is derived. *)
Theorem C49_derived_format_refuted : forall addr index,
  run_frame addr index None [] (lit "{}")
    [AvFmt RManual (VWrites [SDelegate (RStruct (lit "P") KNamed [(lit "x", None, RPrim (PU W8))]) (VList [VNum 1])])] = None.
Proof. exact derived_call. Qed.
Print Assumptions C49_derived_format_refuted.
