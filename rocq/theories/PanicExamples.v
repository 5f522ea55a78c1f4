From Verif Require Import Base ParserModel EncodeModel PanicModel PanicSpec PanicProofs.

(** [info!("{=[?]}", x)] where [x] is an empty [&[Infallible]]. *)
Lemma infallible_slice : forall addr index,
  run_frame addr index None [] (lit "{=[?]}") [AvSlice infallible_ty []] = None.
Proof. reflexivity. Qed.

(** [#[derive(Format)] struct P { x: u8 }] and
    [impl Format for W { fn format(&self, f: Formatter) { self.0.format(f) } }]. *)
Definition ex_point : rty := RStruct (lit "P") KNamed [(lit "x", None, RPrim (PU W8))].

Lemma derived_call : forall addr index,
  run_frame addr index None [] (lit "{}") [AvFmt RManual (VWrites [SDelegate ex_point (VList [VNum 1])])] = None.
Proof. reflexivity. Qed.

(** Derived types inside an [Option] inside a slice, a hand-written [format] that uses
    [write!], a [Result] with [Infallible] on the other side. *)
Definition ex_args : list aval :=
  [AvSlice (option_ty ex_point) [VVar 1 [VList [VNum 7]]; VVar 0 []];
   AvFmt RManual (VWrites [SWrite (lit "<{=?}>") [AvFmt ex_point (VList [VNum 8])]]);
   AvFmt (result_ty (RPrim PBool) infallible_ty) (VVar 1 [VNum 1])].

Lemma ex_quiet : forall i, in_frame None [] (lit "{=[?]} {=?} {=?}") ex_args i -> ~ bad i.
Proof.
  intros i H B.
  assert (E : run_frame (fun _ => 1) 3 None [] (lit "{=[?]} {=?} {=?}") ex_args = None)
    by (apply frame_panic; exists i; auto).
  vm_compute in E. discriminate.
Qed.
