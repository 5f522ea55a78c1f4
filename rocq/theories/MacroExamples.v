(** Concrete cases for [Prop_Macro.v]. *)
From Verif Require Import Base Utf8 ParserModel DecoderModel EncodeModel EncodeSpec DecoderExamples EncodeExamples
  DisplayModel DisplayExamples TextSpec TextExamples MacroModel MacroSpec.

Definition u8_ty : rty := RPrim (PU W8).
Definition no_scope : scope := fun _ => None.
Definition u8 (x : Z) : expr aval := fun _ => AvFmt u8_ty (VNum x).
Definition all_levels (l : level) : bool := true.

(** A program with one log statement, the primitive [u8] and the error of [None]. *)
Definition macro_prog (f : bytes) : table := MkTable None
  [(1, MkEntry GError f []); (2, MkEntry GPrim (lit "{=u8}") []); (3, MkEntry GPrim none_error [])] [] EncRzcobs.

(** What the host prints for what was logged. *)
Definition printed (l : logged) : level * option text :=
  let '(lv, f, args) := l in
  (lv, match decode (macro_prog f) (encode_frame (find_addr (t_entries (macro_prog f))) 1 None [] f args) with
       | Ok (fr, _) => Some (display_message X0 (macro_prog f) fr)
       | _ => None
       end).

Definition outcome_of {A} (st : option (expr (effect A))) (en : scope) : option (list (level * option text) * option A) :=
  match st with
  | Some run => let '(ls, v) := run en in Some (map printed ls, v)
  | None => None
  end.

Definition says_error (s : bytes) : list (level * option text) := [(LError, Some (Some s))].

Lemma eq_ex : outcome_of (binop_macro all_levels Eq u8_ty u8_ty (fun _ => VNum 1) (fun _ => VNum 2)
    (fun a b => match a, b with VNum x, VNum y => x =? y | _, _ => false end)
    (Some (MkLogArgs (lit "{=u8}{{{}}}") [fun _ => AvPrim (VNum 7); u8 8]))) no_scope =
  Some (says_error (lit "panicked at 'assertion failed: `(left == right)`: 7{8}'" ++ [10] ++ lit " left: `1`" ++ [10] ++ lit "right: `2`"), None).
Proof. vm_compute. reflexivity. Qed.

Lemma unwrap_ex : outcome_of (unwrap_macro (A := unit) all_levels (lit "f ({ 1 })") (fun _ => UNone) None) no_scope =
  Some (says_error (lit "panicked at 'unwrap failed: f ({ 1 })'" ++ [10] ++ lit "error: `Unwrap of a None option value`"), None).
Proof. vm_compute. reflexivity. Qed.

Lemma assert_ex :
  outcome_of (assert_macro all_levels (lit "S { x } . ok ()") (fun _ => false) None) no_scope =
    Some (says_error (lit "panicked at 'assertion failed: S { x } . ok ()'"), None) /\
  outcome_of (assert_macro all_levels [] (fun _ => false) (Some (MkLogArgs (lit "{1} before {0}") [u8 1; u8 2]))) no_scope =
    Some (says_error (lit "panicked at '2 before 1'"), None).
Proof. split; vm_compute; reflexivity. Qed.

Lemma dbg_ex : outcome_of (dbg_macro all_levels [(lit "{ x }", u8_ty, fun _ => VNum 3); (lit "y", u8_ty, fun _ => VNum 4)]) no_scope =
  Some ([(LTrace, Some (Some (lit "{ x } = 3"))); (LTrace, Some (Some (lit "y = 4")))], Some [VNum 3; VNum 4]).
Proof. vm_compute. reflexivity. Qed.

(** A variable called [left_val] of the caller, 7, is not what a message argument
    [left_val] shows. *)
Definition left_scope : scope := binds no_scope left_val (AvFmt u8_ty (VNum 7)).

Lemma capture_ex :
  outcome_of (panic_macro all_levels (Some (MkLogArgs (lit "{}") [bound left_val]))) left_scope =
    Some (says_error (lit "panicked at '7'"), None) /\
  outcome_of (binop_macro all_levels Eq u8_ty u8_ty (fun _ => VNum 1) (fun _ => VNum 2) (fun _ _ => false)
    (Some (MkLogArgs (lit "{}") [bound left_val]))) left_scope =
    Some (says_error (lit "panicked at 'assertion failed: `(left == right)`: 1'" ++ [10] ++ lit " left: `1`" ++ [10] ++ lit "right: `2`"), None).
Proof. split; vm_compute; reflexivity. Qed.
