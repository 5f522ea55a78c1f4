(** Concrete cases of C78. *)
From Verif Require Import Base Utf8 Numerals ParserModel DecoderModel EncodeModel EncodeSpec DecoderExamples EncodeExamples
  DisplayModel DisplayExamples TextSpec TextExamples MacroModel MacroSpec MacroExamples.
From Verif Require Import ExpandModel ExpandSpec ExpandProofs ExpandMain ExpandOnce ExpandExamples ArriveSpec.
From Verif Require LoggerModel.

(** A program with the statement [f] and a timestamp. *)
Definition arrive_prog (f : bytes) : table := MkTable (Some (MkEntry GTimestamp us []))
  [(1, MkEntry GError f []); (2, MkEntry GPrim (lit "{=u8}") []); (3, MkEntry GPrim none_error [])] [] EncRzcobs.

(** What the host prints for what the code wrote, and how the code ended. *)
Definition seen (f : bytes) (c : option code) : option text * result :=
  let '(evs, _, r) := go (Some (us, [0]%nat)) c 5 in
  (match decode (arrive_prog f) (written (flat_map (event_tasks (find_addr (t_entries (arrive_prog f)))) evs)) with
   | Ok (fr, _) => Some (display_message X0 (arrive_prog f) fr)
   | _ => None
   end, r).

(** [assert!(false, "{=u8} then {=u8}", tick(), tick())] with a counter at 5, which the timestamp counts up as well. *)
Lemma assert_seen : seen (lit "panicked at '{=u8} then {=u8}'") (assert_code all_on (lit "x") (CUser 6) (Some (invoke (lit "{=u8} then {=u8}") [0; 0]%nat))) =
  (Some (Some (lit "panicked at '5 then 6'")), Exit Unwinds).
Proof. vm_compute. reflexivity. Qed.

Lemma assert_text_seen : seen (lit "panicked at 'assertion failed: S {{ x }} . ok ()'") (assert_code all_on (lit "S { x } . ok ()") (CUser 6) None) =
  (Some (Some (lit "panicked at 'assertion failed: S { x } . ok ()'")), Exit Unwinds).
Proof. vm_compute. reflexivity. Qed.

Lemma todo_seen : seen (lit "panicked at 'not yet implemented: {=u8}'")
  (panic_like_code all_on (lit "panicked at 'not yet implemented'") (fun f => lit "panicked at 'not yet implemented: " ++ f ++ lit "'") (Some (invoke (lit "{=u8}") [0]%nat))) =
  (Some (Some (lit "panicked at 'not yet implemented: 5'")), Exit Unwinds).
Proof. vm_compute. reflexivity. Qed.
