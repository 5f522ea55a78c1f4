(** C48: the host accepts exactly the wire format. *)
From Verif Require Import Base Utf8 RzcobsModel ParserModel DecoderModel EncodeModel EncodeSpec DecoderExamples WireSpec WireProofs Utf8Exact.

Theorem C48_exact : forall tbl b fr n, bytes_ok b ->
  (decode tbl b = Ok (fr, n) <-> (n <= length b)%nat /\ wire_frame tbl fr (firstn n b)).
Proof. exact decode_is_wire. Qed.
Print Assumptions C48_exact.

(** No message is the beginning of another one, and bytes have one meaning. *)
Theorem C48_unambiguous : forall tbl f1 f2 c1 c2 r1 r2, wire_frame tbl f1 c1 -> wire_frame tbl f2 c2 ->
  c1 ++ r1 = c2 ++ r2 -> f1 = f2 /\ c1 = c2 /\ r1 = r2.
Proof. exact wire_unambiguous. Qed.
Print Assumptions C48_unambiguous.

(** Texts of the wire format are the encodings of sequences of Unicode scalar values (RFC 3629), each of just one sequence;
    characters are scalar values and are shown as their encoding. *)
Theorem C48_text : forall s, utf8_valid s = true <-> exists cs, text_of cs s.
Proof. exact utf8_valid_iff. Qed.
Print Assumptions C48_text.
Theorem C48_text_unique : forall s cs cs', text_of cs s -> text_of cs' s -> cs = cs'.
Proof. exact text_of_unique. Qed.
Print Assumptions C48_text_unique.
Theorem C48_char : forall c, (is_scalar c = true <-> scalar_value c) /\ (scalar_value c -> forall s, encodes c s <-> s = utf8_encode c).
Proof.
  intros c. split; [exact (scalar_iff c)|]. intros V s. split; [exact (encodes_only c s V)|]. intros ->. exact (encode_encodes c V).
Qed.
Print Assumptions C48_char.
Example C48_text_ex : text_of [104; 233; 8364; 128512] [104; 195; 169; 226; 130; 172; 240; 159; 152; 128] /\ ~ exists cs, text_of cs [192; 128].
Proof.
  split; [apply utf8_decode_iff; vm_compute; reflexivity|]. intros H. apply C48_text in H. vm_compute in H. discriminate.
Qed.

Definition wire_table : table := MkTable None
  [ (1, ent GInfo "{=bool}"); (2, ent GInfo "{=str}"); (3, ent GInfo "{=char}"); (4, ent GInfo "{=i8} {=u16}"); (5, ent GInfo "{=?}");
    (6, ent GDerived "A|B({=u8})"); (7, ent GInfo "{=[?]}"); (8, ent GPrim "{=u8}"); (9, ent GInfo "{=8..12}") ] [] EncRaw.

Definition info (i : Z) (s : string) (args : list arg) : frame := MkFrame (Some LInfo) i None [] (lit s) args.

Example C48_bool : decode wire_table [1; 0; 1; 9] = Ok (info 1 "{=bool}" [ABool true], 3%nat).
Proof. vm_compute. reflexivity. Qed.
Example C48_bool_wire : wire_frame wire_table (info 1 "{=bool}" [ABool true]) [1; 0; 1].
Proof. refine (proj2 (proj1 (C48_exact wire_table [1; 0; 1; 9] _ 3 _) C48_bool)). repeat constructor; lia. Qed.
Example C48_bool_bad : decode wire_table [1; 0; 2] = Err Malformed.
Proof. vm_compute. reflexivity. Qed.
Example C48_str_bad : decode wire_table [2; 0; 1; 0; 0; 0; 255] = Err Malformed.
Proof. vm_compute. reflexivity. Qed.
Example C48_char_bad : decode wire_table [3; 0; 0; 216; 0; 0] = Err Malformed.
Proof. vm_compute. reflexivity. Qed.
Example C48_ints : decode wire_table [4; 0; 255; 52; 18] = Ok (info 4 "{=i8} {=u16}" [AIxx (-1); AUxx 4660], 5%nat).
Proof. vm_compute. reflexivity. Qed.
Example C48_enum : decode wire_table [5; 0; 6; 0; 1; 77] = Ok (info 5 "{=?}" [AFormat (lit "B({=u8})") [AUxx 77]], 6%nat).
Proof. vm_compute. reflexivity. Qed.
Example C48_slice : decode wire_table [7; 0; 2; 0; 0; 0; 8; 0; 10; 11] =
  Ok (info 7 "{=[?]}" [AFormatSlice [(lit "{=u8}", [AUxx 10]); (lit "{=u8}", [AUxx 11])]], 10%nat).
Proof. vm_compute. reflexivity. Qed.
Example C48_bits : decode wire_table [9; 0; 5] = Ok (info 9 "{=8..12}" [AUxx 1280], 3%nat).
Proof. vm_compute. reflexivity. Qed.
(** The string of a log statement cannot be used for a nested value. *)
Example C48_nested_bad : decode wire_table [5; 0; 1; 0; 1] = Err Malformed.
Proof. vm_compute. reflexivity. Qed.
