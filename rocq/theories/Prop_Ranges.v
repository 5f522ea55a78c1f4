(** Property C72: the level of a frame can be read off its index, on the device and on the host alike. *)
From Verif Require Import Base Utf8 ParserModel DecoderModel EncodeModel EncodeSpec TableModel TableSpec FlagsModel LinkModel LinkSpec RangesModel RangesProofs LinkExamples.

(** C72.  [IdRanges::get()] of a linked program: the range of a level contains the index of a string
    exactly if the string belongs to a log statement of this level. *)
Theorem C72_statement : forall p k, program_ok p -> link p = Ok k -> forall l u kind g s i,
  In u (p_uses p) -> interns u kind g s -> index_of k u kind s i ->
  (contains (id_range k l) i = true <-> u_macro u = ULog l s).
Proof. exact range_statement. Qed.
Print Assumptions C72_statement.

(** A logger finds this index in the first two bytes of a frame. *)
Theorem C72_sent : forall p k, program_ok p -> link p = Ok k -> forall l u kind g s i addr ts targs args,
  In u (p_uses p) -> interns u kind g s -> index_of k u kind s i ->
  (contains (id_range k l) (le_value (firstn 2 (encode_frame addr i ts targs s args))) = true <-> u_macro u = ULog l s).
Proof. exact range_sent. Qed.
Print Assumptions C72_sent.

(** Ranges have nothing in common. *)
Theorem C72_disjoint : forall p k, program_ok p -> link p = Ok k -> forall l m i,
  contains (id_range k l) i = true -> contains (id_range k m) i = true -> l = m.
Proof. exact ranges_disjoint. Qed.
Print Assumptions C72_disjoint.

(** Whatever frame the host decodes, the ranges say the level that it shows. *)
Theorem C72_frame : forall p k, program_ok p -> link p = Ok k -> forall sec f, binary p k sec f ->
  forall check t, parse_elf check f = Ok (Some t) -> forall b fr n, decode t b = Ok (fr, n) ->
  forall l, contains (id_range k l) (le_value (firstn 2 b)) = true <-> f_level fr = Some l.
Proof. exact range_frame. Qed.
Print Assumptions C72_frame.

Example C72_ex : program_ok sample_program /\ link sample_program = Ok sample_image /\
  map (id_range sample_image) [LTrace; LDebug; LInfo; LWarn; LError] = [(2, 2); (2, 2); (2, 4); (4, 4); (4, 5)] /\
  map (contains (id_range sample_image LInfo)) [1; 2; 3; 4; 5] = [false; true; true; false; false].
Proof. split; [exact sample_ok|]. split; [exact sample_linked|]. vm_compute. split; reflexivity. Qed.
