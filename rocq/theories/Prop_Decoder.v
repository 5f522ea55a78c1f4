(** Properties C10-C12: [Table::decode] on arbitrary bytes. *)
From Verif Require Import Base RzcobsModel ParserModel DecoderModel DecoderProofs DecoderPanic DecoderExamples.

(** C10.  The frame and the consumed count depend only on the consumed bytes:
    cutting the buffer right after them, or continuing it in any way, changes
    nothing. *)
Theorem C10_decode_ignores_rest : forall t b f n,
  decode t b = Ok (f, n) ->
  (n <= length b)%nat /\
  (forall rest, decode t (firstn n b ++ rest) = Ok (f, n)) /\
  (forall rest, decode t (b ++ rest) = Ok (f, n)).
Proof. exact C10_lemma. Qed.
Print Assumptions C10_decode_ignores_rest.

(** The verdict [Malformed] is final too: more bytes do not repair a frame. *)
Theorem C10_malformed_is_final : forall t b rest,
  decode t b = Err Malformed -> decode t (b ++ rest) = Err Malformed.
Proof. exact decode_malformed_extend. Qed.
Print Assumptions C10_malformed_is_final.

Example C10_ex : exists f, decode ex_table ex_bytes = Ok (f, 11%nat) /\ f_args f <> [].
Proof. vm_compute. eexists. split; [reflexivity|discriminate]. Qed.

Example C10_malformed_ex : decode ex_table [1; 1; 0] = Err Malformed.
Proof. vm_compute. reflexivity. Qed.

(** C11.  Every strict prefix of the consumed bytes is reported as incomplete. *)
Theorem C11_truncated_is_eof : forall t b f n k,
  decode t b = Ok (f, n) -> (k < n)%nat -> decode t (firstn k b) = Err UnexpectedEof.
Proof. exact decode_truncate. Qed.
Print Assumptions C11_truncated_is_eof.

(** And a buffer that is incomplete was incomplete before its last bytes arrived. *)
Theorem C11_eof_is_monotone : forall t b rest,
  decode t (b ++ rest) = Err UnexpectedEof -> decode t b = Err UnexpectedEof.
Proof. exact decode_eof_truncate. Qed.
Print Assumptions C11_eof_is_monotone.

Example C11_ex : exists f, decode ex_table ex_bytes = Ok (f, 11%nat) /\
  decode ex_table (firstn 10 ex_bytes) = Err UnexpectedEof.
Proof. vm_compute. eexists. split; reflexivity. Qed.

(** C12.  For every byte string and every table whose strings do not make the
    format string parser panic, decoding ends with a frame, [UnexpectedEof] or
    [Malformed]: no panic, and the recursion budget [length b + 1] is never
    exhausted. *)
Theorem C12_decode_total : forall t b, table_safe t ->
  (exists f n, decode t b = Ok (f, n)) \/ decode t b = Err UnexpectedEof \/ decode t b = Err Malformed.
Proof. exact decode_total. Qed.
Print Assumptions C12_decode_total.

(** Termination does not need the hypothesis on the table, and any larger
    budget gives the same result. *)
Theorem C12_decode_terminates : forall t b,
  decode t b <> NoFuel /\
  forall fuel, (length b < fuel)%nat -> decode_fuel t fuel b = decode_fuel t (S (length b)) b.
Proof. exact C12_terminates_lemma. Qed.
Print Assumptions C12_decode_terminates.

Example C12_ex : table_safe ex_table.
Proof. exact ex_table_safe. Qed.

(** Without it the host can be made to panic: an interned string is never
    checked by the build, and a corrupt frame can use its index as that of a
    nested value's format string. *)
Theorem C12_decode_total_refuted : exists t b,
  decode t b = Panic /\
  forall i e, lookup_entry i (t_entries t) = Some e -> e_tag e <> GStr ->
    exists fs, parse (e_string e) Strict = Ok fs.
Proof. exact C12_refuted_lemma. Qed.
Print Assumptions C12_decode_total_refuted.
