(** Property C77: which format strings are accepted; exact versions of C20 and C22. *)
From Verif Require Import Base ParserModel ParserProofs FormatSpec GrammarSpec GrammarProofs GrammarMain GrammarPanic
  GrammarCases.

(** C77.  A string is accepted with the fragments [fs] exactly when the grammar gives it that
    meaning, its arguments are [0..n] with one type each, and none is [usize::MAX].  (The
    length of a Rust string is at most [isize::MAX].) *)
Theorem C77_accepted : forall s m fs, Z.of_nat (length s) <= usize_max ->
  (parse s m = Ok fs <->
   format m 0 s fs /\ well_typed (frag_params fs) /\ forall p, In p (frag_params fs) -> p_index p < usize_max).
Proof. exact parse_iff. Qed.
Print Assumptions C77_accepted.

Theorem C77_param : forall s m p, parse_param s m = Ok p <-> param_text m s p.
Proof. exact parse_param_iff. Qed.
Print Assumptions C77_param.

Theorem C77_hint : forall s h, parse_hint s = Some h <-> hint_text s h.
Proof. exact parse_hint_iff. Qed.
Print Assumptions C77_hint.

Example C77_ex : exists fs, parse (lit "}}{01=003..08:#010X}}{{}b{=[u8;  04]:#00us}") Strict = Ok fs /\
  fs = [FLit (lit "}"); FParam (MkParameter 1 (TBitField 3 8) (Some (HHex true true 10)));
        FLit (lit "}{}b"); FParam (MkParameter 0 (TU8Array 4) (Some (HSeconds Micros)))].
Proof. exact odd_string_parses. Qed.

(** A pair of braces is one parameter, unless there is a brace in between: in strict mode
    that takes an internal bitflags hint. *)
Theorem C77_one_parameter : forall m next s ps next', ~ In 123 s -> nested m next s ps next' -> ps = [] /\ next' = next.
Proof. exact nested_plain. Qed.
Print Assumptions C77_one_parameter.

Theorem C77_strict_brace : forall s p, param_text Strict s p -> In 123 s ->
  exists a b, s = a ++ lit "__internal_bitflags_" ++ b /\ In 123 b /\ ~ In 123 a.
Proof. exact strict_open. Qed.
Print Assumptions C77_strict_brace.

(** With a brace in between, one closing brace ends two parameters. *)
Theorem C77_two_parameters_refuted :
  parse (lit "{=u8:a{=u16:x}") ForwardsCompatible =
    Ok [FParam (MkParameter 0 (TU W8) (Some (HUnknown (lit "a{=u16:x"))));
        FParam (MkParameter 1 (TU W16) (Some (HHex false false 0)))] /\
  parse (lit "{=u8:__internal_bitflags_A@b@c{=u16}") Strict =
    Ok [FParam (MkParameter 0 (TU W8) (Some (HBitflags (lit "A") (lit "b") (lit "c{=u16") None)));
        FParam (MkParameter 1 (TU W16) None)].
Proof. vm_compute. split; reflexivity. Qed.
Print Assumptions C77_two_parameters_refuted.

(** Strict mode accepts one kind of unknown hint. *)
Theorem C77_strict_unknown_refuted :
  parse (lit "{=u8:__internal_bitflags_A}") Strict =
    Ok [FParam (MkParameter 0 (TU W8) (Some (HUnknown (lit "__internal_bitflags_A"))))].
Proof. vm_compute. reflexivity. Qed.
Print Assumptions C77_strict_unknown_refuted.

(** C20, exactly: which texts are accepted as literals, and as what. *)
Theorem C20_exact : forall s m v, Z.of_nat (length s) <= usize_max ->
  (parse s m = Ok [FLit v] <-> s <> [] /\ literal false s v).
Proof. exact parse_text_iff. Qed.
Print Assumptions C20_exact.

Example C20_exact_ex : literal false (lit "a}{{}}}b") (lit "a}{}}b") /\
  (forall v, ~ literal false (lit "a}{{}}b") v).
Proof.
  split.
  - apply L_char; try discriminate. apply L_first. apply L_open. apply L_close. apply L_second; [discriminate|].
    apply L_char; try discriminate. apply L_end.
  - intros v H. apply literal_sound in H as (_ & H & _). discriminate H.
Qed.

(** C22, exactly. *)
Theorem C22_panic_iff : forall s m, Z.of_nat (length s) <= usize_max ->
  (parse s m = Panic <-> bad_format m 0 s \/ exists fs, format m 0 s fs /\ overflowing fs).
Proof. exact parse_panic_iff. Qed.
Print Assumptions C22_panic_iff.

Example C22_panic_ex : bad_format Strict 0 (lit "a{=u8:x}}}{1=25}{{") /\ ~ bad_param (lit "1=256") .
Proof.
  split.
  - apply (proj1 (scan_bad Strict _ _ _ (le_n _) [] [] [] 0 eq_refl P_end)). vm_compute. reflexivity.
  - intro H. apply (parse_param_bad _ Strict) in H. vm_compute in H. discriminate.
Qed.
