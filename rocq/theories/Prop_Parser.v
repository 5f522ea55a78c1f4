(** Properties C18-C22 and C45: the format string parser. *)
From Verif Require Import Base ParserModel ParserProofs Numerals FormatSpec RenderProofs ParserMore ParserExamples.

(** C18.  The arguments of an accepted string are exactly [0..n], each with one type;
    bitfield ranges are non-empty and within [0..128]. *)
Theorem C18_dense_typed : forall s m fs, parse s m = Ok fs ->
  well_typed (frag_params fs) /\
  (forall p lo hi, In p (frag_params fs) -> p_ty p = TBitField lo hi -> 0 <= lo /\ lo < hi /\ hi <= 128).
Proof. exact C18_lemma. Qed.
Print Assumptions C18_dense_typed.

Example C18_ex : exists fs, parse (lit "{1=3..5} {0:x} {1=0..2}") Strict = Ok fs /\ length (frag_params fs) = 3%nat.
Proof. vm_compute. eexists. split; reflexivity. Qed.
Example C18_ex_gap : exists e, parse (lit "{1=u8}") Strict = Err e.
Proof. vm_compute. eexists. reflexivity. Qed.

(** C19.  Any text with its braces doubled parses to that text. *)
Theorem C19_literal_verbatim : forall m s,
  parse (escape s) m = Ok (match s with [] => [] | _ => [FLit s] end).
Proof. exact parse_escape. Qed.
Print Assumptions C19_literal_verbatim.

Example C19_ex : escape (lit "a{b}c") = lit "a{{b}}c" /\
  parse (lit "a{{b}}c") Strict = Ok [FLit (lit "a{b}c")].
Proof. vm_compute. split; reflexivity. Qed.

(** C20.  After any well-formed beginning, a single closing brace is rejected
    unless it is followed by a closing brace or by a doubled opening brace; a single
    opening brace that is never closed is rejected. *)
Theorem C20_lone_close_rejected : forall m items text b, items_ok m items -> not_brace b ->
  exists e, parse (show_items items ++ escape text ++ 125 :: b) m = Err e.
Proof. exact parse_lone_close. Qed.
Print Assumptions C20_lone_close_rejected.

Theorem C20_lone_open_rejected : forall m items text b, items_ok m items ->
  (match b with c :: _ => c <> 123 | [] => True end) -> ~ In 125 b ->
  exists e, parse (show_items items ++ escape text ++ 123 :: b) m = Err e.
Proof. exact parse_lone_open. Qed.
Print Assumptions C20_lone_open_rejected.

(** C20 fails in the remaining case: the two closing braces of [}{{}] are not
    adjacent, but count as an escape. *)
Theorem C20_unbalanced_refuted : exists m, parse (lit "}{{}") m = Ok [FLit (lit "}{}")].
Proof. exists Strict. vm_compute. reflexivity. Qed.
Print Assumptions C20_unbalanced_refuted.

Example C20_ex : (exists e, parse (lit "{=u8} a{{b} c") Strict = Err e) /\
  (exists e, parse (lit "a } b") Strict = Err e) /\ (exists e, parse (lit "a { b") Strict = Err e).
Proof. vm_compute. repeat split; eexists; reflexivity. Qed.

(** C21. *)
Theorem C21_strict_implies_compatible : forall s fs,
  parse s Strict = Ok fs -> parse s ForwardsCompatible = Ok fs.
Proof. exact strict_implies_fc. Qed.
Print Assumptions C21_strict_implies_compatible.

Theorem C21_compatible_only_adds_hints : forall s fs, parse s ForwardsCompatible = Ok fs ->
  parse s Strict = Ok fs \/
  exists h, parse s Strict = Err (UnknownDisplayHint h) /\
    exists p, In (FParam p) fs /\ p_hint p = Some (HUnknown h).
Proof. exact fc_strict. Qed.
Print Assumptions C21_compatible_only_adds_hints.

Example C21_ex : parse (lit "{=u8:new}") Strict = Err (UnknownDisplayHint (lit "new")) /\
  exists fs, parse (lit "{=u8:new}") ForwardsCompatible = Ok fs.
Proof. vm_compute. split; [|eexists]; reflexivity. Qed.

(** C22 is false: *)
Theorem C22_parse_total_refuted : exists s m, parse s m = Panic.
Proof. exists (lit "{=1}"), Strict. vm_compute. reflexivity. Qed.
Print Assumptions C22_parse_total_refuted.

Theorem C22_index_overflow_refuted : parse (lit "{18446744073709551615}") Strict = Panic.
Proof. vm_compute. reflexivity. Qed.
Print Assumptions C22_index_overflow_refuted.

(** Exactly which parameters panic. *)
Theorem C22_param_panic_iff : forall s m, parse_param s m = Panic <-> panicking_param s.
Proof. exact parse_param_panic. Qed.
Print Assumptions C22_param_panic_iff.

(** Strings in which every number after [=] is followed by [..] and no explicit index
    is [usize::MAX] do not panic. *)
Theorem C22_parse_total_partial : forall s m, ranges_complete s -> indices_small s ->
  Z.of_nat (length s) < usize_max ->
  (exists fs, parse s m = Ok fs) \/ (exists e, parse s m = Err e).
Proof. exact parse_no_panic. Qed.
Print Assumptions C22_parse_total_partial.

Example C22_ex : ranges_complete (lit "{=0..4} {=u8:x} }") /\ indices_small (lit "{=0..4} {=u8:x} }").
Proof. exact C22_ex_lemma. Qed.

(** C45.  Every sequence of literals and parameters, written down, parses to its
    meaning. *)
Theorem C45_show_parse : forall m items, items_ok m items ->
  well_typed (frag_params (meaning 0 items)) ->
  (forall p, In p (frag_params (meaning 0 items)) -> p_index p < usize_max) ->
  parse (show_items items) m = Ok (meaning 0 items).
Proof. exact parse_show_items. Qed.
Print Assumptions C45_show_parse.

Example C45_ex : items_ok Strict ex_items /\ well_typed (frag_params (meaning 0 ex_items)) /\
  show_items ex_items = lit "x={{ {1=0..8:#04x} {=[u8;4]:a}{2}".
Proof. exact C45_ex_lemma. Qed.
