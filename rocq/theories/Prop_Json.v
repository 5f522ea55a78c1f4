(** Property C79: symbol names are read as JSON, exactly. *)
From Verif Require Import Base Utf8 ParserModel DecoderModel Numerals DisplayModel SymbolModel SymbolProofs JsonSpec JsonScalars JsonValues JsonProofs JsonExamples.
From Coq Require Permutation.

(** C79.  A name is a symbol exactly if it is one of the JSON texts of that symbol. *)
Theorem C79_exact : forall raw y, demangle raw = Ok y <-> symbol_text y raw.
Proof. exact demangle_iff. Qed.
Print Assumptions C79_exact.

(** Every other name is an error. *)
Theorem C79_otherwise : forall raw, demangle raw = Err tt <-> forall y, ~ symbol_text y raw.
Proof. exact demangle_error_iff. Qed.
Print Assumptions C79_otherwise.

(** No text is two symbols. *)
Theorem C79_one : forall raw y z, symbol_text y raw -> symbol_text z raw -> y = z.
Proof. exact symbol_text_one. Qed.
Print Assumptions C79_one.

(** White space around a symbol, and its order of fields, do not matter. *)
Theorem C79_order : forall ms ms' t w w' y, fields_of ms y -> Permutation.Permutation ms ms' -> object_text ms' t -> blank w -> blank w' ->
  demangle (w ++ t ++ w') = Ok y.
Proof. exact demangle_order. Qed.
Print Assumptions C79_order.

(** What the macros write is one of the texts of the symbol. *)
Theorem C79_written : forall y, symbol_ok y ->
  symbol_text (MkDSymbol (s_package y) (dec_str (s_disambiguator y)) (s_tag y) (s_data y) (Some (s_crate y))) (mangle y).
Proof. exact mangle_text. Qed.
Print Assumptions C79_written.

(** A value of an unknown field is skipped exactly if it is a value. *)
Theorem C79_ignored : forall s, ignore_value (S (length s)) [] s = Ok [] <-> exists w v, s = w ++ v /\ blank w /\ value v.
Proof. exact ignored_iff. Qed.
Print Assumptions C79_ignored.

(** Tabs and line feeds, an upper-case escape, a surrogate pair, an unknown nested field, no crate. *)
Example C79_example : demangle spread = Ok (MkDSymbol (lit "p") (lit "7") (lit "defmt_info") (lit "J" ++ utf8_encode 128512 ++ [9]) None).
Proof. vm_compute. reflexivity. Qed.
Example C79_example_text : symbol_text (MkDSymbol (lit "p") (lit "7") (lit "defmt_info") (lit "J" ++ utf8_encode 128512 ++ [9]) None) spread.
Proof. exact spread_text. Qed.
Example C79_example_array : demangle (lit "[""p"" , ""7"",""defmt_str"",""x"", null ]") = Ok (MkDSymbol (lit "p") (lit "7") (lit "defmt_str") (lit "x") None).
Proof. vm_compute. reflexivity. Qed.
(** No symbols: a lone surrogate, a field twice, a number, a trailing comma, an unknown field with a leading zero, a rest. *)
Example C79_example_none : Forall (fun raw => demangle raw = Err tt /\ forall y, ~ symbol_text y raw) not_symbols.
Proof. exact not_symbols_none. Qed.
