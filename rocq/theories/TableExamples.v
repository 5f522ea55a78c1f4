(** A concrete binary and its table. *)
From Verif Require Import Base Utf8 ParserModel DecoderModel Numerals DisplayModel EnvFilterModel EnvFilterSpec SymbolModel SymbolProofs
  TableModel TableSpec.

Definition app : bytes := lit "app".
Definition in_defmt (name : bytes) (a : Z) : elf_symbol := MkElfSymbol (Some name) (Some 5) a 1.
Definition flag_at (name : bytes) (a : Z) : elf_symbol := MkElfSymbol (Some name) (Some 5) a 16.

(** A message with a quote, a line break, an at sign and a snowman. *)
Definition odd_text : bytes := lit "say """ ++ [10] ++ lit "a@b" ++ [226; 152; 131] ++ lit " {=u8}".

Definition sample_symbols : list elf_symbol := [
  MkElfSymbol (Some (lit "main")) (Some 1) 4096 12;
  MkElfSymbol (Some (lit "_defmt_version_ = 4")) None 1 0;
  in_defmt (interned app 7 app (lit "info") odd_text) 3;
  MkElfSymbol (Some (lit "_defmt_encoding_ = rzcobs")) None 2 0;
  in_defmt (interned app 8 app (lit "prim") (lit "{=u8}")) 1;
  in_defmt (interned app 9 app (lit "println") (lit "hello")) 2;
  in_defmt (interned app 10 app (lit "timestamp") (lit "{=u32:us}")) 4;
  flag_at (interned app 11 app (lit "bitflags_value") (lit "F::1::B")) 21;
  flag_at (interned app 11 app (lit "bitflags_value") (lit "F::0::A")) 5;
  MkElfSymbol (Some (lit "_defmt_trace_start")) (Some 5) 1 0;
  MkElfSymbol None (Some 5) 1 0].

Definition sample_data : bytes := repeat 0 5 ++ le_bytes 16 1 ++ le_bytes 16 2.
Definition sample_elf : elf := MkElf sample_symbols (Some (5, Some sample_data)).

Definition sample_table : table :=
  MkTable (Some (MkEntry GTimestamp (lit "{=u32:us}") (interned app 10 app (lit "timestamp") (lit "{=u32:us}"))))
    [(1, MkEntry GPrim (lit "{=u8}") (interned app 8 app (lit "prim") (lit "{=u8}")));
     (2, MkEntry GPrintln (lit "hello") (interned app 9 app (lit "println") (lit "hello")));
     (3, MkEntry GInfo odd_text (interned app 7 app (lit "info") odd_text))]
    [(MkKey (lit "F") app (lit "11") (Some app), [(lit "A", 1); (lit "B", 2)])] EncRzcobs.

Lemma sample_parses : parse_elf true sample_elf = Ok (Some sample_table).
Proof. vm_compute. reflexivity. Qed.

Lemma sample_addresses : addresses_ok sample_elf.
Proof. repeat constructor; vm_compute; congruence. Qed.

(** A frame whose index is that of a primitive's string is taken for a message. *)
Lemma sample_not_a_message : exists fr n, decode sample_table [1; 0; 0; 0; 0; 0; 42] = Ok (fr, n) /\
  f_index fr = 1 /\ f_level fr = None /\ ~ In (f_index fr) (indices sample_table).
Proof.
  do 2 eexists. split; [vm_compute; reflexivity|]. split; [reflexivity|]. split; [reflexivity|].
  vm_compute. intuition discriminate.
Qed.

Lemma not_only_log_statements : exists t b fr n, parse_elf true sample_elf = Ok (Some t) /\
  decode t b = Ok (fr, n) /\ ~ In (f_index fr) (indices t).
Proof.
  destruct sample_not_a_message as (fr & n & D & _ & _ & N). exists sample_table, [1; 0; 0; 0; 0; 0; 42], fr, n.
  split; [exact sample_parses|auto].
Qed.

Lemma overflow_panics : exists f, addresses_ok f /\ parse_elf true f = Panic.
Proof.
  exists (MkElf (flag_at (interned app 11 app (lit "bitflags_value") (lit "F::0::A")) (2 ^ 64 - 1) :: sample_symbols) (Some (5, Some sample_data))).
  split; [|vm_compute; reflexivity]. constructor; [vm_compute; split; congruence|exact sample_addresses].
Qed.
