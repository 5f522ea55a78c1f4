(** Property C55: that the output is JSON, by the grammar of RFC 8259 and with no reader of our own. *)
From Verif Require Import Base Utf8 ParserModel DecoderModel Numerals DisplayModel SymbolModel EnvFilterModel LogFormatModel SinkModel SinkSpec SinkProofs SinkExamples.
From Verif Require Import JsonSpec JsonDocument.

(** The reader used in the other theorems of C55 and in C73 accepts exactly the documents of the grammar, with the value they denote. *)
Theorem C55_document : forall s j, json_document s = Some j <-> document j s.
Proof. exact document_iff. Qed.
Print Assumptions C55_document.

(** So what the host writes is a document for what it has to say, and for nothing else. *)
Theorem C55_document_written : forall j, json_ok j -> document j (json_text j) /\ forall k, document k (json_text j) -> k = j.
Proof.
  intros j H. assert (D : document j (json_text j)) by (apply document_iff; exact (document_read j H)).
  split; [exact D|]. intros k K. exact (denotes_one _ _ _ K D).
Qed.
Print Assumptions C55_document_written.

Example C55_document_ex : document (JObj [(lit "a", JArr [JInt (-12); JNull]); (lit "b", JStr (lit "x/y"))]) (lit " { ""a"" : [ -12 ,null],""b"":""x\/y"" } ").
Proof. apply C55_document. vm_compute. reflexivity. Qed.
Example C55_document_not_ex : forall j, ~ document j (lit "[1,]") /\ ~ document j (lit "{""a"" 1}") /\ ~ document j (lit "012") /\ ~ document j (lit "[1] 2") /\ ~ document j (lit """a").
Proof. intros j. repeat split; intros D; apply C55_document in D; vm_compute in D; discriminate. Qed.
Example C55_document_sample_ex : document sample (json_text sample).
Proof. apply C55_document. vm_compute. reflexivity. Qed.
