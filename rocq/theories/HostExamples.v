(** The host programs on concrete streams. *)
From Verif Require Import Base RzcobsModel ParserModel DecoderModel DecoderPanic DecoderExamples StreamModel StreamSpec StreamProofs StreamExamples
  DisplayModel DisplayExamples HostModel HostSpec HostProofs.

Lemma host_ex : exists fr1 fr2, table_safe ex_table /\ Forall2 (frame_decodes ex_table) ex_frames [fr1; fr2] /\
  sent ex_table ex_frames (concat ex_chunks) /\ Forall some_bytes ex_chunks /\
  defmt_print false true Stdin (Loads ex_table) (reads ex_chunks ++ [Read (Ok [])]) =
    ([Schema; Event ex_table (EvFrame fr1); Event ex_table (EvFrame fr2)], Finished true).
Proof.
  do 2 eexists. split; [exact ex_table_safe|]. split.
  { repeat (apply Forall2_cons; [eexists; vm_compute; reflexivity|]). constructor. }
  split; [vm_compute; reflexivity|]. split; [|vm_compute; reflexivity].
  vm_compute. repeat constructor; discriminate.
Qed.

(** A connection that is closed after the frames. *)
Lemma closed_forever : exists s t chunks, phase_fine (MkPhase t chunks [EvSkipped]) /\
  forall json n ok, snd (defmt_print false json s (Loads t) (reads chunks ++ closed n)) <> Finished ok.
Proof.
  exists Tcp, ex_table, [[255; 0]]. split.
  - exists []. vm_compute. reflexivity.
  - intros json n ok. rewrite closed_run by discriminate. replace (host_run _ _ _ _) with ([EvSkipped], Waiting []) by (vm_compute; reflexivity).
    discriminate.
Qed.

(** The linker creates the file, writes a part of it, then the rest. *)
Lemma half_written : exists t t' chunks, phase_fine (MkPhase t' chunks [EvSkipped]) /\
  forall json s hs, defmt_print true json s (Loads t) (Replaced Unusable :: Replaced (Loads t') :: reads chunks ++ hs) =
    ((if json then [Schema] else []), Finished false).
Proof.
  exists ex_table, ex_table, [[255; 0]]. split.
  - exists []. vm_compute. reflexivity.
  - intros json s hs. destruct json; reflexivity.
Qed.

(** With [--watch-elf], the end of the standard input does not end the program: it prints
    the version of the schema again and again. *)
Lemma schema_forever : exists t, forall n, exists buf,
  defmt_print true true Stdin (Loads t) (closed n) = (Schema :: repeat Schema n, Running t buf).
Proof.
  exists ex_table. intros n. destruct (stdin_watch_run true (MkPhase ex_table [] []) n (ex_intro _ [] eq_refl) (Forall_nil _)) as (buf & E).
  exists buf. cbn [ph_chunks reads map app ph_table] in E. rewrite E. unfold phase_shown. cbn [map app ph_events ph_table].
  f_equal. f_equal. unfold closed. clear E. induction n as [|n IH]; [reflexivity|]. cbn [repeat flat_map schema app]. f_equal. apply IH.
Qed.

(** ** qemu-run *)

Definition qemu_ex_turns (s : exit_status) : list qturn := qemu_turns (firstn 5 ex_chunks) [] s (concat (skipn 5 ex_chunks)).

Lemma qemu_ex : qemu_run X0 ex_table (qemu_ex_turns (Exit 3)) =
  ([lit "0.000007 " ++ x_paint X0 LInfo (lit "INFO") ++ lit " x=200 Some(4660)" ++ [10]; lit "0.000009 true|true" ++ [10]], Some 3).
Proof. vm_compute. reflexivity. Qed.

Lemma qemu_killed : exists ls, qemu_run X0 ex_table (qemu_ex_turns (Signal 9)) = (ls, Some 0).
Proof. eexists. vm_compute. reflexivity. Qed.

Lemma qemu_damaged_ex : qemu_run X0 ex_table (qemu_turns [[255]; [0]] (concat ex_chunks) (Exit 0) []) = ([], Some 1).
Proof. vm_compute. reflexivity. Qed.
