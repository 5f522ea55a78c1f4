From Verif Require Import Base RzcobsModel DecoderModel DecoderPanic StreamModel StreamSpec StreamProofs
  DecoderExamples.

(** Two frames in several writes; the stream cut byte by byte. *)
Definition ex_frames : list (list bytes) :=
  [ [[1; 0]; [7]; [200; 2; 0]; [1; 3; 0; 52; 18]]; [[4; 0]; [9; 1]] ].
Definition ex_chunks : list bytes := map (fun b => [b]) (snd (frames_chunks enc_new ex_frames)).

Lemma C05_ex_lemma : exists fr1 fr2,
  table_safe ex_table /\
  Forall2 (fun f fr => exists n, decode ex_table (concat f) = Ok (fr, n)) ex_frames [fr1; fr2] /\
  concat ex_chunks = snd (frames_chunks enc_new ex_frames).
Proof.
  do 2 eexists. split; [exact ex_table_safe|]. split; [|vm_compute; reflexivity].
  repeat (apply Forall2_cons; [eexists; vm_compute; reflexivity|]). constructor.
Qed.

Lemma C06_ex_lemma : exists fr1 fr2,
  Forall2 (fun f fr => exists n, decode ex_table (concat f) = Ok (fr, n)) ex_frames [fr1; fr2] /\
  host_run EncRzcobs ex_table [] [[7; 7; 0; 1]; snd (frames_chunks enc_new ex_frames)] =
    ([EvSkipped; EvSkipped; EvFrame fr1; EvFrame fr2], Waiting []).
Proof.
  do 2 eexists. split; [|vm_compute; reflexivity].
  repeat (apply Forall2_cons; [eexists; vm_compute; reflexivity|]). constructor.
Qed.

Lemma C09_ex_lemma : exists fr1 fr2,
  Forall2 (fun b fr => decode ex_table b = Ok (fr, length b)) (map (@List.concat Z) ex_frames) [fr1; fr2] /\
  decode ex_table [1; 0; 7] = Err UnexpectedEof.
Proof.
  do 2 eexists. split; [|vm_compute; reflexivity]. repeat (apply Forall2_cons; [vm_compute; reflexivity|]). constructor.
Qed.
