(** Records whose target has the marker of frames (C55). *)
From Verif Require Import Base Utf8 ParserModel DecoderModel DisplayModel LogFormatModel SinkModel SinkSpec SinkProofs SinkMain.

Lemma strip_marker : forall payload, strip_prefix target_marker (target_marker ++ payload) = Some payload.
Proof. intros payload. reflexivity. Qed.

Theorem target_panics : forall Y colors host_segs verbose now lr payload,
  lr_target lr = target_marker ++ payload ->
  (json_sink Y colors host_segs verbose now lr = Panic <-> read_payload payload = Err tt) /\
  (forall segs, read_payload payload = Err tt -> text_sink Y colors segs host_segs verbose lr = Panic).
Proof.
  intros Y colors hs verbose now lr payload T. unfold json_sink, text_sink, should_log, is_defmt_frame, defmt_record.
  rewrite T, strip_marker. cbn [orb]. rewrite ?orb_true_r. split.
  - destruct (payload_total payload) as [([l ts] & E)|E]; rewrite E; cbn [bind]; split; congruence || (intros; discriminate) || auto.
  - intros segs E. rewrite E. reflexivity.
Qed.
