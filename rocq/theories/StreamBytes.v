(** The stream of any frames, whether or not they can be decoded with a table (C05). *)
From Verif Require Import Base RzcobsModel RzcobsProofs DecoderModel StreamModel StreamSpec StreamProofs.

Theorem frames_bytes : forall fs, Forall (fun f => concat f <> []) fs ->
  incomplete (snd (frames_chunks enc_new fs)) = [] /\
  Forall2 (fun f body => exists k, (k <= 6)%nat /\ rzcobs_decode body = Ok (concat f ++ repeat 0 k))
    fs (messages (snd (frames_chunks enc_new fs))).
Proof.
  intros fs H. destruct fs as [|f fs]; [split; [reflexivity|constructor]|].
  rewrite fresh_started. destruct (frames_feed (f :: fs) (Encoder 0 0 true)) as (bodies & F & G);
    [split; reflexivity|reflexivity|exact H|].
  assert (E : (messages (0 :: snd (frames_chunks (Encoder 0 0 true) (f :: fs))),
    incomplete (0 :: snd (frames_chunks (Encoder 0 0 true) (f :: fs)))) = (bodies, [])).
  { rewrite <- feed_spec. cbn [feed]. change (0 =? 0) with true. cbn iota. rewrite F. reflexivity. }
  set (l := 0 :: _) in *. clearbody l. inversion E; subst. split; [congruence|exact G].
Qed.

(** So what the host does with the stream is what it does with the frames, one by one:
    nothing of a frame gets into another. *)
Theorem frames_results : forall t fs chunks, Forall (fun f => concat f <> []) fs ->
  concat chunks = snd (frames_chunks enc_new fs) ->
  exists bodies, host_run EncRzcobs t [] chunks = show_messages t bodies [] /\
    Forall2 (fun f body => exists k, (k <= 6)%nat /\
      message_result t body = match decode t (concat f ++ repeat 0 k) with
                              | Ok (fr, _) => Ok fr
                              | Err _ => Err Malformed
                              | Panic => Panic
                              | NoFuel => NoFuel
                              end) fs bodies.
Proof.
  intros t fs chunks H C. destruct (frames_bytes fs H) as [I F]. rewrite <- C in *.
  exists (messages (concat chunks)). split; [rewrite C07_run_lemma, I; reflexivity|].
  revert F. generalize (messages (concat chunks)). clear. intros bodies F. induction F as [|f b fs bs (k & K & E) F IH]; constructor; [|exact IH].
  exists k. split; [exact K|]. unfold message_result. rewrite E. reflexivity.
Qed.
