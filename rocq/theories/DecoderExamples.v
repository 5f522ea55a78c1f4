(** Concrete tables for the non-vacuity examples. *)
From Verif Require Import Base Utf8 RzcobsModel ParserModel ParserProofs DecoderModel DecoderProofs DecoderPanic.

Definition ent (g : tag) (s : string) : entry := MkEntry g (lit s) [].

(** A small program: [info!("x={=u8} {=?}", ..)], [Option], [u8], a timestamp. *)
Definition ex_table : table := MkTable
  (Some (ent GTimestamp "{=u8:us}"))
  [ (1, ent GInfo "x={=u8} {=?}"); (2, ent GDerived "None|Some({=?})"); (3, ent GPrim "{=u16}");
    (4, ent GPrintln "{=bool}|{0=bool}") ]
  [] EncRzcobs.

(** index 1, timestamp 7, x = 200, Some(0x1234), one more byte. *)
Definition ex_bytes : bytes := [1; 0; 7; 200; 2; 0; 1; 3; 0; 52; 18; 99].

Lemma lookup_in : forall es i e, lookup_entry i es = Some e -> In (i, e) es.
Proof.
  induction es as [|[j x] es IH]; intros i e H; cbn in H; [discriminate|].
  destruct (Z.eqb_spec i j); [inversion H; subst; cbn; auto|]. right. auto.
Qed.

Definition safe_b (s : bytes) : bool :=
  match parse s ForwardsCompatible with Panic => false | _ => true end.

Definition table_safe_b (t : table) : bool :=
  match t_timestamp t with Some e => safe_b (e_string e) | None => true end &&
  forallb (fun ie => safe_b (e_string (snd ie)) &&
                     forallb safe_b (split_on 124 (e_string (snd ie)))) (t_entries t).

Lemma safe_b_ok : forall s, safe_b s = true -> parse_safe s.
Proof. unfold safe_b, parse_safe. intros s H E. rewrite E in H. discriminate. Qed.

Lemma table_safe_b_ok : forall t, table_safe_b t = true -> table_safe t.
Proof.
  intros t H. unfold table_safe_b in H. apply andb_true_iff in H as [H1 H2].
  rewrite forallb_forall in H2. split; [|split].
  - intros e E. rewrite E in H1. apply safe_b_ok; auto.
  - intros i e E. apply lookup_in, H2 in E. apply andb_true_iff in E as [E _]. apply safe_b_ok; auto.
  - intros i e v E _ Hv. apply lookup_in, H2 in E. apply andb_true_iff in E as [_ E].
    rewrite forallb_forall in E. apply safe_b_ok; auto.
Qed.

Lemma ex_table_safe : table_safe ex_table.
Proof. apply table_safe_b_ok. vm_compute. reflexivity. Qed.

Lemma C10_lemma : forall t b f n,
  decode t b = Ok (f, n) ->
  (n <= length b)%nat /\
  (forall rest, decode t (firstn n b ++ rest) = Ok (f, n)) /\
  (forall rest, decode t (b ++ rest) = Ok (f, n)).
Proof.
  intros t b f n H. destruct (decode_extend _ _ _ _ H) as [A B]. repeat split; auto.
  intro rest. rewrite <- (firstn_skipn n b), <- app_assoc. apply B.
Qed.

Lemma C12_terminates_lemma : forall t b,
  decode t b <> NoFuel /\
  forall fuel, (length b < fuel)%nat -> decode_fuel t fuel b = decode_fuel t (S (length b)) b.
Proof.
  intros t b. split; [apply decode_no_fuel|]. intros fuel H. apply decode_fuel_enough; lia.
Qed.

Definition ex_panic_table : table := MkTable None
  [ (1, ent GInfo "{=?}"); (2, ent GStr "{=1}") ] [] EncRzcobs.

Lemma C12_refuted_lemma : exists t b,
  decode t b = Panic /\
  forall i e, lookup_entry i (t_entries t) = Some e -> e_tag e <> GStr ->
    exists fs, parse (e_string e) Strict = Ok fs.
Proof.
  exists ex_panic_table, [1; 0; 2; 0]. split; [vm_compute; reflexivity|].
  intros i e H. apply lookup_in in H. cbn in H. destruct H as [H|[H|[]]]; inversion H; subst; clear H.
  - intros _. eexists. vm_compute. reflexivity.
  - intro X. exfalso. apply X. reflexivity.
Qed.
