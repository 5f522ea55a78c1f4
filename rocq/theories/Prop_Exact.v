(** When exactly the host fails: for C12, C15, C23, C36, C42, C47, C55, C57 and C58 the situations
    in which the code does not do what the property says, for every table and
    every input. *)
From Verif Require Import Base RzcobsModel ParserModel DecoderModel DecoderPanic DecoderUnsafe StreamModel StreamSpec
  EncodeModel EncodeSpec DeriveProofs EncodeProofs EncodeTop EncodeExamples DeriveNative DeriveShift StreamBytes DisplayModel DisplayEnds HostModel HostSpec HostEnds HostExamples DecoderExamples StreamExamples DisplayExamples SinkModel SinkEnds.

(** C05.  The stream of any non-empty frames, whatever they hold, is cut into exactly these
    frames, each followed by at most six zero bytes, *)
Theorem C05_frames_bytes : forall fs, Forall (fun f => concat f <> []) fs ->
  incomplete (snd (frames_chunks enc_new fs)) = [] /\
  Forall2 (fun f body => exists k, (k <= 6)%nat /\ rzcobs_decode body = Ok (concat f ++ repeat 0 k))
    fs (messages (snd (frames_chunks enc_new fs))).
Proof. exact frames_bytes. Qed.
Print Assumptions C05_frames_bytes.

(** and the host decodes them one by one, also those it rejects or panics on. *)
Theorem C05_frames_results : forall t fs chunks, Forall (fun f => concat f <> []) fs ->
  concat chunks = snd (frames_chunks enc_new fs) ->
  exists bodies, host_run EncRzcobs t [] chunks = show_messages t bodies [] /\
    Forall2 (fun f body => exists k, (k <= 6)%nat /\
      message_result t body = match decode t (concat f ++ repeat 0 k) with
                              | Ok (fr, _) => Ok fr
                              | Err _ => Err Malformed
                              | Panic => Panic
                              | NoFuel => NoFuel
                              end) fs bodies.
Proof. exact frames_results. Qed.
Print Assumptions C05_frames_results.

Example C05_bytes_ex : let fs := [[[1; 2]; [0; 0; 3]]; [[0]]; [[255; 7]]] in
  messages (snd (frames_chunks enc_new fs)) = map (fun f => removelast (snd (frame_chunks (Encoder 0 0 true) f))) fs /\
  map rzcobs_decode (messages (snd (frames_chunks enc_new fs))) =
    [Ok [1; 2; 0; 0; 3; 0; 0]; Ok [0; 0; 0; 0; 0; 0; 0]; Ok [255; 7; 0; 0; 0; 0; 0]].
Proof. vm_compute. split; reflexivity. Qed.

(** C12.  Decoding panics on some bytes exactly if the parser panics on an
    entry of the table, or on an alternative of an entry that is not a log
    message; for tables with a message that begins with a nested value. *)
Theorem C12_panics_iff : forall t k tb, indices_u16 t -> strings_fit t -> stamp t tb -> carries_value t k ->
  ((exists b, decode t b = Panic) <->
   exists i e, lookup_entry i (t_entries t) = Some e /\
     (parse (e_string e) ForwardsCompatible = Panic \/
      tag_level (e_tag e) = None /\
      exists v, In v (split_on 124 (e_string e)) /\ parse v ForwardsCompatible = Panic)).
Proof. exact decode_panics_iff. Qed.
Print Assumptions C12_panics_iff.

(** For any table, an index of an entry the parser panics on does it, whatever follows. *)
Theorem C12_entry_panics : forall t i e tb, stamp t tb -> 0 <= i < 65536 -> lookup_entry i (t_entries t) = Some e ->
  parse (e_string e) ForwardsCompatible = Panic -> forall rest, decode t (le_bytes 2 i ++ tb ++ rest) = Panic.
Proof. exact whole_panics. Qed.
Print Assumptions C12_entry_panics.

Example C12_panics_ex : indices_u16 stamped /\ strings_fit stamped /\ stamp stamped [7; 0; 0; 0] /\ carries_value stamped 1 /\
  harmful stamped 3 /\ decode stamped [1; 0; 7; 0; 0; 0; 3; 0] = Panic /\ ~ harmful stamped 2.
Proof. exact stamped_ok. Qed.

(** C15.  For the three numbers of variants the host reads half of the discriminant: it
    finds the right variant and leaves zero bytes in front of its fields. *)
Theorem C15_shift : forall variants j name k fs,
  nth_error variants j = Some (name, k, fs) -> Forall variant_ok variants ->
  (let n := Z.of_nat (length variants) in n = 256 \/ n = 65536 \/ n = 2 ^ 32) ->
  exists w, (0 < w)%nat /\ discriminant_bytes (Z.of_nat (length variants)) = (w + w)%nat /\
  forall fields,
    get_variant (enum_str variants) (le_bytes (discriminant_bytes (Z.of_nat (length variants))) (Z.of_nat j) ++ fields) =
    Ok (name ++ fields_str k fs, repeat 0 w ++ fields).
Proof. exact variant_shift. Qed.
Print Assumptions C15_shift.

(** C36.  Every entry is taken as a message, whatever its tag: the level is that
    of the tag, and the index need not be one of a log statement. *)
Theorem C36_any_entry : forall t i e tb ab args rest, stamp t tb -> 0 <= i < 65536 -> lookup_entry i (t_entries t) = Some e ->
  decode_format t (S (length (le_bytes 2 i ++ tb ++ ab ++ rest))) (e_string e) (ab ++ rest) = Ok (args, rest) ->
  exists fr, decode t (le_bytes 2 i ++ tb ++ ab ++ rest) = Ok (fr, (2 + length tb + length ab)%nat) /\
    f_index fr = i /\ f_level fr = tag_level (e_tag e) /\ f_format fr = e_string e /\ f_args fr = args.
Proof. exact any_entry. Qed.
Print Assumptions C36_any_entry.

Theorem C36_indices_exact : forall t i e, NoDup (map fst (t_entries t)) -> lookup_entry i (t_entries t) = Some e ->
  (In i (indices t) <-> is_log_tag (e_tag e) = true).
Proof. exact indices_logs. Qed.
Print Assumptions C36_indices_exact.

Example C36_any_ex : exists fr, decode stamped [2; 0; 7; 0; 0; 0; 9] = Ok (fr, 7%nat) /\ f_format fr = lit "A|B({=u8})" /\
  ~ In 2 (indices stamped).
Proof. eexists. split; [vm_compute; reflexivity|]. split; [reflexivity|]. vm_compute. intros [H|[]]; discriminate. Qed.

(** C57.  defmt-print ends with success only when it reads the standard input
    to its end and does not watch the file: never over a connection or a serial
    port, and never with [--watch-elf]. *)
Theorem C57_success_only : forall watch json s file hs, snd (defmt_print watch json s file hs) = Finished true ->
  watch = false /\ s = Stdin /\ In (Read (Ok [])) hs.
Proof. exact print_success. Qed.
Print Assumptions C57_success_only.

(** Whatever was received, a closed connection is read without end, *)
Theorem C57_connection_forever : forall watch json s p n, s <> Stdin ->
  phase_fine (MkPhase (ph_table p) [concat (ph_chunks p)] (ph_events p)) ->
  exists buf, defmt_print watch json s (Loads (ph_table p)) (reads (ph_chunks p) ++ closed n) =
    (phase_shown json p, Running (ph_table p) buf).
Proof. exact closed_runs. Qed.
Print Assumptions C57_connection_forever.

(** and the end of a watched standard input is a restart each time it is read. *)
Theorem C57_watch_forever : forall p n, phase_fine p -> Forall some_bytes (ph_chunks p) ->
  exists buf, defmt_print true true Stdin (Loads (ph_table p)) (reads (ph_chunks p) ++ closed n) =
    (phase_shown true p ++ repeat Schema n, Running (ph_table p) buf).
Proof. exact schema_each_time. Qed.
Print Assumptions C57_watch_forever.

(** A half-written file ends the program at any time, with everything that comes later lost. *)
Theorem C57_half_written : forall json s p hs, phase_fine p -> s <> Stdin \/ Forall some_bytes (ph_chunks p) ->
  defmt_print true json s (Loads (ph_table p)) (reads (ph_chunks p) ++ Replaced Unusable :: hs) = (phase_shown json p, Finished false).
Proof. exact HostProofs.unusable_run. Qed.
Print Assumptions C57_half_written.

Example C57_forever_ex : phase_fine (MkPhase ex_table [[255; 0]] [EvSkipped]).
Proof. exists []. vm_compute. reflexivity. Qed.

(** C58.  Whatever signal ends QEMU, qemu-run reports success if the output could be decoded. *)
Theorem C58_killed : forall X t fs frs ls pieces last n rest, table_safe t -> Forall2 (frame_decodes t) fs frs ->
  sent t fs (qemu_output pieces last rest) -> Forall2 (line_of X t) frs ls ->
  qemu_run X t (qemu_turns pieces last (Signal n) rest) = (ls, Some 0).
Proof. exact qemu_killed_any. Qed.
Print Assumptions C58_killed.

(** C55.  A record that claims to be a frame makes the sinks panic exactly if what follows
    the marker is not readable as a payload. *)
Theorem C55_target_panics_iff : forall Y colors host_segs verbose now lr payload,
  lr_target lr = target_marker ++ payload ->
  (json_sink Y colors host_segs verbose now lr = Panic <-> read_payload payload = Err tt) /\
  (forall segs, read_payload payload = Err tt -> text_sink Y colors segs host_segs verbose lr = Panic).
Proof. exact target_panics. Qed.
Print Assumptions C55_target_panics_iff.

Example C55_target_ex : read_payload (lit "home") = Err tt /\
  read_payload (lit "{""timestamp"":""1"",""level"":""INFO""}") = Ok (Some LInfo, lit "1").
Proof. vm_compute. split; reflexivity. Qed.

(** C23.  A signed integer cannot be shown exactly if it is shown in hexadecimal and its type
    is not a sized one. *)
Theorem C23_panics_iff : forall x t h, format_i128 x t h = None <->
  (forall n, t <> TI n) /\ exists alt up w, h = Some (HHex alt up w).
Proof. exact signed_panics. Qed.
Print Assumptions C23_panics_iff.

Example C23_panics_ex : format_i128 5 TIsize (Some (HHex true false 0)) = None /\ format_i128 5 TIsize None = Some (lit "5").
Proof. split; reflexivity. Qed.

(** C42.  What the host makes of an adapter attribute on a field of a native type, for every
    such type, adapter and value: it reads the native value out of the index of the tag and the text. *)
Theorem C42_native_misread : forall addr tbl name k n ad t p s, variant_ok (name, k, [(n, None, t)]) -> k <> KUnit -> as_native t = Some p ->
  let st := RStruct name k [(n, Some ad, t)] in linked addr tbl (format_tag st) ->
  forall fuel rest,
  decode_ty tbl (decode_format tbl (S fuel)) (S (S fuel)) TFormat
    (put_istr addr (format_tag st) ++ format_data addr st (VList [VText s]) ++ rest) =
  match decode_ty tbl (decode_format tbl fuel) (S fuel) (ty_of_prim p) (put_istr addr (adapter_tag ad) ++ s ++ 255 :: rest) with
  | Ok (a, r) => Ok (AFormat (format_tag st) [a], r)
  | Err e => Err e
  | Panic => Panic
  | NoFuel => NoFuel
  end.
Proof. exact native_misread. Qed.
Print Assumptions C42_native_misread.

(** A field of type u8 is shown as the low byte of the tag's address, whatever its value. *)
Theorem C42_native_misread_u8 : forall addr tbl name k n ad t s, variant_ok (name, k, [(n, None, t)]) -> k <> KUnit -> as_native t = Some (PU W8) ->
  let st := RStruct name k [(n, Some ad, t)] in linked addr tbl (format_tag st) ->
  forall fuel rest,
  decode_ty tbl (decode_format tbl (S fuel)) (S (S fuel)) TFormat
    (put_istr addr (format_tag st) ++ format_data addr st (VList [VText s]) ++ rest) =
  Ok (AFormat (format_tag st) [AUxx (addr (adapter_tag ad) mod 256)], (addr (adapter_tag ad) / 256) mod 256 :: s ++ 255 :: rest).
Proof. exact native_misread_u8. Qed.
Print Assumptions C42_native_misread_u8.

Example C42_native_ex : variant_ok (lit "S", KNamed, [(lit "x", None, RPrim (PU W8))]) /\ as_native (RPrim (PU W8)) = Some (PU W8).
Proof. split; [ok_tac; ident_tac|reflexivity]. Qed.

(** C47.  Inside a hand-written format the host never selects an alternative: whatever it makes
    of a delegated value, it shows it with the whole string of its type. *)
Theorem C47_delegate_whole : forall addr tbl t v, strip t <> RManual -> linked addr tbl (format_tag t) -> linked addr tbl (format_tag RManual) ->
  forall fuel rest a r,
  decode_ty tbl (decode_format tbl (S fuel)) (S (S fuel)) TFormat
    (put_istr addr (format_tag RManual) ++ format_data addr RManual (VWrites [SDelegate t v]) ++ rest) = Ok (a, r) ->
  exists args more, a = AFormat (lit "{=__internal_FormatSequence}") [AFormatSequence (AFormat (format_tag t) args :: more)].
Proof. exact delegate_whole. Qed.
Print Assumptions C47_delegate_whole.

Example C47_whole_ex : format_tag (option_ty (RPrim (PU W8))) = lit "None|Some({=?})".
Proof. reflexivity. Qed.
