(** Linked programs. *)
From Verif Require Import Base Utf8 ParserModel DecoderModel DecoderPanic DecoderExamples EncodeModel EncodeSpec EncodeTop EncodeExamples Numerals DisplayModel DisplayExamples TextSpec StreamModel RzcobsModel
  LogFormatModel LogFormatSpec LogFormatExamples SymbolModel SinkModel SinkSpec SinkMain SinkExamples HostModel HostSpec
  LoggerModel LoggerSpec LoggerMain DeviceModel DeviceSpec DeviceProofs DeviceLive DeviceRun DeviceMain DeviceExamples
  TableModel TableSpec FlagsModel FlagsSpec LinkModel LinkSpec LinkProofs LinkMain LinkTable LinkLevels LinkHost LinkDevice LinkSize.
From Coq Require Import Permutation.

Definition app_at (n : Z) : invocation := MkInvocation (lit "app") n (lit "app").
Definition lib_at (n : Z) : invocation := MkInvocation (lit "driver") n (lit "driver").

(** Two crates; the second one has an unused string and a type of flags of which one is disabled. *)
Definition sample_program : program := MkProgram (MkFeatures false true false) 8
  [MkUse (app_at 1) (ULog LInfo (lit "n = {=u8}")) true;
   MkUse (app_at 2) (UPrintln (lit "hi")) true;
   MkUse (lib_at 3) (UWrite (lit "unused")) false;
   MkUse (lib_at 4) (UBitflags (lit "Flags") W8 [MkFlag (lit "A") 1 true; MkFlag (lit "B") 2 false; MkFlag (lit "C") 4 true]) true;
   MkUse (app_at 5) (UTimestamp (lit "{=u64:us}")) true;
   MkUse (app_at 6) ULogger false;
   MkUse (lib_at 7) (ULog LError (lit "n = {=u8}")) true;
   MkUse (app_at 8) (UInternp (lit "{=u16}")) true;
   MkUse (app_at 9) (ULog LInfo (lit "n = {=u8}")) true]
  [lit "main"] [lit "_defmt_acquire"; lit "_defmt_write"; lit "_defmt_release"; lit "_defmt_timestamp"; lit "_defmt_panic"].

Definition get_image (p : program) : image := match link p with Ok k => k | _ => MkImage [] [] [] [] end.
Definition sample_image : image := Eval vm_compute in get_image sample_program.

Lemma sample_linked : link sample_program = Ok sample_image.
Proof. vm_compute. reflexivity. Qed.

Lemma sample_ok : program_ok sample_program.
Proof.
  split; [reflexivity|]. repeat (constructor; [split; [reflexivity|]; split; [reflexivity|]; split; [cbn; lia|]|]); try constructor; try reflexivity;
    cbn [u_macro u_at flags_at bf_ident bf_package bf_crate bf_flags bf_width bf_disambiguator i_package i_crate i_disambiguator lib_at].
  - repeat constructor; try reflexivity; cbn; intuition discriminate.
  - split; [cbn; intuition discriminate|]. split; [|split; [lia|reflexivity]].
    repeat (constructor; [split; [reflexivity|]; split; [cbn; intuition discriminate|cbn; lia]|]). constructor.
Qed.

(** The symbols in an order of the linker, with markers and a function. *)
Definition sample_others : list elf_symbol :=
  [MkElfSymbol (Some (lit "main")) (Some 1) 134217728 64; MkElfSymbol (Some (lit "__DEFMT_MARKER_END")) (Some 7) 65 0; MkElfSymbol None None 0 0].
Definition sample_file : elf := MkElf (rev (map (static_symbol 7) (im_placed sample_image)) ++ sample_others) (Some (7, Some (im_data sample_image))).

Lemma not_named : forall n l, existsb (beq n) l = false -> ~ In n l.
Proof.
  intros n l E I. assert (existsb (beq n) l = true); [|congruence]. apply existsb_exists. exists n. split; [exact I|apply beq_refl].
Qed.

Lemma sample_binary : binary sample_program sample_image 7 sample_file.
Proof.
  split; [reflexivity|]. exists sample_others. split.
  - unfold sample_file. cbn [elf_symbols]. apply Permutation_app_tail. symmetry. apply Permutation_rev.
  - constructor; [|constructor; [|constructor; [|constructor]]]; (split; [|split; [cbn; lia|]]); cbn [y_name y_section y_address].
    + left. discriminate.
    + split; [apply not_named; vm_compute; reflexivity|]. intros r. repeat split; discriminate.
    + right. exists (lit "END"). reflexivity.
    + split; [apply not_named; vm_compute; reflexivity|]. intros r. repeat split; discriminate.
    + left. discriminate.
    + exact I.
Qed.

Definition get_table (f : elf) : table := match parse_elf true f with Ok (Some t) => t | _ => MkTable None [] [] EncRaw end.
Definition sample_table : table := Eval vm_compute in get_table sample_file.
Lemma sample_parsed : parse_elf true sample_file = Ok (Some sample_table).
Proof. vm_compute. reflexivity. Qed.

(** The strings of the table with their indices, and where everything is. *)
Lemma sample_indices : map (fun x => (fst x, e_tag (snd x), e_string (snd x))) (t_entries sample_table) =
  [(1, GPrim, lit "{=u16}"); (2, GInfo, lit "n = {=u8}"); (3, GInfo, lit "n = {=u8}"); (4, GError, lit "n = {=u8}"); (5, GPrintln, lit "hi");
   (6, GBitflags, lit "{=u8:__internal_bitflags_Flags@driver@4@driver}")] /\
  option_map e_string (t_timestamp sample_table) = Some (lit "{=u64:us}") /\ t_encoding sample_table = EncRzcobs /\
  map snd (t_bitflags sample_table) = [[(lit "A", 1); (lit "C", 4)]] /\
  map (fun x => (snd x, length (st_data (fst x)))) (im_placed sample_image) =
    [(1, 1%nat); (2, 1%nat); (3, 1%nat); (4, 1%nat); (5, 1%nat); (6, 1%nat); (8, 16%nat); (24, 16%nat); (40, 1%nat); (44, 4%nat); (48, 1%nat); (49, 1%nat)] /\
  map snd (im_markers sample_image) = [2; 2; 2; 2; 2; 4; 4; 4; 4; 5; 50] /\
  nth_error (im_calls sample_image) 4 = Some (lit "_defmt_panic", lit "__defmt_default_panic").
Proof. vm_compute. repeat split. Qed.

Lemma sample_widths : forall u v ident w fls w' fls', In u (p_uses sample_program) -> In v (p_uses sample_program) -> u_macro u = UBitflags ident w fls ->
  u_macro v = UBitflags ident w' fls' -> u_at u = u_at v -> w = w'.
Proof.
  intros u v ident w fls w' fls' Iu Iv Mu Mv _. cbn [sample_program p_uses In] in Iu, Iv.
  repeat (destruct Iu as [<-|Iu]; [try discriminate|]); [|destruct Iu]. repeat (destruct Iv as [<-|Iv]; [try discriminate|]); [|destruct Iv].
  cbn [u_macro] in *. congruence.
Qed.

(** Flags are before strings, and before the last marker. *)
Lemma sample_flags : exists flag a text b, In (flag, a) (im_placed sample_image) /\ st_section flag = lit ".defmt.end" /\ st_data flag = le_bytes 16 1 /\
  In (text, b) (im_placed sample_image) /\ st_name text = mangled (app_at 5) (lit "timestamp") (lit "{=u64:us}") /\ a < b < marker end_marker (im_markers sample_image).
Proof.
  do 4 eexists. split; [do 6 right; left; reflexivity|]. split; [vm_compute; reflexivity|]. split; [vm_compute; reflexivity|].
  split; [do 8 right; left; reflexivity|]. split; [vm_compute; reflexivity|]. vm_compute. split; reflexivity.
Qed.

Lemma end_not_last : exists p k flag a text b, program_ok p /\ link p = Ok k /\ In (flag, a) (im_placed k) /\ st_section flag = lit ".defmt.end" /\
  In (text, b) (im_placed k) /\ st_section text = lit ".defmt." ++ st_name text /\ a < b < marker end_marker (im_markers k).
Proof.
  destruct sample_flags as (flag & a & text & b & H1 & H2 & _ & H3 & H4 & H5). exists sample_program, sample_image, flag, a, text, b.
  split; [exact sample_ok|]. split; [exact sample_linked|]. split; [exact H1|]. split; [exact H2|]. split; [exact H3|]. split; [|exact H5].
  pose proof (proj1 (proj1 (placed_iff _ _ sample_ok sample_linked text) (ex_intro _ b H3))) as I. apply statics_origin in I.
  revert H4. destruct I as [u kind g prefix s Iu G E|u ident w fls x Iu M Ix|u s Iu M|u s Iu M| |]; cbn [st_section st_name static_variable]; intros H4;
    try (destruct (mangled_brace (app_at 5) (lit "timestamp") (lit "{=u64:us}")) as [r Er]; rewrite Er in H4; discriminate).
  - destruct (proj2 (interns_string u kind s) (ex_intro _ prefix E)) as (g' & G').
    cbn [sample_program p_uses In] in Iu. exfalso. revert H4. clear - Iu E.
    repeat (destruct Iu as [<-|Iu]; [cbn in E; try discriminate; injection E as <- <- <-; vm_compute; discriminate|]). destruct Iu.
  - exfalso. revert H4. clear - Iu M Ix. cbn [sample_program p_uses In] in Iu.
    repeat (destruct Iu as [<-|Iu]; [cbn [u_macro] in M; try discriminate; injection M as <- <- <-; vm_compute in Ix; repeat (destruct Ix as [<-|Ix]; [vm_compute; discriminate|]); destruct Ix|]). destruct Iu.
  - reflexivity.
Qed.

(** * Programs that are not linked *)
Definition bare (us : list use) (calls : list bytes) : program := MkProgram (MkFeatures false false false) 8 us [] calls.

Lemma not_linked :
  link (MkProgram (MkFeatures true true false) 8 [] [] []) = Err TwoEncodings /\
  link (bare [MkUse (app_at 1) ULogger true; MkUse (lib_at 2) ULogger true] []) = Err Duplicate /\
  link (bare [MkUse (app_at 1) (UTimestamp (lit "{=u8}")) true; MkUse (lib_at 2) (UTimestamp (lit "{=u8}")) false] []) = Err Duplicate /\
  link (bare [MkUse (app_at 1) (UPrintln (lit "x")) true; MkUse (app_at 1) (UPrintln (lit "x")) true] []) = Err Duplicate /\
  link (bare [] [lit "_defmt_acquire"]) = Err Undefined /\
  link (MkProgram (MkFeatures false false true) 8 [] [] [lit "_defmt_panic"]) = Err Undefined /\
  exists k, link (bare [] [lit "_defmt_panic"; lit "_defmt_timestamp"]) = Ok k.
Proof. repeat (split; [vm_compute; reflexivity|]). eexists. vm_compute. reflexivity. Qed.

(** * The program of [DeviceExamples] *)
Definition small_program : program := MkProgram (MkFeatures false false false) 8
  [MkUse (app_at 1) (UPrintln (lit "hi")) true;
   MkUse (app_at 2) (UTimestamp (lit "{=u64:us}")) true;
   MkUse (app_at 3) (ULog LWarn (lit "x = {=u8} {=str}")) true;
   MkUse (app_at 4) ULogger false]
  [lit "main"] [lit "_defmt_acquire"; lit "_defmt_write"; lit "_defmt_flush"; lit "_defmt_release"; lit "_defmt_timestamp"].
Definition small_image : image := Eval vm_compute in get_image small_program.
Definition small_file : elf := MkElf (map (static_symbol 2) (im_placed small_image)) (Some (2, Some (im_data small_image))).
Definition small_table : table := Eval vm_compute in get_table small_file.

Lemma small_linked : link small_program = Ok small_image.
Proof. vm_compute. reflexivity. Qed.
Lemma small_ok : program_ok small_program.
Proof. split; [reflexivity|]. repeat (constructor; [repeat split; try reflexivity; cbn; lia|]). constructor. Qed.
Lemma small_binary : binary small_program small_image 2 small_file.
Proof. split; [reflexivity|]. exists []. rewrite app_nil_r. split; [reflexivity|constructor]. Qed.
Lemma small_parsed : parse_elf true small_file = Ok (Some small_table).
Proof. vm_compute. reflexivity. Qed.

Lemma small_safe : program_safe small_program.
Proof.
  split.
  - intros u kind g s I G. cbn [small_program p_uses In] in I.
    destruct I as [<-|[<-|[<-|[<-|[]]]]]; destruct G as [s E|s E|s E|s E|s E|s E|s E|s E|s E|s E|ident w fls E]; try discriminate;
      injection E as <-; (split; [vm_compute; discriminate|intros _; repeat constructor; vm_compute; discriminate]).
  - intros s (u & I & M). cbn [small_program p_uses In] in I. destruct I as [<-|[<-|[<-|[<-|[]]]]]; try discriminate. injection M as <-. vm_compute. discriminate.
Qed.

Lemma small_time : timestamp_is small_program (Some (lit "{=u64:us}")).
Proof. eexists. split; [right; left; reflexivity|reflexivity]. Qed.

Lemma small_executes : forall i ts, nth_error dev_progs i = Some ts ->
  Forall2 (executes small_program small_image sink_addr small_table (Some (lit "{=u64:us}"))) (spoken None ts) (dev_items i).
Proof.
  intros [|[|[|i]]] ts E; try (cbn in E; discriminate); injection E as <-.
  - constructor; [|constructor].
    exists (MkUse (app_at 3) (ULog LWarn (lit "x = {=u8} {=str}")) true), (lit "warn"), GWarn, (lit "x = {=u8} {=str}"), [TU W8; TStr], [AUxx 200; AStr (lit "a""b")], [AUxx 5000].
    split; [cbn; tauto|]. split; [reflexivity|]. split; [now constructor|]. split.
    { exists 1. split; [|reflexivity]. eexists. split; [left; reflexivity|vm_compute; reflexivity]. }
    split; [vm_compute; reflexivity|]. split; [types_tac|]. split.
    { repeat (apply MA_cons || apply MA_nil); (eapply MG_prim; [reflexivity|]); constructor; vm_compute; auto; split; discriminate || reflexivity. }
    split; [|reflexivity]. exists [TU W64]. split; [types_tac|].
    repeat (apply MA_cons || apply MA_nil); (eapply MG_prim; [reflexivity|]); constructor; vm_compute; split; discriminate || reflexivity.
  - constructor; [|constructor].
    exists (MkUse (app_at 1) (UPrintln (lit "hi")) true), (lit "println"), GPrintln, (lit "hi"), [], [], [AUxx 5001].
    split; [cbn; tauto|]. split; [reflexivity|]. split; [now constructor|]. split.
    { exists 2. split; [|reflexivity]. eexists. split; [right; left; reflexivity|vm_compute; reflexivity]. }
    split; [vm_compute; reflexivity|]. split; [types_tac|]. split; [constructor|].
    split; [|reflexivity]. exists [TU W64]. split; [types_tac|].
    repeat (apply MA_cons || apply MA_nil); (eapply MG_prim; [reflexivity|]); constructor; vm_compute; split; discriminate || reflexivity.
Qed.

Lemma small_readable : forall i x, In x (dev_items i) -> DeviceSpec.readable D0 Y0 small_table x.
Proof.
  assert (S : forall i ts x, nth_error dev_progs i = Some ts -> In x (dev_items i) -> exists w, says sink_addr small_table w x).
  { intros i ts x N I. pose proof (small_executes i ts N) as F. revert I. induction F as [|w y ws ys E F IH]; intros [].
    - subst y. exists w. apply (executed_says small_program small_image small_ok small_linked 2 small_file small_binary true small_table small_parsed _ (Some (lit "{=u64:us}"))); [exact small_time|exact E].
    - auto. }
  assert (Q : forall w x time message, says sink_addr small_table w x ->
    display_timestamp D0 small_table (sd_frame x) = Some (Some time) -> display_message D0 small_table (sd_frame x) = Some message ->
    says_statement D0 small_table (sd_time_args x) (sd_args x) (sd_frame x) time message).
  { intros w x time message (_ & F) T M. split.
    - destruct (TextMain.message_text D0 sink_addr small_table _ _ _ _ [] F) as (frags & E & _ & W). exists frags. split; [exact E|now apply W].
    - cbn [t_timestamp small_table]. destruct (TextMain.timestamp_text D0 sink_addr small_table _ _ _ _ _ F eq_refl) as (frags & E & W).
      exists frags. split; [exact E|now apply W]. }
  intros i x I. destruct (nth_error dev_progs i) as [ts|] eqn:N.
  2: { destruct i as [|[|i]]; try (vm_compute in N; discriminate). destruct I. }
  destruct (S i ts x N I) as (w & Sw). destruct (dev_readable i x I) as (_ & R). split; [|exact R].
  destruct i as [|[|i]]; [| |destruct I]; destruct I as [<-|[]]; (apply (Q w _ _ _ Sw); vm_compute; reflexivity).
Qed.
