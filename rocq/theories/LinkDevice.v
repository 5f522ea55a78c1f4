(** From the macro invocations of a program to the lines on the terminal (C63). *)
From Verif Require Import Base Utf8 ParserModel DecoderModel DecoderPanic EncodeModel EncodeSpec EncodeTop Numerals DisplayModel TextSpec RzcobsModel StreamModel
  LogFormatModel LogFormatSpec LogFormatBuiltin SymbolModel SymbolProofs LocationModel SinkModel SinkSpec SinkMain HostModel HostSpec
  LoggerModel LoggerSpec LoggerMain DeviceModel DeviceSpec DeviceProofs DeviceLive DeviceRun DeviceMain
  EnvFilterModel EnvFilterSpec TableModel TableSpec TableProofs TableMain FlagsModel FlagsSpec LinkModel LinkSpec LinkProofs LinkMain LinkTable LinkLevels LinkHost.
From Verif Require RttModel RttProofs.

(** The strings of the program do not make the parser of the decoder panic (C11, C12). *)
Definition program_safe (p : program) : Prop :=
  (forall u kind g s, In u (p_uses p) -> interns u kind g s ->
     parse_safe s /\ (tag_level g = None -> Forall parse_safe (split_on 124 s))) /\
  (forall s, uses_timestamp p s -> parse_safe s).

(** The writes [w] are those of the statement [x], made by an invocation of a macro in the program:
    its index is the address of its string, its frame says its level, its string, and the values. *)
Definition executes (p : program) (k : image) (addr : bytes -> Z) (t : table) (ts : option bytes) (w : list bytes) (x : said) : Prop :=
  exists u kind g s tys rargs rtargs, In u (p_uses p) /\ u_live u = true /\ interns u kind g s /\ index_of k u kind s (sd_index x) /\
    concat w = encode_frame addr (sd_index x) ts (sd_time_args x) s (sd_args x) /\
    arg_types s Strict tys /\ means_args addr t tys (sd_args x) rargs /\
    match ts with
    | Some z => exists ttys, arg_types z Strict ttys /\ means_args addr t ttys (sd_time_args x) rtargs
    | None => rtargs = []
    end /\
    sd_frame x = MkFrame (tag_level g) (sd_index x) ts rtargs s rargs.

Section Whole.
  Context (p : program) (k : image) (OK : program_ok p) (L : link p = Ok k) (sec : Z) (f : elf) (B : binary p k sec f)
    (check : bool) (t : table) (P : parse_elf check f = Ok (Some t)).

  Lemma linked_safe : program_safe p -> DecoderPanic.table_safe t.
  Proof using OK L B P.
    intros [S T]. pose proof (string_known p k OK L sec f B check t P) as K. pose proof (timestamp_iff p k OK L sec f B check t P) as Ti. split; [|split].
    - intros e E. apply T, Ti. exists e. auto.
    - intros i e E. destruct (K i e E) as (u & kind & Iu & _ & G & _). exact (proj1 (S _ _ _ _ Iu G)).
    - intros i e v E Lv Iv. destruct (K i e E) as (u & kind & Iu & _ & G & _). pose proof (proj2 (S _ _ _ _ Iu G) Lv) as F. rewrite Forall_forall in F. auto.
  Qed.

  Lemma executed_says : forall addr ts w x, timestamp_is p ts -> executes p k addr t ts w x -> says addr t w x.
  Proof using OK L B P.
    intros addr ts w x T (u & kind & g & s & tys & rargs & rtargs & Iu & V & G & X & C & A & M & Mt & F).
    pose proof (timestamp_known p k OK L sec f B check t P ts T) as TE. destruct (string_read p k OK L sec f B check t P u kind g s _ Iu V G X) as [R E].
    unfold says. rewrite F. cbn [f_format]. rewrite TE. split; [exact C|]. split; [lia|]. split; [reflexivity|]. split; [exact E|].
    split; [exists tys; auto|]. cbn [f_timestamp_format f_timestamp_args]. destruct (t_timestamp t) as [e|]; cbn [option_map] in TE; subst ts; auto.
  Qed.

  Lemma device_encoding : chosen_encoding (p_features p) = Some (t_encoding t).
  Proof using OK L B P.
    destruct (one_encoding p k OK L sec f B) as (e & E & Ec).
    rewrite E. f_equal. pose proof (table_encoding check f t (addresses_fine p k OK L sec f B) P) as Q. rewrite Ec in Q. destruct e, (t_encoding t); try reflexivity; discriminate.
  Qed.

  Theorem program_shown : forall X Y addr ts host_segs locs current_dir skipped size msg progs items enc run who,
    program_safe p -> timestamp_is p ts -> chosen_encoding (p_features p) = Some enc ->
    programs_ok msg progs -> Forall calm progs -> 2 <= size -> external_ok Y -> wide_enough Y ->
    (forall i tasks, nth_error progs i = Some tasks -> Forall2 (executes p k addr t ts) (spoken msg tasks) (items i)) ->
    (forall i x, In x (items i) -> DeviceSpec.readable X Y t x) ->
    device_boot size progs (run O) -> device_fair size enc msg run who ->
    exists n, forall chunks hs, concat chunks = RttModel.r_delivered (d_chan (run n)) -> Forall some_bytes chunks ->
      exists order evs, (forall i x, In (i, x) order -> (i < length progs)%nat) /\
        (forall i, (i < length progs)%nat -> items i = of_context i order) /\
        defmt_print false false Stdin (Loads t) (HostSpec.reads chunks ++ Read (Ok []) :: hs) = (map (Event t) evs, Finished true) /\
        forall times, length times = length order -> exists o,
          print_events false X t locs current_dir skipped false
            (no_clock (text_sink Y false (builtin_segments FDefault false (match ts with Some _ => true | None => false end) false) host_segs false))
            (combine times evs) = Ok o /\ stderr_of o = [] /\
          stdout_of o = as_lines (map (fun o => default_line (match ts with Some _ => true | None => false end) (f_level (sd_frame (snd o))) (sd_time (snd o)) (sd_message (snd o))) order).
  Proof using OK L B P.
    intros X Y addr ts host_segs locs current_dir skipped size msg progs items enc run who S T En H1 H2 H3 H4 H5 Ex Rd Bt Fr.
    pose proof (timestamp_known p k OK L sec f B check t P ts T) as TE.
    assert (HT : match t_timestamp t with Some _ => true | None => false end = match ts with Some _ => true | None => false end)
      by (destruct (t_timestamp t), ts; try reflexivity; discriminate).
    rewrite device_encoding in En. injection En as En.
    destruct (terminal_complete X Y addr t host_segs locs current_dir skipped size msg progs items enc run who H1 H2 H3 (linked_safe S) En H4 H5) as (n & N); auto.
    - intros i tasks Ni. specialize (Ex i tasks Ni). clear - Ex OK L B P T. induction Ex; constructor; auto. eapply executed_says; eauto.
    - exists n. intros chunks hs C Sb. destruct (N chunks hs C Sb) as (order & evs & O1 & O2 & O3 & O4). exists order, evs.
      split; [exact O1|]. split; [exact O2|]. split; [exact O3|]. intros times Ht. destruct (O4 times Ht) as (o & Q1 & Q2 & Q3). exists o. rewrite <- HT.
      split; [exact Q1|]. split; [exact Q2|]. exact Q3.
  Qed.
End Whole.
