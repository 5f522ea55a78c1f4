(** C41: custom log formats. *)
From Verif Require Import Base ParserModel EnvFilterModel LogFormatModel LogFormatSpec LogFormatProofs LogFormatAccept LogFormatShow LogFormatMain LogFormatText LogFormatPanic LogFormatEnds LogFormatOnly LogFormatBuiltin LogFormatExamples.

(** ** Format strings *)

(** Everything the documentation describes is accepted and means what is documented. *)
Theorem C41_accepts : forall X segs text, external_ok X -> writes_all X false segs text ->
  (exists s, In s segs /\ contains_log s) -> parse_log_format X text = Ok segs.
Proof. intros X segs text H. exact (accepts X H segs text). Qed.
Print Assumptions C41_accepts.

(** Only formats that show the message are accepted. *)
Theorem C41_requires_log : forall X text segs, parse_log_format X text = Ok segs -> exists s, In s segs /\ contains_log s.
Proof. exact parse_has_log. Qed.
Print Assumptions C41_requires_log.

(** Accepted formats consist of text, pieces of the record and groups with a piece of the record directly in them; a style is
    written at most once in each, and fill characters and alignments only come with a width. *)
Theorem C41_only : forall X text segs, parse_log_format X text = Ok segs -> Forall made segs.
Proof. exact format_made. Qed.
Print Assumptions C41_only.

Example C41_only_ex : parse_log_format X0 (lit "{s}{[{L:bold}]%bold%>6}") = Ok [seg MLog; MkSegment (MNested [seg (MString (lit "[")); MkSegment MLevel (MkFormat None None (Some [Bold]) None None); seg (MString (lit "]"))]) (MkFormat (Some 6) None (Some [Bold]) (Some ARight) (Some PSpace))] /\
  parse_log_format X0 (lit "{s}{[text]}") = Err tt /\ parse_log_format X0 (lit "{s:bold:bold}") = Err tt /\ parse_log_format X0 (lit "{s}{[{({L})}]}") = Err tt.
Proof. repeat split; vm_compute; reflexivity. Qed.

(** The parser always ends, and without backslashes it does not panic. *)
Theorem C41_parser_total : forall X text, parse_log_format X text <> NoFuel /\ (~ In 92 text -> parse_log_format X text <> Panic).
Proof. exact parse_total. Qed.
Print Assumptions C41_parser_total.

Theorem C41_parser_refuted : exists X text, parse_log_format X text = Panic.
Proof. exists X0, (lit "{s\"). exact parse_backslash. Qed.
Print Assumptions C41_parser_refuted.

(** It panics exactly if it gets to an opening bracket behind which the format ends in a backslash that escapes nothing, *)
Theorem C41_panics_iff : forall X text, parse_log_format X text = Panic <-> exists rest, reaches X text (123 :: rest) /\ dangling 0 rest.
Proof. exact parse_panics. Qed.
Print Assumptions C41_panics_iff.

(** so only if the format ends in an odd number of backslashes. *)
Theorem C41_panics_odd : forall X text, parse_log_format X text = Panic ->
  exists before k, text = before ++ repeat 92 (2 * k + 1) /\ ~ exists p, before = p ++ [92].
Proof. exact panics_odd. Qed.
Print Assumptions C41_panics_odd.

Example C41_panics_ex : parse_log_format X0 (lit "[{L}] {s}{\{\\\") = Panic /\ parse_log_format X0 (lit "[{L}] {s}{\{\\") = Ok [seg (MString (lit "[")); seg MLevel; seg (MString (lit "] ")); seg MLog] /\
  parse_log_format X0 (lit "{s} \") = Ok [seg MLog; seg (MString (lit " \"))].
Proof. repeat split; vm_compute; reflexivity. Qed.

(** Text of the format string is shown verbatim, in its place, up to a percent sign or an opening bracket where nothing valid follows. *)
Theorem C41_text : forall X colors text segs r out, parse_log_format X text = Ok segs -> r_level r <> None -> format_record X colors segs r = Ok out ->
  exists parts rest, text = concat (map fst parts) ++ rest /\ open_end rest /\ out = concat (map snd parts) /\
    Forall (fun '(p, t) => bracketed p \/ (plain_text p /\ t = p)) parts.
Proof. exact text_shown. Qed.
Print Assumptions C41_text.

(** The rest is dropped without an error. *)
Theorem C41_text_refuted : exists X text segs r, parse_log_format X text = Ok segs /\ text = lit "{s} 100% sure" /\ r_message r = lit "hello" /\ format_record X false segs r = Ok (lit "hello 100").
Proof. exists X0, (lit "{s} 100% sure"), [seg MLog; seg (MString (lit " 100"))], rec0. repeat split. Qed.
Print Assumptions C41_text_refuted.

(** The built-in formats. *)
Theorem C41_builtin : forall X k with_location has_timestamp host, external_ok X ->
  parse_log_format X (formatter_string k with_location has_timestamp host) = Ok (builtin_segments k with_location has_timestamp host).
Proof. intros X k a b c H. exact (builtin_parses X H k a b c). Qed.
Print Assumptions C41_builtin.

(** ** Formatting *)

(** Without colours every segment shows what is documented, padded to its width. *)
Theorem C41_shows : forall X r segs t, external_ok X -> r_level r <> None -> Forall counted segs -> format_record X false segs r = Ok t ->
  exists ts, t = concat ts /\ Forall2 (shows X r) segs ts.
Proof. exact record_shows. Qed.
Print Assumptions C41_shows.

(** Records of [println!] show only the message. *)
Theorem C41_println : forall X r segs t, external_ok X -> r_level r = None -> format_record X false segs r = Ok t -> shows X r (MkSegment MLog no_format) t.
Proof. exact println_shows. Qed.
Print Assumptions C41_println.

(** Formatting does not panic if paths are not empty, the message does not end in an unfinished comparison and the widths are supported. *)
Theorem C41_no_panic : forall X colors r segs, external_ok X -> record_ok r -> width_fits (x_max X) 0 -> Forall (fits (x_max X)) segs ->
  calm X colors r segs -> exists t, format_record X colors segs r = Ok t.
Proof. intros X colors r segs HX HR. exact (record_formats X colors r HX HR segs). Qed.
Print Assumptions C41_no_panic.

(** Exactly when it panics: with no limit on widths for all records; with a limit for output without colours of records and
    formats without escape characters. *)
Theorem C41_format_panics_iff : forall X colors r l, external_ok X -> line_ok r -> calm X colors r l ->
  (format_record X colors l r = Panic <->
   match r_level r with
   | Some _ => exists s, In s l /\ fails (x_max X) r s
   | None => fails (x_max X) r (MkSegment MLog no_format)
   end) /\ (format_record X colors l r = Panic \/ exists t, format_record X colors l r = Ok t).
Proof. intros X colors r l HX HL. exact (format_panics X colors r HX HL l). Qed.
Print Assumptions C41_format_panics_iff.

Example C41_format_panics_ex : fails (Some 65535) rec0 (MkSegment (MNested [seg MLevel; MkSegment MTime (sp 65536 None None None)]) no_format) /\
  ~ fails (Some 65535) rec0 (MkSegment MTime (sp 65535 None None None)).
Proof.
  split.
  - eapply FL_group; [right; left; reflexivity|]. eapply FL_wide; [reflexivity|reflexivity|intros []].
  - intros F. inversion F as [| |m f w E L N|]; subst. injection E as <-. cbn in L. lia.
Qed.

(** Otherwise it panics: on messages like those of failed comparisons, *)
Theorem C41_diff_panic : forall X colors text, color_diff X colors text = Panic <-> short_values text.
Proof. exact diff_panic_iff. Qed.
Print Assumptions C41_diff_panic.
Theorem C41_no_panic_message_refuted : exists text, forall colors,
  format_record X0 colors [seg MLog] (MkRecord false (Some LInfo) [] None None None text) = Panic.
Proof. exists (lit "x" ++ [10] ++ lit " left: `" ++ [10] ++ lit "right: `"). intros []; vm_compute; reflexivity. Qed.
Print Assumptions C41_no_panic_message_refuted.
(** on 256 times the letter f, *)
Theorem C41_no_panic_files_refuted : exists text segs, parse_log_format X0 text = Ok segs /\ format_record X0 false segs rec0 = Panic.
Proof. exists ([123] ++ repeat 102 256 ++ lit "} {s}"), [seg (MFileName 0); seg (MString (lit " ")); seg MLog]. split; vm_compute; reflexivity. Qed.
Print Assumptions C41_no_panic_files_refuted.
(** and on wide segments. *)
Theorem C41_no_panic_width_refuted : exists text segs, parse_log_format X0 text = Ok segs /\ format_record X0 false segs rec0 = Panic.
Proof. exists (lit "{s:70000}"), [MkSegment MLog (sp 70000 None None None)]. split; vm_compute; reflexivity. Qed.
Print Assumptions C41_no_panic_width_refuted.

(** A piece of a record is decorated with the colour its setting stands for at the level of the record, and with its styles. *)
Theorem C41_decorated : forall X r m f l t, record_free r -> line_ok r -> r_level r = Some l -> piece r m ->
  format_record X true [MkSegment m f] r = Ok t ->
  exists u k, format_record X false [MkSegment m f] r = Ok u /\ stands_for (color_setting m f) (Some l) k /\
    decorated X k (opt_list (f_style f)) u t.
Proof. exact piece_decorated. Qed.
Print Assumptions C41_decorated.

(** Colours do not change the visible text. *)
Theorem C41_colors : forall X r segs t u, external_ok X -> record_ok r -> record_free r -> Forall segment_free segs -> Forall (even (r_level r)) segs ->
  format_record X true segs r = Ok t -> format_record X false segs r = Ok u -> stripped t u.
Proof. intros X r segs t u HX HR. exact (colors_visible X r HX HR segs t u). Qed.
Print Assumptions C41_colors.

(** They do for groups with a width and a colour or style of their own. *)
Theorem C41_colors_refuted : exists text segs t u, parse_log_format X0 text = Ok segs /\
  format_record X0 true segs rec0 = Ok t /\ format_record X0 false segs rec0 = Ok u /\ strip_ansi t = lit "[ERROR]hello" /\ u = lit "[ERROR]   hello".
Proof.
  exists (lit "{[{L}]%bold%<10}{s}"), [MkSegment (MNested [seg (MString (lit "[")); seg MLevel; seg (MString (lit "]"))]) (sp 10 (Some ALeft) None (Some [Bold])); seg MLog].
  exists ([27] ++ lit "[1m[" ++ [27] ++ lit "[31mERROR" ++ reset ++ [27] ++ lit "[1m]" ++ reset ++ lit "hello"), (lit "[ERROR]   hello").
  split; [vm_compute; reflexivity|]. split; [vm_compute; reflexivity|]. split; [vm_compute; reflexivity|]. split; vm_compute; reflexivity.
Qed.
Print Assumptions C41_colors_refuted.

(** The examples satisfy what is assumed of other crates. *)
Lemma X0_ok : external_ok X0.
Proof.
  constructor.
  - reflexivity.
  - intros c st. exists (join (lit ";") (map style_code st ++ match c with Some c => [fg c] | None => [] end)). split; [|reflexivity].
    assert (J : forall l, Forall (Forall (fun b => sgr_char b = true)) l -> Forall (fun b => sgr_char b = true) (join (lit ";") l)).
    { intros l F. induction F as [|x l Hx F IH]; [constructor|]. destruct l as [|y l]; auto. cbn [join] in *. apply Forall_app. split; auto. constructor; auto. }
    apply J. apply Forall_app. split.
    + apply Forall_forall. intros x Hx. apply in_map_iff in Hx as (s & <- & _). destruct s; repeat constructor.
    + destruct c as [[]|]; repeat constructor.
  - intros a b. cbn. now rewrite !app_nil_r.
Qed.
Example ex_shown : shown false (lit "{t} [{L}] {s} ({c} {ff}:{l})") rec0 = Ok (lit "123 [ERROR] hello (app foo/bar.rs:8   )").
Proof. exact show_plain. Qed.
Example ex_record : record_ok rec0 /\ record_free rec0.
Proof.
  split.
  - split; [intros p E; injection E as <-; discriminate|]. split.
    + intros _ (before & a & b & N & E & _). change (lines (r_message rec0)) with [lit "hello"] in E. apply (f_equal (@length bytes)) in E. rewrite app_length in E. destruct before; [congruence|]. cbn in E. lia.
    + intros n E. injection E as <-. lia.
  - repeat split; try (apply lit_free; reflexivity); intros p E; injection E as <-; apply lit_free; reflexivity.
Qed.

(** The bright colours that the book lists as supported are rejected: a colour is one word. *)
Theorem C41_documented_colors_refuted : forall c, In c book_bright ->
  parse_log_format X0 (lit "{s:" ++ c ++ lit "}") = Err tt.
Proof. exact bright_rejected. Qed.
Print Assumptions C41_documented_colors_refuted.

Example C41_documented_colors_ex : In (lit "bright red") book_bright.
Proof. right. left. reflexivity. Qed.

(** Zeros fill up on the right unless a right alignment is written: the line number 24, which the book
    says is shown as 024, is shown as 240. *)
Theorem C41_zero_padding_refuted : exists r, r_line r = Some 24 /\
  (l <- parse_log_format X0 (lit "{l:03} {s}") ;; format_record X0 false l r) = Ok (lit "240 hello") /\
  (l <- parse_log_format X0 (lit "{l:>03} {s}") ;; format_record X0 false l r) = Ok (lit "024 hello").
Proof. exact (ex_intro _ line24 (conj eq_refl zero_padded_line)). Qed.
Print Assumptions C41_zero_padding_refuted.

(** A file name with as many components as the path has, or more, starts with two slashes if the path is absolute. *)
Theorem C41_root_refuted : forall p n, filter (fun x => nonemptyb x && negb (beq x (lit "."))) (split_on 47 (47 :: p)) <> [] ->
  Z.of_nat (length (path_components (47 :: p))) <= n ->
  exists rest, path_components (47 :: p) = lit "/" :: rest /\ file_name (Some (47 :: p)) n = Ok (lit "//" ++ join (lit "/") rest).
Proof. exact root_doubled. Qed.
Print Assumptions C41_root_refuted.

Example C41_root_ex : parse_log_format X0 (lit "{fff} {s}") = Ok [seg (MFileName 3); seg (MString (lit " ")); seg MLog] /\
  format_record X0 false [seg (MFileName 3); seg (MString (lit " ")); seg MLog] (MkRecord false (Some LInfo) [] (Some (lit "/a/b.rs")) None None (lit "hello")) = Ok (lit "//a/b.rs hello").
Proof. split; vm_compute; reflexivity. Qed.
