(** Log formats on concrete strings and records. *)
From Verif Require Import Base ParserModel LogFormatModel.

(** What the external crates do on ASCII text; differences are shown as one replacement. *)
Definition fg (c : color) : bytes :=
  match c with
  | Black => lit "30" | Red => lit "31" | Green => lit "32" | Yellow => lit "33" | Blue => lit "34" | Magenta => lit "35"
  | Cyan => lit "36" | White => lit "37" | BrightBlack => lit "90" | BrightWhite => lit "97"
  end.
Definition style_code (s : style) : bytes :=
  match s with Bold => lit "1" | Dimmed => lit "2" | Italic => lit "3" | Underline => lit "4" | Strike => lit "9" end.
Definition ansi (c : option color) (l : list style) : bytes :=
  [27; 91] ++ join (lit ";") (map style_code l ++ match c with Some c => [fg c] | None => [] end) ++ lit "m".
Definition lower_ascii (s : bytes) : bytes := map (fun b => if (65 <=? b) && (b <=? 90) then b + 32 else b) s.
Definition X0 : external := MkExternal (fun _ => false) lower_ascii ansi (fun a b => [CDelete a; CInsert b]) (Some 65535).

Definition seg (m : metadata) : segment := MkSegment m no_format.
Definition rec0 : record :=
  MkRecord false (Some LError) (lit "123") (Some (lit "src/foo/bar.rs")) (Some 8) (Some (lit "app::foo::run")) (lit "hello").

Example parse_template :
  parse_log_format X0 (lit "{t} [{L}] {s}" ++ [10] ++ lit "-- {m} @ {F}:{l}") =
  Ok [seg MTime; seg (MString (lit " [")); seg MLevel; seg (MString (lit "] ")); seg MLog; seg (MString ([10] ++ lit "-- ")); seg MModule;
      seg (MString (lit " @ ")); seg MFilePath; seg (MString (lit ":")); seg MLine].
Proof. vm_compute. reflexivity. Qed.
Example parse_no_log : parse_log_format X0 (lit "{t}") = Err tt.
Proof. vm_compute. reflexivity. Qed.
Example parse_bad : parse_log_format X0 (lit "{foo}") = Err tt.
Proof. vm_compute. reflexivity. Qed.
Definition sp (w : Z) (a : option alignment) (c : option log_color) (st : option (list style)) : log_format := MkFormat (Some w) c st a (Some PSpace).
Definition wo (c : option log_color) (st : option (list style)) : log_format := MkFormat None c st None None.
Example parse_params : parse_log_format X0 (lit "T{t:>8} [{L:severity:bold}] {ff:white:underline}:{l:white:3} {s:werror}") =
  Ok [seg (MString (lit "T")); MkSegment MTime (sp 8 (Some ARight) None None); seg (MString (lit " ["));
      MkSegment MLevel (wo (Some CSeverity) (Some [Bold])); seg (MString (lit "] "));
      MkSegment (MFileName 2) (wo (Some (CColor White)) (Some [Underline])); seg (MString (lit ":"));
      MkSegment MLine (sp 3 None (Some (CColor White)) None); seg (MString (lit " ")); MkSegment MLog (wo (Some CWarnError) None)].
Proof. vm_compute. reflexivity. Qed.
Example parse_styles : parse_log_format X0 (lit "{s:bold:underline:italic:dimmed}") = Ok [MkSegment MLog (wo None (Some [Bold; Underline; Italic; Dimmed]))].
Proof. vm_compute. reflexivity. Qed.
Example parse_repeated : parse_log_format X0 (lit "{s:bold:bold}") = Err tt.
Proof. vm_compute. reflexivity. Qed.
Example parse_nested1 : parse_log_format X0 (lit "{[{L:<5:bold}]%underline%italic} {s}") =
  Ok [MkSegment (MNested [seg (MString (lit "[")); MkSegment MLevel (sp 5 (Some ALeft) None (Some [Bold])); seg (MString (lit "]"))]) (wo None (Some [Underline; Italic]));
      seg (MString (lit " ")); seg MLog].
Proof. vm_compute. reflexivity. Qed.
Example parse_nested_bad : parse_log_format X0 (lit "{[{L:<5:bold}]%bad%underline} {s}") = Err tt.
Proof. vm_compute. reflexivity. Qed.
Definition ex_inner : segment :=
  MkSegment (MNested [seg (MString (lit "[")); MkSegment MLevel (sp 5 (Some ALeft) None None); seg (MString (lit "]"))]) (wo None (Some [Bold])).
Example parse_nested2 : parse_log_format X0 (lit "{{[{L:<5}]%bold} {f:>20}:%<30} {s}") =
  Ok [MkSegment (MNested [ex_inner; seg (MString (lit " ")); MkSegment (MFileName 1) (sp 20 (Some ARight) None None); seg (MString (lit ":"))]) (sp 30 (Some ALeft) None None);
      seg (MString (lit " ")); seg MLog].
Proof. vm_compute. reflexivity. Qed.
Example parse_nested3 : parse_log_format X0 (lit "{{{[{L:<5}]%bold} {ff:>20}:%<30} {s}%werror}") =
  Ok [MkSegment (MNested
       [MkSegment (MNested [ex_inner; seg (MString (lit " ")); MkSegment (MFileName 2) (sp 20 (Some ARight) None None); seg (MString (lit ":"))]) (sp 30 (Some ALeft) None None);
        seg (MString (lit " ")); seg MLog]) (wo (Some CWarnError) None)].
Proof. vm_compute. reflexivity. Qed.

Definition shown (colors : bool) (fmt : bytes) (r : record) : outcome unit bytes :=
  l <- parse_log_format X0 fmt ;; format_record X0 colors l r.

Example show_plain : shown false (lit "{t} [{L}] {s} ({c} {ff}:{l})") rec0 = Ok (lit "123 [ERROR] hello (app foo/bar.rs:8   )").
Proof. vm_compute. reflexivity. Qed.
Example show_colors : shown true (lit "{L:>7}: {s}") rec0 = Ok ([27] ++ lit "[31m  ERROR" ++ reset ++ lit ": hello").
Proof. vm_compute. reflexivity. Qed.
Example show_oneline : shown false (formatter_string FOneLine true true false) rec0 = Ok (lit "123 [ERROR] hello (app src/foo/bar.rs:8)").
Proof. vm_compute. reflexivity. Qed.
Example show_diff : shown false (lit "{s:>40}") (MkRecord false (Some LError) [] None None None (lit "panicked" ++ [10] ++ lit " left: `1`" ++ [10] ++ lit "right: `2`")) =
  Ok (lit "panicked" ++ [10] ++ lit "diff < left / right >" ++ [10] ++ lit "<1" ++ [10] ++ lit ">2").
Proof. vm_compute. reflexivity. Qed.

(** Findings. *)
Example show_rest_lost : shown false (lit "{s} 100% sure") rec0 = Ok (lit "hello 100").
Proof. vm_compute. reflexivity. Qed.
Example show_inside_lost : shown false (lit "{s and more}") rec0 = Ok (lit "hello").
Proof. vm_compute. reflexivity. Qed.
Example parse_backslash : parse_log_format X0 (lit "{s\") = Panic.
Proof. vm_compute. reflexivity. Qed.
Example show_many_f : shown false ([123] ++ repeat 102 256 ++ lit "} {s}") rec0 = Panic.
Proof. vm_compute. reflexivity. Qed.
Example show_left : shown false (lit "{s}") (MkRecord false (Some LInfo) [] None None None (lit "x" ++ [10] ++ lit " left: `" ++ [10] ++ lit "right: `")) = Panic.
Proof. vm_compute. reflexivity. Qed.
(** With colours the group is not padded to its width, without them it is. *)
Example show_group_width :
  shown true (lit "{[{L}]%bold%<10}{s}") rec0 = Ok ([27] ++ lit "[1m[" ++ [27] ++ lit "[31mERROR" ++ reset ++ [27] ++ lit "[1m]" ++ reset ++ lit "hello") /\
  shown false (lit "{[{L}]%bold%<10}{s}") rec0 = Ok (lit "[ERROR]   hello").
Proof. split; vm_compute; reflexivity. Qed.

(** [book/src/custom-log-output.md:98-115] lists these colours as supported. *)
Definition book_bright : list bytes :=
  map (fun s => lit "bright " ++ s)
    [lit "black"; lit "red"; lit "green"; lit "yellow"; lit "blue"; lit "magenta"; lit "purple"; lit "cyan"; lit "white"].
Lemma bright_rejected : forall c, In c book_bright -> parse_log_format X0 (lit "{s:" ++ c ++ lit "}") = Err tt.
Proof.
  intros c H. repeat (destruct H as [<-|H]; [vm_compute; reflexivity|]). destruct H.
Qed.

(** [book/src/custom-log-output.md:138]: a line number 24 with [{l:03}] should be 024. *)
Definition line24 : record := MkRecord false (Some LError) [] (Some (lit "main.rs")) (Some 24) None (lit "hello").
Lemma zero_padded_line : shown false (lit "{l:03} {s}") line24 = Ok (lit "240 hello") /\ shown false (lit "{l:>03} {s}") line24 = Ok (lit "024 hello").
Proof. vm_compute. split; reflexivity. Qed.
