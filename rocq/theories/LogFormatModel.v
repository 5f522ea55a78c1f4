(** Custom log formats of the host tools: the parser for log format strings and the formatting
    of records ([decoder/src/log/format/parser.rs], [decoder/src/log/format/mod.rs]). *)
From Verif Require Import Base ParserModel Numerals EnvFilterModel.

(** [mod.rs:12-147].  Colours are those [colored::Color::from_str] knows as single words, and
    the two that only levels use. *)
Inductive color := Black | Red | Green | Yellow | Blue | Magenta | Cyan | White | BrightBlack | BrightWhite.
Inductive log_color := CColor (c : color) | CSeverity | CWarnError.
Inductive style := Bold | Italic | Underline | Strike | Dimmed.
Inductive alignment := ACenter | ALeft | ARight.
Inductive padding := PSpace | PZero.

Record log_format := MkFormat {
  f_width : option Z; f_color : option log_color; f_style : option (list style);
  f_align : option alignment; f_pad : option padding }.
Definition no_format : log_format := MkFormat None None None None None.

Inductive metadata :=
| MCrate | MFileName (n : Z) | MFilePath | MLine | MLog | MLevel | MModule
| MString (s : bytes) | MTime | MNested (l : list segment)
with segment := MkSegment (m : metadata) (f : log_format).

Definition seg_meta (s : segment) : metadata := let 'MkSegment m _ := s in m.
Definition seg_format (s : segment) : log_format := let 'MkSegment _ f := s in f.

(** What other crates decide: which characters beyond ASCII are alphabetic ([char::is_alphabetic]), lower-casing
    ([str::to_lowercase]), the escape sequence of a colour and styles ([colored]), the difference of two texts
    ([dissimilar]) and the largest width that can be formatted (65535 since Rust 1.87, no limit before). *)
Inductive chunk := CEqual (s : bytes) | CInsert (s : bytes) | CDelete (s : bytes).
Record external := MkExternal {
  x_alpha : bytes -> bool; x_lower : bytes -> bytes; x_sgr : option color -> list style -> bytes;
  x_diff : bytes -> bytes -> list chunk; x_max : option Z }.

(* ------------------------------------------------------------------ *)
(** * nom *)

(** [nom::Err]. *)
Inductive nerr := Error | Failure.
Definition pres (A : Type) : Type := outcome nerr (bytes * A).

(** [alt]. *)
Definition p_or {A} (a b : pres A) : pres A := match a with Err Error => b | r => r end.

(** [multi::many0]. *)
Fixpoint many0 {A} (p : bytes -> pres A) (fuel : nat) (i : bytes) : pres (list A) :=
  match fuel with
  | O => NoFuel
  | S fuel' =>
      match p i with
      | Err Error => Ok (i, [])
      | Err Failure => Err Failure
      | Ok (i1, a) =>
          if (length i1 =? length i)%nat then Err Error
          else '(r, l) <- many0 p fuel' i1 ;; Ok (r, a :: l)
      | Panic => Panic
      | NoFuel => NoFuel
      end
  end.

(** [multi::separated_list1] with [char(sep)] as separator. *)
Fixpoint sep_rest {A} (sep : Z) (p : bytes -> pres A) (fuel : nat) (i : bytes) : pres (list A) :=
  match fuel with
  | O => NoFuel
  | S fuel' =>
      match i with
      | b :: i1 =>
          if b =? sep then
            match p i1 with
            | Err Error => Ok (i, [])
            | Err Failure => Err Failure
            | Ok (i2, a) => '(r, l) <- sep_rest sep p fuel' i2 ;; Ok (r, a :: l)
            | Panic => Panic
            | NoFuel => NoFuel
            end
          else Ok (i, [])
      | [] => Ok ([], [])
      end
  end.
Definition sep_list1 {A} (sep : Z) (p : bytes -> pres A) (i : bytes) : pres (list A) :=
  '(i1, a) <- p i ;; '(r, l) <- sep_rest sep p (S (length i1)) i1 ;; Ok (r, a :: l).

(* ------------------------------------------------------------------ *)
(** * Format strings ([parser.rs:130-469]) *)

Inductive item :=
| IMeta (m : metadata) | IWidth (w : Z) (p : padding) (a : option alignment) | IColor (c : log_color) | IStyle (s : style)
| INested (s : segment).

(** [parser.rs:144-191] [take_until_unbalanced('{', '}')]: the text before the unmatched closing bracket, and the rest.
    The character after a backslash is skipped; only its first byte is skipped here, the others are never brackets.
    A backslash at the end makes the next slice [&i[index..]] panic. *)
Fixpoint until_unbalanced (depth : nat) (s : bytes) : pres bytes :=
  let keep b r := match r with Ok (rest, x) => Ok (rest, b :: x) | e => e end in
  match s with
  | [] => match depth with O => Ok ([], []) | S _ => Err Error end
  | b :: r =>
      if b =? 92 then match r with [] => Panic | c :: r' => keep b (keep c (until_unbalanced depth r')) end
      else if b =? 123 then keep b (until_unbalanced (S depth) r)
      else if b =? 125 then match depth with O => Ok (s, []) | S d => keep b (until_unbalanced d r) end
      else keep b (until_unbalanced depth r)
  end.

Definition ascii_alpha (b : Z) : bool := ((65 <=? b) && (b <=? 90)) || ((97 <=? b) && (b <=? 122)).
Definition is_continuation (b : Z) : bool := (128 <=? b) && (b <=? 191).

Fixpoint span (f : Z -> bool) (s : bytes) : bytes * bytes :=
  match s with
  | b :: r => if f b then let '(x, y) := span f r in (b :: x, y) else ([], s)
  | [] => ([], [])
  end.

Definition style_eqb (a b : style) : bool :=
  match a, b with
  | Bold, Bold | Italic, Italic | Underline, Underline | Strike, Strike | Dimmed, Dimmed => true
  | _, _ => false
  end.

(** [parser.rs:247-252] on the word found. *)
Definition style_of (w : bytes) : option style :=
  if beq w (lit "bold") then Some Bold else if beq w (lit "italic") then Some Italic
  else if beq w (lit "underline") then Some Underline else if beq w (lit "strike") then Some Strike
  else if beq w (lit "dimmed") then Some Dimmed else None.

(** [parser.rs:193-218]. *)
Definition meta_of (w : bytes) : option metadata :=
  if beq w (lit "c") then Some MCrate else if beq w (lit "F") then Some MFilePath
  else if beq w (lit "l") then Some MLine else if beq w (lit "s") then Some MLog
  else if beq w (lit "L") then Some MLevel else if beq w (lit "m") then Some MModule
  else if beq w (lit "t") then Some MTime
  else match w with
       | [] => None
       | _ => if forallb (fun b => b =? 102) w then Some (MFileName (Z.of_nat (length w) mod 256)) else None
       end.

(** [parser.rs:294-374] [build_log_segment]: the loop. *)
Record gathered := MkGathered {
  g_meta : option metadata; g_color : option log_color; g_style : option (list style);
  g_width : option (Z * padding * option alignment); g_nested : option (list segment) }.
Definition gather_none : gathered := MkGathered None None None None None.

Definition opt_list {A} (o : option (list A)) : list A := match o with Some l => l | None => [] end.

Fixpoint gather (l : list item) (g : gathered) : option gathered :=
  match l with
  | [] => Some g
  | x :: r =>
      let 'MkGathered m c s w n := g in
      match x with
      | IMeta m' => match m with None => gather r (MkGathered (Some m') c s w n) | Some _ => None end
      | IColor c' => match c with None => gather r (MkGathered m (Some c') s w n) | Some _ => None end
      | IStyle s' =>
          if existsb (style_eqb s') (opt_list s) then None
          else gather r (MkGathered m c (Some (opt_list s ++ [s'])) w n)
      | IWidth w' p a => match w with None => gather r (MkGathered m c s (Some (w', p, a)) n) | Some _ => None end
      | INested g' => gather r (MkGathered m c s w (Some (opt_list n ++ [g'])))
      end
  end.

(** [mod.rs:82-87]. *)
Definition is_specifier (m : metadata) : bool := match m with MString _ | MNested _ => false | _ => true end.

Definition make_segment (m : metadata) (g : gathered) : segment :=
  MkSegment m
    (match g_width g with
     | Some (w, p, a) => MkFormat (Some w) (g_color g) (g_style g) a (Some p)
     | None => MkFormat None (g_color g) (g_style g) None None
     end).

(** [None]: [nom::Err::Failure]. *)
Definition build (nest : bool) (l : list item) : option segment :=
  match gather l gather_none with
  | None => None
  | Some g =>
      if nest then
        match g_nested g with
        | None => None
        | Some segs => if existsb (fun s => is_specifier (seg_meta s)) segs then Some (make_segment (MNested segs) g) else None
        end
      else
        match g_meta g, g_nested g with
        | Some _, Some _ => None
        | _, Some [s] => Some s
        | _, Some _ => None
        | Some m, None => Some (make_segment m g)
        | None, None => None
        end
  end.

Section Parser.
  Context (X : external).

  (** [take_while(char::is_alphabetic)]. *)
  Fixpoint take_alpha (fuel : nat) (s : bytes) : bytes * bytes :=
    match fuel, s with
    | S fuel', b :: r =>
        if b <? 128 then
          if ascii_alpha b then let '(w, q) := take_alpha fuel' r in (b :: w, q) else ([], s)
        else
          let '(k, q) := span is_continuation r in
          if x_alpha X (b :: k) then let '(w, q') := take_alpha fuel' q in (b :: k ++ w, q') else ([], s)
    | _, _ => ([], s)
    end.
  Definition word (s : bytes) : bytes * bytes := take_alpha (length s) s.

  (** [colored::Color::from_str], on words. *)
  Definition color_from_str (w : bytes) : option color :=
    let l := x_lower X w in
    if beq l (lit "black") then Some Black else if beq l (lit "red") then Some Red
    else if beq l (lit "green") then Some Green else if beq l (lit "yellow") then Some Yellow
    else if beq l (lit "blue") then Some Blue else if beq l (lit "magenta") then Some Magenta
    else if beq l (lit "purple") then Some Magenta else if beq l (lit "cyan") then Some Cyan
    else if beq l (lit "white") then Some White else None.

  Definition color_of (w : bytes) : option log_color :=
    if beq w (lit "severity") then Some CSeverity else if beq w (lit "werror") then Some CWarnError
    else match color_from_str w with Some c => Some (CColor c) | None => None end.

  Definition on_word {A} (f : bytes -> option A) (g : A -> item) (i : bytes) : pres item :=
    let '(w, r) := word i in match f w with Some a => Ok (r, g a) | None => Err Error end.

  Definition parse_metadata : bytes -> pres item := on_word meta_of IMeta.
  Definition parse_color : bytes -> pres item := on_word color_of IColor.
  Definition parse_style : bytes -> pres item := on_word style_of IStyle.

  (** [parser.rs:260-290]. *)
  Definition parse_width (i : bytes) : pres item :=
    let '(a, i1) :=
      match i with
      | b :: r =>
          if b =? 94 then (Some ACenter, r) else if b =? 60 then (Some ALeft, r) else if b =? 62 then (Some ARight, r) else (None, i)
      | [] => (None, i)
      end in
    let '(d, r) := span is_digit i1 in
    match d with
    | [] => Err Error
    | z :: _ =>
        match parse_digits usize_max d with
        | Some w => Ok (r, IWidth w (if z =? 48 then PZero else PSpace) a)
        | None => Err Error
        end
    end.

  Definition parse_format (fail_on_err : bool) (i : bytes) : pres item :=
    match p_or (parse_color i) (p_or (parse_style i) (parse_width i)) with
    | Err e => Err (if fail_on_err then Failure else e)
    | r => r
    end.

  (** [parser.rs:413-419]. *)
  Definition parse_string (i : bytes) : pres segment :=
    let '(s, r) := span (fun b => negb ((b =? 123) || (b =? 37))) i in
    match s with [] => Err Error | _ => Ok (r, MkSegment (MString s) no_format) end.

  Definition nested_item (r : pres segment) : pres item := '(i, s) <- r ;; Ok (i, INested s).

  Definition built (nest : bool) (r : pres (list item)) : pres segment :=
    '(i, l) <- r ;; match build nest l with Some s => Ok (i, s) | None => Err Failure end.

  (** [parser.rs:421-440]; [arg] is [parse_argument::<NEST>]. *)
  Definition parse_nested (arg : bytes -> pres segment) (i : bytes) : pres item :=
    nested_item (built true (many0
      (fun j => p_or (nested_item (arg j)) (p_or (nested_item (parse_string j))
         (match j with b :: r => if b =? 37 then parse_format true r else Err Error | [] => Err Error end)))
      (S (length i)) i)).

  (** [map_res] turns the failure of the closure into a recoverable error. *)
  Definition nested_log_segment (i : bytes) : pres item :=
    '(r, l) <- sep_list1 58 (fun j => p_or (parse_metadata j) (parse_format false j)) i ;;
    match build false l with Some s => Ok (r, INested s) | None => Err Error end.

  (** [parser.rs:376-411]; [arg] is [parse_argument]. *)
  Definition parse_log_segment (arg : bool -> bytes -> pres segment) (nest : bool) (i : bytes) : pres segment :=
    built false
      (if nest then
         sep_list1 37 (fun j => p_or (nested_log_segment j) (p_or (parse_format false j) (parse_nested (arg false) j))) i
       else
         sep_list1 58 (fun j => p_or (parse_metadata j) (p_or (parse_format false j) (parse_nested (arg true) j))) i).

  (** [parser.rs:404-411].  [and_then] drops what the inner parser leaves. *)
  Fixpoint parse_argument (fuel : nat) (nest : bool) (i : bytes) : pres segment :=
    match fuel with
    | O => NoFuel
    | S fuel' =>
        match i with
        | b :: r =>
            if b =? 123 then
              '(rest, content) <- until_unbalanced 0 r ;;
              match rest with
              | 125 :: rest' => '(_, s) <- parse_log_segment (parse_argument fuel') nest content ;; Ok (rest', s)
              | _ => Err Error
              end
            else Err Error
        | [] => Err Error
        end
    end.

  (** [parser.rs:442-455]. *)
  Fixpoint has_log (s : segment) : bool :=
    match s with
    | MkSegment MLog _ => true
    | MkSegment (MNested l) _ => existsb has_log l
    | _ => false
    end.

  (** [parser.rs:457-469].  [Err tt]: the log format is not accepted. *)
  Definition parse_log_format (i : bytes) : outcome unit (list segment) :=
    match many0 (fun j => p_or (parse_argument (S (length j)) false j) (parse_string j)) (S (length i)) i with
    | Ok (_, l) => if existsb has_log l then Ok l else Err tt
    | Err _ => Err tt
    | Panic => Panic
    | NoFuel => NoFuel
    end.
End Parser.

(* ------------------------------------------------------------------ *)
(** * Formatting of records ([mod.rs:501-845]) *)

(** [Record]: a message of the device or of the host itself, with the parts the formatter looks at. *)
Record record := MkRecord {
  r_host : bool; r_level : option level; r_time : bytes; r_file : option bytes; r_line : option Z;
  r_module : option bytes; r_message : bytes }.

Definition level_upper (l : level) : bytes :=
  match l with LTrace => lit "TRACE" | LDebug => lit "DEBUG" | LInfo => lit "INFO" | LWarn => lit "WARN" | LError => lit "ERROR" end.

(** [mod.rs:741-749]. *)
Definition color_for_level (l : level) : color :=
  match l with LError => Red | LWarn => Yellow | LInfo => Green | LDebug => BrightWhite | LTrace => BrightBlack end.

(** [mod.rs:751-770]. *)
Definition pick_color (c : option log_color) (l : option level) : option color :=
  match c, l with
  | Some (CColor c), _ => Some c
  | Some CSeverity, Some l => Some (color_for_level l)
  | Some CWarnError, Some LWarn => Some (color_for_level LWarn)
  | Some CWarnError, Some LError => Some (color_for_level LError)
  | _, _ => None
  end.

Definition reset : bytes := [27; 91; 48; 109].

(** [mod.rs:839-845]: removes the escape sequences matching [ESC \[ (digit or ;)* m]. *)
Definition sgr_char (b : Z) : bool := is_digit b || (b =? 59).
Fixpoint strip_loop (fuel : nat) (s : bytes) : bytes :=
  match fuel, s with
  | S fuel', b :: r =>
      match (if b =? 27 then match r with c :: r' => if c =? 91 then
               match snd (span sgr_char r') with d :: q => if d =? 109 then Some q else None | [] => None end
             else None | [] => None end else None) with
      | Some q => strip_loop fuel' q
      | None => b :: strip_loop fuel' r
      end
  | _, _ => []
  end.
Definition strip_ansi (s : bytes) : bytes := strip_loop (length s) s.

Definition char_count (s : bytes) : Z := Z.of_nat (length (filter (fun b => negb (is_continuation b)) s)).

(** [core::fmt::Formatter::pad] with a width. *)
Definition pad_text (a : alignment) (p : padding) (width : Z) (s : bytes) : bytes :=
  let fill := match p with PSpace => 32 | PZero => 48 end in
  let n := width - char_count s in
  let before := match a with ALeft => 0 | ARight => n | ACenter => n / 2 end in
  repeat fill (Z.to_nat before) ++ s ++ repeat fill (Z.to_nat (n - before)).

(** [colored]: after every reset inside a coloured text its escape sequence is repeated. *)
Fixpoint escape_resets (fuel : nat) (seq s : bytes) : bytes :=
  match fuel, s with
  | S fuel', b :: r =>
      match strip_prefix reset s with
      | Some q => reset ++ seq ++ escape_resets fuel' seq q
      | None => b :: escape_resets fuel' seq r
      end
  | _, _ => []
  end.

Section Format.
  Context (X : external) (colors : bool).

  (** [colored::ColoredString] displayed by a function [show] that may pad. *)
  Definition paint (c : option color) (styles : list style) (s : bytes) (show : bytes -> bytes) : bytes :=
    match c, styles with
    | None, [] => show s
    | _, _ => if colors then x_sgr X c styles ++ show (escape_resets (length s) (x_sgr X c styles) s) ++ reset else show s
    end.
  Definition plain (s : bytes) : bytes := s.

  (** [mod.rs:797-828].  [Panic]: the width is not supported. *)
  Definition build_formatted (s : bytes) (f : log_format) (default_width : Z) (l : option level) (c : option log_color) : outcome unit bytes :=
    let ansi := Z.of_nat (length s) - Z.of_nat (length (strip_ansi s)) in
    let width := (match f_width f with Some w => w | None => default_width end) + ansi in
    if (match x_max X with Some m => m <? width | None => false end) then Panic
    else
      let a := match f_align f with Some a => a | None => ALeft end in
      let p := match f_pad f with Some p => p | None => PSpace end in
      Ok (paint (pick_color c l) (opt_list (f_style f)) s (pad_text a p width)).

  (** [str::lines]. *)
  Fixpoint lines (s : bytes) : list bytes :=
    match s with
    | [] => []
    | b :: r =>
        if b =? 10 then [] :: lines r
        else match r with
             | [] => [[b]]
             | c :: r' => if (b =? 13) && (c =? 10) then [] :: lines r'
                          else match lines r with x :: y => (b :: x) :: y | [] => [[b]] end
             end
    end.

  Definition ends_with (p s : bytes) : bool := match strip_prefix (rev p) (rev s) with Some _ => true | None => false end.

  Fixpoint join (sep : bytes) (l : list bytes) : bytes :=
    match l with [] => [] | [x] => x | x :: r => x ++ sep ++ join sep r end.

  (** [&line[start.len()..line.len() - 1]]. *)
  Definition inner (start line : bytes) : option bytes :=
    if (length line - 1 <? length start)%nat then None
    else Some (firstn (length line - 1 - length start) (skipn (length start) line)).

  Definition left_start : bytes := lit " left: `".
  Definition right_start : bytes := lit "right: `".
  Definition tick : bytes := lit "`".

  (** [mod.rs:684-739] [color_diff]; [Err tt]: the text is shown as it is. *)
  Definition color_diff (text : bytes) : outcome unit bytes :=
    match rev (lines text) with
    | rline :: lline :: (x :: y) =>
        match strip_prefix left_start lline, strip_prefix right_start rline with
        | Some _, Some _ =>
            if ends_with tick lline && ends_with tick rline then
              match inner left_start lline, inner right_start rline with
              | Some l, Some r =>
                  let chunks := x_diff X l r in
                  Ok (paint None [Bold] (join [10] (rev (x :: y))) plain ++ [10] ++
                      paint None [Bold] (lit "diff") plain ++ lit " " ++ paint (Some Red) [] (lit "< left") plain ++ lit " / " ++
                      paint (Some Green) [] (lit "right >") plain ++ [10] ++
                      paint (Some Red) [] (lit "<") plain ++
                      flat_map (fun k => match k with
                        | CEqual s => paint (Some Red) [] s plain | CInsert _ => [] | CDelete s => paint (Some Red) [Bold] s plain end) chunks ++
                      [10] ++ paint (Some Green) [] (lit ">") plain ++
                      flat_map (fun k => match k with
                        | CEqual s => paint (Some Green) [] s plain | CDelete _ => [] | CInsert s => paint (Some Green) [Bold] s plain end) chunks)
              | _, _ => Panic
              end
            else Err tt
        | _, _ => Err tt
        end
    | _ => Err tt
    end.

  (** [std::path::Path::iter] on Unix: the root, a leading dot, and the names. *)
  Definition path_components (s : bytes) : list bytes :=
    let names := split_on 47 s in
    let plain_names := filter (fun n => nonemptyb n && negb (beq n (lit "."))) names in
    match s with
    | 47 :: _ => lit "/" :: plain_names
    | _ => match names with n :: _ => if beq n (lit ".") then n :: plain_names else plain_names | [] => plain_names end
    end.

  (** [mod.rs:584-611]. *)
  Definition file_name (file : option bytes) (n : Z) : outcome unit bytes :=
    match file with
    | None => Ok (lit "<file>")
    | Some s =>
        let comps := path_components s in
        match skipn (length comps - Nat.min (length comps) (Z.to_nat n)) comps with
        | [] => Panic
        | l => Ok (join (lit "/") l)
        end
    end.

  (** [mod.rs:623-645]. *)
  Definition crate_name (m : option bytes) : bytes :=
    match m with
    | Some p => match split_path p with c :: _ :: _ => c | _ => lit "<crate>" end
    | None => lit "<crate>"
    end.

  (** [mod.rs:664-674]. *)
  Definition build_log (r : record) (f : log_format) : outcome unit bytes :=
    if r_host r then Ok (r_message r)
    else match color_diff (r_message r) with
         | Err tt => build_formatted (r_message r) f 0 (r_level r) (f_color f)
         | o => o
         end.

  Definition unwrap_or {A} (o : option A) (d : A) : A := match o with Some a => a | None => d end.

  (** [mod.rs:519-660] [build_segment], [build_nested] and the builders they call. *)
  Fixpoint build_segment (r : record) (s : segment) : outcome unit bytes :=
    let 'MkSegment m f := s in
    let show text default := build_formatted text f default (r_level r) (f_color f) in
    match m with
    | MString s => Ok s
    | MTime => show (if r_host r then lit "<time>" else match r_time r with [] => lit "<time>" | t => t end) 0
    | MCrate => show (crate_name (r_module r)) 0
    | MFileName n => t <- file_name (r_file r) n ;; show t 0
    | MFilePath => show (unwrap_or (r_file r) (lit "<file>")) 0
    | MModule => show (unwrap_or (r_module r) (lit "<mod path>")) 0
    | MLine => show (dec_str (unwrap_or (r_line r) 0)) 4
    | MLevel => build_formatted (match r_level r with Some l => level_upper l | None => lit "<lvl>" end) f 5 (r_level r)
                  (Some (unwrap_or (f_color f) CSeverity))
    | MLog => build_log r f
    | MNested l =>
        (fix go (l : list segment) (acc : bytes) : outcome unit bytes :=
           match l with
           | [] => show acc 0
           | s :: l' => t <- build_segment r s ;; go l' (acc ++ t)
           end) l []
    end.

  Fixpoint build_all (r : record) (l : list segment) : outcome unit bytes :=
    match l with
    | [] => Ok []
    | s :: l' => t <- build_segment r s ;; u <- build_all r l' ;; Ok (t ++ u)
    end.

  (** [mod.rs:501-517]: records without a level come from [println!]. *)
  Definition format_record (l : list segment) (r : record) : outcome unit bytes :=
    match r_level r with
    | Some _ => build_all r l
    | None => build_log r no_format
    end.
End Format.

(** [mod.rs:321-373, 453-478]: the built-in formats. *)
Inductive builtin := FDefault | FOneLine.
Definition builtin_string (k : builtin) (with_location has_timestamp : bool) : bytes :=
  match k, with_location, has_timestamp with
  | FDefault, false, false => lit "{L} {s}"
  | FDefault, true, false => lit "{L} {s}" ++ [10] ++ lit "└─ {m} @ {F}:{l}"
  | FDefault, false, true => lit "{t} {L} {s}"
  | FDefault, true, true => lit "{t} {L} {s}" ++ [10] ++ lit "└─ {m} @ {F}:{l}"
  | FOneLine, false, false => lit "{[{L}]%bold} {s}"
  | FOneLine, true, false => lit "{[{L}]%bold} {s} {({c:bold} {fff}:{l:1})%dimmed}"
  | FOneLine, false, true => lit "{t} {[{L}]%bold} {s}"
  | FOneLine, true, true => lit "{t} {[{L}]%bold} {s} {({c:bold} {fff}:{l:1})%dimmed}"
  end.
Definition formatter_string (k : builtin) (with_location has_timestamp host : bool) : bytes :=
  (if host then lit "(HOST) " else []) ++ builtin_string k with_location has_timestamp.
