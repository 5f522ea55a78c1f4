(** Log format strings and formatted records, as documented, without the parser and the formatter. *)
From Verif Require Import Base ParserModel Numerals EnvFilterModel LogFormatModel.

(** What is assumed of the external crates. *)
Definition to_lower (b : Z) : Z := if (65 <=? b) && (b <=? 90) then b + 32 else b.
Definition old_text (l : list chunk) : bytes := flat_map (fun k => match k with CEqual s | CDelete s => s | CInsert _ => [] end) l.
Definition new_text (l : list chunk) : bytes := flat_map (fun k => match k with CEqual s | CInsert s => s | CDelete _ => [] end) l.

Record external_ok (X : external) : Prop := MkExternalOk {
  ok_lower : forall w, Forall (fun b => ascii_alpha b = true) w -> x_lower X w = map to_lower w;
  ok_sgr : forall c st, exists d, Forall (fun b => sgr_char b = true) d /\ x_sgr X c st = [27; 91] ++ d ++ [109];
  ok_diff : forall a b, old_text (x_diff X a b) = a /\ new_text (x_diff X a b) = b }.

(** * Syntax ([parser.rs:5-105]) *)

(** Format parameters. *)
Inductive param := QColor (c : log_color) | QStyle (s : style) | QWidth (w : Z) (p : padding) (a : option alignment).

Definition color_name (c : color) : bytes :=
  match c with
  | Black => lit "black" | Red => lit "red" | Green => lit "green" | Yellow => lit "yellow" | Blue => lit "blue"
  | Magenta => lit "magenta" | Cyan => lit "cyan" | White => lit "white" | BrightBlack | BrightWhite => []
  end.
Definition style_name (s : style) : bytes :=
  match s with Bold => lit "bold" | Italic => lit "italic" | Underline => lit "underline" | Strike => lit "strike" | Dimmed => lit "dimmed" end.
Definition align_sign (a : option alignment) : bytes :=
  match a with None => [] | Some ALeft => lit "<" | Some ARight => lit ">" | Some ACenter => lit "^" end.

Inductive writes_param : param -> bytes -> Prop :=
| WP_color c w : Forall (fun b => ascii_alpha b = true) w -> w <> [] -> map to_lower w = color_name c -> writes_param (QColor (CColor c)) w
| WP_purple w : Forall (fun b => ascii_alpha b = true) w -> map to_lower w = lit "purple" -> writes_param (QColor (CColor Magenta)) w
| WP_severity : writes_param (QColor CSeverity) (lit "severity")
| WP_werror : writes_param (QColor CWarnError) (lit "werror")
| WP_style s : writes_param (QStyle s) (style_name s)
| WP_width a d0 d : Forall (fun b => is_digit b = true) (d0 :: d) -> dec_value 0 (d0 :: d) < 2 ^ 64 ->
    writes_param (QWidth (dec_value 0 (d0 :: d)) (if d0 =? 48 then PZero else PSpace) a) (align_sign a ++ d0 :: d).

Definition colors_in (ps : list param) : list log_color := flat_map (fun p => match p with QColor c => [c] | _ => [] end) ps.
Definition styles_in (ps : list param) : list style := flat_map (fun p => match p with QStyle s => [s] | _ => [] end) ps.
Definition widths_in (ps : list param) : list (Z * padding * option alignment) :=
  flat_map (fun p => match p with QWidth w p a => [(w, p, a)] | _ => [] end) ps.

(** One colour, one width, and styles that are not repeated. *)
Definition params_ok (ps : list param) : Prop :=
  (length (colors_in ps) <= 1)%nat /\ (length (widths_in ps) <= 1)%nat /\ NoDup (styles_in ps).
Definition format_of (ps : list param) : log_format :=
  let st := match styles_in ps with [] => None | l => Some l end in
  match widths_in ps with
  | (w, p, a) :: _ => MkFormat (Some w) (hd_error (colors_in ps)) st a (Some p)
  | [] => MkFormat None (hd_error (colors_in ps)) st None None
  end.

Inductive spec_word : metadata -> bytes -> Prop :=
| SW_crate : spec_word MCrate (lit "c")
| SW_path : spec_word MFilePath (lit "F")
| SW_line : spec_word MLine (lit "l")
| SW_log : spec_word MLog (lit "s")
| SW_level : spec_word MLevel (lit "L")
| SW_module : spec_word MModule (lit "m")
| SW_time : spec_word MTime (lit "t")
| SW_file n : (1 <= n <= 255)%nat -> spec_word (MFileName (Z.of_nat n)) (repeat 102 n).

(** Plain text; in groups also without closing brackets and backslashes. *)
Definition text_ok (group : bool) (s : bytes) : Prop :=
  s <> [] /\ Forall (fun b => b <> 123 /\ b <> 37 /\ (group = true -> b <> 125 /\ b <> 92)) s.

(** A group must not begin with text that reads like a specifier or a parameter. *)
Definition is_sign (b : Z) : bool := (b =? 60) || (b =? 62) || (b =? 94).
Definition begins_plain (X : external) (s : bytes) : Prop :=
  let w := fst (word X s) in
  meta_of w = None /\ color_of X w = None /\ style_of w = None /\
  match s with
  | b :: r => is_digit b = false /\ (is_sign b = true -> match r with c :: _ => is_digit c = false | [] => True end)
  | [] => True
  end.

Definition is_text (s : segment) : bool := match s with MkSegment (MString _) _ => true | _ => false end.

(** A piece of the record, not text or a group. *)
Definition shows_data (m : metadata) : Prop := match m with MString _ | MNested _ => False | _ => True end.

Inductive writes (X : external) : bool -> segment -> bytes -> Prop :=
| W_text g s : text_ok g s -> writes X g (MkSegment (MString s) no_format) s
| W_spec g m w ps pt : spec_word m w -> Forall2 writes_param ps pt -> params_ok ps ->
    writes X g (MkSegment m (format_of ps)) ([123] ++ w ++ concat (map (cons 58) pt) ++ [125])
| W_group g l body ps pt : writes_all X true l body -> Forall2 writes_param ps pt -> params_ok ps ->
    (exists m f, In (MkSegment m f) l /\ shows_data m) ->
    (forall s r, l = MkSegment (MString s) no_format :: r -> begins_plain X s) ->
    writes X g (MkSegment (MNested l) (format_of ps)) ([123] ++ body ++ concat (map (cons 37) pt) ++ [125])
with writes_all (X : external) : bool -> list segment -> bytes -> Prop :=
| W_nil g : writes_all X g [] []
| W_cons g s l a b : writes X g s a -> writes_all X g l b ->
    (is_text s = true -> match l with t :: _ => is_text t = false | [] => True end) ->
    writes_all X g (s :: l) (a ++ b).

(** [{s}] occurs in the format, possibly in groups. *)
Inductive contains_log : segment -> Prop :=
| CL_here f : contains_log (MkSegment MLog f)
| CL_group l f s : In s l -> contains_log s -> contains_log (MkSegment (MNested l) f).

(** * Formatted records *)

(** The visible text: escape sequences for colours and styles ([ESC \[ ... m]) are removed from the left. *)
Inductive stripped : bytes -> bytes -> Prop :=
| ST_nil : stripped [] []
| ST_seq d s t : Forall (fun b => sgr_char b = true) d -> stripped s t -> stripped ([27; 91] ++ d ++ [109] ++ s) t
| ST_char b s t : (forall d q, Forall (fun b => sgr_char b = true) d -> b :: s <> [27; 91] ++ d ++ [109] ++ q) ->
    stripped s t -> stripped (b :: s) (b :: t).

(** The visible text of a segment is at least as wide as asked for, with all the padding where the alignment puts it. *)
Definition padded (a : alignment) (fill : Z) (width : Z) (s t : bytes) : Prop :=
  exists i j v, t = repeat fill i ++ s ++ repeat fill j /\ stripped s v /\ Z.of_nat (i + j) = Z.max 0 (width - char_count v) /\ match a with ALeft => i = 0%nat | ARight => j = 0%nat | ACenter => (i <= j <= S i)%nat end.

(** The crate is what comes before the first [::] of the module path. *)
Inductive crate_of : option bytes -> bytes -> Prop :=
| CR_none : crate_of None (lit "<crate>")
| CR_first c rest : (forall c' rest', c ++ lit "::" ++ rest = c' ++ lit "::" ++ rest' -> (length c <= length c')%nat) ->
    crate_of (Some (c ++ lit "::" ++ rest)) c
| CR_single m : (forall c rest, m <> c ++ lit "::" ++ rest) -> crate_of (Some m) (lit "<crate>").

Definition align_of (f : log_format) : alignment := match f_align f with Some a => a | None => ALeft end.
Definition fill_of (f : log_format) : Z := match f_pad f with Some PZero => 48 | _ => 32 end.
Definition width_of (f : log_format) (default : Z) : Z := match f_width f with Some w => w | None => default end.

(** A message whose last two lines are the values of a failed comparison. *)
Definition comparison (text : bytes) (before : list bytes) (l r : bytes) : Prop :=
  before <> [] /\ lines text = before ++ [left_start ++ l ++ tick; right_start ++ r ++ tick].

(** The same with a value missing: not even the closing quote is there. *)
Definition tick_end (s : bytes) : Prop := s = [] \/ exists v, s = v ++ tick.
Definition short_values (text : bytes) : Prop :=
  exists before a b, before <> [] /\ lines text = before ++ [left_start ++ a; right_start ++ b] /\ tick_end a /\ tick_end b /\ (a = [] \/ b = []).

(** What is shown without colours. *)
Inductive shows (X : external) (r : record) : segment -> bytes -> Prop :=
| S_text s f : shows X r (MkSegment (MString s) f) s
| S_time f t : padded (align_of f) (fill_of f) (width_of f 0)
    (if r_host r then lit "<time>" else match r_time r with [] => lit "<time>" | x => x end) t -> shows X r (MkSegment MTime f) t
| S_level l f t : r_level r = Some l -> padded (align_of f) (fill_of f) (width_of f 5) (level_upper l) t -> shows X r (MkSegment MLevel f) t
| S_path f t : padded (align_of f) (fill_of f) (width_of f 0) (match r_file r with Some p => p | None => lit "<file>" end) t ->
    shows X r (MkSegment MFilePath f) t
| S_no_file n f t : r_file r = None -> padded (align_of f) (fill_of f) (width_of f 0) (lit "<file>") t -> shows X r (MkSegment (MFileName n) f) t
| S_file n f p before comps t : r_file r = Some p -> path_components p = before ++ comps -> comps <> [] ->
    (Z.of_nat (length comps) = n \/ before = [] /\ Z.of_nat (length comps) <= n) ->
    padded (align_of f) (fill_of f) (width_of f 0) (join (lit "/") comps) t -> shows X r (MkSegment (MFileName n) f) t
| S_module f t : padded (align_of f) (fill_of f) (width_of f 0) (match r_module r with Some p => p | None => lit "<mod path>" end) t ->
    shows X r (MkSegment MModule f) t
| S_crate f c t : crate_of (r_module r) c -> padded (align_of f) (fill_of f) (width_of f 0) c t -> shows X r (MkSegment MCrate f) t
| S_line f t : padded (align_of f) (fill_of f) (width_of f 4) (dec_str (match r_line r with Some n => n | None => 0 end)) t -> shows X r (MkSegment MLine f) t
| S_host f : r_host r = true -> shows X r (MkSegment MLog f) (r_message r)
| S_diff f before a b : r_host r = false -> comparison (r_message r) before a b ->
    shows X r (MkSegment MLog f) (join [10] before ++ [10] ++ lit "diff < left / right >" ++ [10] ++ lit "<" ++ a ++ [10] ++ lit ">" ++ b)
| S_message f t : r_host r = false -> (forall before a b, ~ comparison (r_message r) before a b) ->
    padded (align_of f) (fill_of f) (width_of f 0) (r_message r) t -> shows X r (MkSegment MLog f) t
| S_group l f ts t : Forall2 (shows X r) l ts -> padded (align_of f) (fill_of f) (width_of f 0) (concat ts) t -> shows X r (MkSegment (MNested l) f) t.

(** ** Colours ([parser.rs] documentation, [mod.rs:741-770]) *)

(** The colour that setting [c] stands for in a record of level [l]. *)
Inductive stands_for : option log_color -> option level -> option color -> Prop :=
| CO_default l : stands_for None l None
| CO_fixed c l : stands_for (Some (CColor c)) l (Some c)
| CO_error : stands_for (Some CSeverity) (Some LError) (Some Red)
| CO_warn : stands_for (Some CSeverity) (Some LWarn) (Some Yellow)
| CO_info : stands_for (Some CSeverity) (Some LInfo) (Some Green)
| CO_debug : stands_for (Some CSeverity) (Some LDebug) (Some BrightWhite)
| CO_trace : stands_for (Some CSeverity) (Some LTrace) (Some BrightBlack)
| CO_werror_error : stands_for (Some CWarnError) (Some LError) (Some Red)
| CO_werror_warn : stands_for (Some CWarnError) (Some LWarn) (Some Yellow)
| CO_werror_other l : ~ In l [LError; LWarn] -> stands_for (Some CWarnError) (Some l) None.

(** Text with colour and styles. *)
Definition decorated (X : external) (c : option color) (styles : list style) (u t : bytes) : Prop :=
  (c = None /\ styles = [] /\ t = u) \/ ((c <> None \/ styles <> []) /\ t = x_sgr X c styles ++ u ++ reset).

(** Segments that show one piece of a record. *)
Definition piece (r : record) (m : metadata) : Prop :=
  match m with
  | MString _ | MNested _ => False
  | MLog => r_host r = false /\ forall before a b, ~ comparison (r_message r) before a b
  | _ => True
  end.

(** The level is coloured by severity unless another colour is given. *)
Definition color_setting (m : metadata) (f : log_format) : option log_color :=
  match m, f_color f with
  | MLevel, None => Some CSeverity
  | _, c => c
  end.
