(** The input of the macros: token lists, and the parsers written with [syn]
    ([macros/src/function_like/log/args.rs], [write/args.rs], [assert_like.rs],
    [assert_binop/args.rs], [dbg/args.rs], [panic_like.rs:12-27], [intern.rs:6-9],
    [items/bitflags/input.rs]) and the checks of the attribute macros
    ([attributes/panic_handler.rs], [attributes/global_logger.rs]).

    The parsers of [syn] for expressions and types are functions given from outside, that
    split what they read from the rest ([syn_parsers]).  The inside of an attribute is not
    parsed further. *)
From Verif Require Import Base.

Inductive delim := Paren | Bracket | Brace.
(** [TLit s]: a string literal with the value [s]; [TWord s]: an identifier or keyword;
    [TOther s]: other punctuation and literals. *)
Inductive tok :=
| TComma | TSemi | TColon | TEq | TPound
| TLit (s : bytes)
| TWord (s : bytes)
| TOther (s : bytes)
| TGroup (d : delim) (ts : list tok).
Notation toks := (list tok) (only parsing).

Record syn_parsers := {
  syn_expr : toks -> option (toks * toks);
  syn_type : toks -> option (toks * toks) }.

(** [input.parse::<Token![..]>()], on one given token. *)
Definition expect_word (s : string) (ts : toks) : option toks :=
  match ts with TWord w :: ts' => if beq w (lit s) then Some ts' else None | _ => None end.
Definition expect_comma (ts : toks) : option toks := match ts with TComma :: ts' => Some ts' | _ => None end.
Definition expect_colon (ts : toks) : option toks := match ts with TColon :: ts' => Some ts' | _ => None end.
Definition expect_eq (ts : toks) : option toks := match ts with TEq :: ts' => Some ts' | _ => None end.

Definition obind {A B} (x : option A) (k : A -> option B) : option B :=
  match x with Some a => k a | None => None end.

(** [Punctuated::parse_terminated].  The budget of the loop is the number of tokens;
    [None] inside [Some] is the error, [None] that it was too small. *)
Fixpoint terminated {A} (fuel : nat) (item : toks -> option (A * toks)) (sep : toks -> option toks) (ts : toks)
  : option (option (list A)) :=
  match fuel with
  | O => None
  | S fuel' =>
      match ts with
      | [] => Some (Some [])
      | _ =>
          match item ts with
          | None => Some None
          | Some (a, []) => Some (Some [a])
          | Some (a, rest) =>
              match sep rest with
              | None => Some None
              | Some ts' => option_map (option_map (cons a)) (terminated fuel' item sep ts')
              end
          end
      end
  end.
Definition parse_terminated {A} (item : toks -> option (A * toks)) (sep : toks -> option toks) (ts : toks)
  : option (list A) :=
  match terminated (S (length ts)) item sep ts with Some r => r | None => None end.

Section Macros.
  Context (syn : syn_parsers).

  Definition exprs (ts : toks) : option (list toks) := parse_terminated (syn_expr syn) expect_comma ts.

  (** [log/args.rs:12-24]: also [println!], [timestamp!]. *)
  Definition log_args : Type := bytes * option (list toks).
  Definition parse_log (ts : toks) : option log_args :=
    match ts with
    | TLit s :: [] => Some (s, None)
    | TLit s :: ts' => obind (expect_comma ts') (fun ts'' => obind (exprs ts'') (fun es => Some (s, Some es)))
    | _ => None
    end.

  (** [panic_like.rs:12-27]: [Some None] without arguments. *)
  Definition parse_panic (ts : toks) : option (option log_args) :=
    match ts with [] => Some None | _ => option_map Some (parse_log ts) end.

  (** [write/args.rs:14-22]. *)
  Definition parse_write (ts : toks) : option (toks * log_args) :=
    obind (syn_expr syn ts) (fun '(f, ts1) =>
    obind (expect_comma ts1) (fun ts2 =>
    obind (parse_log ts2) (fun l => Some (f, l)))).

  (** [assert_like.rs:16-43]: [assert!] and [unwrap!]. *)
  Definition parse_assert (ts : toks) : option (toks * option log_args) :=
    obind (syn_expr syn ts) (fun '(c, ts1) =>
    match ts1 with
    | [] => Some (c, None)
    | _ =>
        obind (expect_comma ts1) (fun ts2 =>
        match ts2 with
        | [] => Some (c, None)
        | _ => obind (parse_log ts2) (fun l => Some (c, Some l))
        end)
    end).

  (** [assert_binop/args.rs:14-47]. *)
  Definition parse_comparison (ts : toks) : option (toks * toks * option log_args) :=
    obind (syn_expr syn ts) (fun '(l, ts1) =>
    obind (expect_comma ts1) (fun ts2 =>
    obind (syn_expr syn ts2) (fun '(r, ts3) =>
    match ts3 with
    | [] => Some (l, r, None)
    | _ =>
        obind (expect_comma ts3) (fun ts4 =>
        match ts4 with
        | [] => Some (l, r, None)
        | _ => obind (parse_log ts4) (fun a => Some (l, r, Some a))
        end)
    end))).

  (** [dbg/args.rs:11-17]. *)
  Definition parse_dbg (ts : toks) : option (list toks) := exprs ts.

  (** [intern.rs:6-9], [internp.rs:7-8]. *)
  Definition parse_intern (ts : toks) : option bytes :=
    match ts with [TLit s] => Some s | _ => None end.

  (** ** [bitflags!], [items/bitflags/input.rs] *)

  (** [Attribute::parse_outer]: the contents of the brackets. *)
  Fixpoint parse_outer (ts : toks) : option (list toks * toks) :=
    match ts with
    | TPound :: TGroup Bracket a :: ts' =>
        option_map (fun '(l, rest) => (a :: l, rest)) (parse_outer ts')
    | TPound :: _ => None
    | _ => Some ([], ts)
    end.

  (** [Visibility::parse]. *)
  Definition visibility_group (ts : toks) : bool :=
    match ts with
    | [TWord w] => beq w (lit "crate") || beq w (lit "self") || beq w (lit "super")
    | TWord w :: _ => beq w (lit "in")
    | _ => false
    end.
  Definition parse_vis (ts : toks) : toks * toks :=
    match ts with
    | TWord w :: ts' =>
        if beq w (lit "pub") then
          match ts' with
          | TGroup Paren g :: ts'' => if visibility_group g then ([TWord w; TGroup Paren g], ts'') else ([TWord w], ts')
          | _ => ([TWord w], ts')
          end
        else ([], ts)
    | _ => ([], ts)
    end.

  (** Words that are not identifiers (only those that matter here). *)
  Definition keyword (w : bytes) : bool :=
    existsb (fun k => beq w (lit k)) ["const"; "struct"; "pub"; "fn"; "static"; "let"; "mut"; "type"; "self"; "in"]%string.
  Definition parse_ident (ts : toks) : option (bytes * toks) :=
    match ts with TWord w :: ts' => if keyword w then None else Some (w, ts') | _ => None end.

  Record flag := { fl_attrs : list toks; fl_cfgs : list toks; fl_name : bytes; fl_value : toks }.

  (** [input.rs:83-93] [extract_cfgs]: attributes whose path is [cfg]. *)
  Definition is_cfg (a : toks) : bool :=
    match a with
    | TWord w :: TOther p :: _ => beq w (lit "cfg") && negb (beq p (lit "::"))
    | TWord w :: _ => beq w (lit "cfg")
    | _ => false
    end.

  (** [input.rs:59-71]. *)
  Definition parse_flag (ts : toks) : option (flag * toks) :=
    obind (parse_outer ts) (fun '(attrs, ts1) =>
    obind (expect_word "const" ts1) (fun ts2 =>
    obind (parse_ident ts2) (fun '(name, ts3) =>
    obind (expect_eq ts3) (fun ts4 =>
    obind (syn_expr syn ts4) (fun '(v, ts5) =>
    Some ({| fl_attrs := attrs; fl_cfgs := filter is_cfg attrs; fl_name := name; fl_value := v |}, ts5)))))).

  Definition expect_semi (ts : toks) : option toks := match ts with TSemi :: ts' => Some ts' | _ => None end.

  Record flags_input := { fi_attrs : list toks; fi_vis : toks; fi_name : bytes; fi_ty : toks; fi_flags : list flag }.

  (** [input.rs:19-33]; [parse_macro_input!] wants all tokens used. *)
  Definition parse_flags (ts : toks) : option flags_input :=
    obind (parse_outer ts) (fun '(attrs, ts1) =>
    let (vis, ts2) := parse_vis ts1 in
    obind (expect_word "struct" ts2) (fun ts3 =>
    obind (parse_ident ts3) (fun '(name, ts4) =>
    obind (expect_colon ts4) (fun ts5 =>
    obind (syn_type syn ts5) (fun '(ty, ts6) =>
    match ts6 with
    | [TGroup Brace body] =>
        obind (parse_terminated parse_flag expect_semi body) (fun fs =>
        Some {| fi_attrs := attrs; fi_vis := vis; fi_name := name; fi_ty := ty; fi_flags := fs |})
    | _ => None
    end))))).
End Macros.

(* ------------------------------------------------------------------ *)
(** * Attribute macros *)

(** A function as [syn::ItemFn]: what [validate] looks at, and the rest. *)
Record fn_item := {
  f_attrs : list toks; f_vis : toks; f_const : bool; f_async : bool; f_unsafe : bool; f_abi : option bytes;
  f_generics : toks; f_where : toks; f_variadic : bool; f_inputs : list toks;
  f_never : bool; (* the return type is written [!] *)
  f_name : bytes; f_body : toks }.

(** [attr.path().get_ident()]: the attribute is a single word, possibly with arguments. *)
Definition attr_ident (a : toks) : option bytes :=
  match a with
  | TWord w :: TOther p :: _ => if beq p (lit "::") then None else Some w
  | TWord w :: _ => Some w
  | _ => None
  end.

Inductive attr_error := EArgs | ESignature | EConflict (name : bytes) | EStruct.

Definition is_nil {A} (l : list A) : bool := match l with [] => true | _ => false end.

(** [panic_handler.rs:43-62]. *)
Fixpoint conflicts (attrs : list toks) (reject : list bytes) : outcome attr_error unit :=
  match attrs with
  | [] => Ok tt
  | a :: attrs' =>
      match attr_ident a with
      | Some w => if existsb (beq w) reject then Err (EConflict w) else conflicts attrs' reject
      | None => conflicts attrs' reject
      end
  end.

(** [panic_handler.rs:6-16, 18-38, 64-78]: the function that replaces the item. *)
Record fn_out := { o_attrs : list toks; o_export : bytes; o_vis : toks; o_name : bytes; o_body : toks }.
Definition panic_handler (args : toks) (f : fn_item) : outcome attr_error fn_out :=
  if negb (is_nil args) then Err EArgs
  else if f_const f || f_async f || f_unsafe f || (match f_abi f with Some _ => true | None => false end) ||
          negb (is_nil (f_generics f)) || negb (is_nil (f_where f)) || f_variadic f ||
          negb (is_nil (f_inputs f)) || negb (f_never f)
  then Err ESignature
  else
    _ <- conflicts (f_attrs f) [lit "export_name"; lit "no_mangle"] ;;
    Ok {| o_attrs := f_attrs f; o_export := lit "_defmt_panic"; o_vis := []; o_name := f_name f; o_body := f_body f |}.

(** [global_logger.rs:6-30, 32-66]. *)
Inductive struct_fields := SUnit | SNamed (fs : list toks) | SUnnamed (fs : list toks).
Record struct_item := { s_attrs : list toks; s_vis : toks; s_name : bytes; s_generics : toks; s_where : toks; s_fields : struct_fields }.
Record logger_out := { l_struct : struct_item; l_functions : list (bytes * bytes) }.
Definition global_logger (args : toks) (s : struct_item) : outcome attr_error logger_out :=
  if negb (is_nil args) then Err EArgs
  else if negb (is_nil (s_generics s)) || negb (is_nil (s_where s)) ||
          negb (match s_fields s with SUnit => true | _ => false end)
  then Err EStruct
  else Ok {| l_struct := {| s_attrs := s_attrs s; s_vis := s_vis s; s_name := s_name s; s_generics := []; s_where := []; s_fields := SUnit |};
             l_functions := [(lit "_defmt_acquire", lit "acquire"); (lit "_defmt_flush", lit "flush");
                             (lit "_defmt_release", lit "release"); (lit "_defmt_write", lit "write")] |}.
