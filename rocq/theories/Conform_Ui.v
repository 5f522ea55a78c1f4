(** The model against the tests of error messages, [defmt/tests/ui], and the two tests of
    [decoder/src/log/format/mod.rs:865-893].  These are no claims. *)
From Verif Require Import Base ParserModel.
From Verif Require ImplModel SyntaxModel LogFormatModel LogFormatExamples EncodeModel.

Section Derive.
  Import ImplModel EncodeModel.
  Definition of_field (attrs : list attr) : def :=
    {| d_name := Plain (lit "S"); d_attrs := []; d_where := [];
       d_body := BStruct KNamed [{| fd_name := Plain (lit "f"); fd_attrs := attrs; fd_ty := SPrim PBool |}] |}.
  Definition of_item (attrs : list attr) : def :=
    {| d_name := Plain (lit "S"); d_attrs := attrs; d_where := []; d_body := BStruct KNamed [] |}.
  Definition foobar : attr := ([lit "defmt"], AtList [MPath [lit "FooBar"] RNothing]).
  Definition empty : attr := ([lit "defmt"], AtList []).
  Definition debug : attr := ([lit "defmt"], AtList [MPath [lit "Debug2Format"] RNothing]).

  Example derive_empty_attr : derive (of_field [empty]) = Err EMissing.
  Proof. reflexivity. Qed.
  Example derive_invalid_attr_arg_item : derive (of_item [foobar]) = Err EUnknown.
  Proof. reflexivity. Qed.
  Example derive_invalid_attr_arg : derive (of_field [foobar]) = Err EUnknown.
  Proof. reflexivity. Qed.
  (** [crate = "not a path"] and [crate(defmt)]; the third, [crate = unresolved], is an error of the
      compiler in the generated code. *)
  Example derive_invalid_crate_overwrite :
    derive (of_item [([lit "defmt"], AtList [MPath [lit "crate"] RJunk])]) = Err ESyntax.
  Proof. reflexivity. Qed.
  Example derive_unresolved_crate : exists im,
    derive (of_item [([lit "defmt"], AtList [MPath [lit "crate"] (RIs [lit "unresolved"])])]) = Ok im /\
    im_path im = [lit "unresolved"].
  Proof. eexists. split; reflexivity. Qed.
  Example derive_multi_attr : derive (of_field [debug; empty]) = Err EMultiple.
  Proof. reflexivity. Qed.
End Derive.

Example log_invalid_hint : parse (lit "{=u8:dunno}") Strict = Err (UnknownDisplayHint (lit "dunno")).
Proof. reflexivity. Qed.

Section Handler.
  Import SyntaxModel.
  Definition handler (attrs inputs : list toks) (never : bool) : fn_item :=
    {| f_attrs := attrs; f_vis := []; f_const := false; f_async := false; f_unsafe := false; f_abi := None;
       f_generics := []; f_where := []; f_variadic := false; f_inputs := inputs; f_never := never;
       f_name := lit "foo"; f_body := [] |}.

  Example panic_handler_argument : panic_handler [] (handler [] [[TWord (lit "x"); TColon; TWord (lit "bool")]] true) = Err ESignature.
  Proof. reflexivity. Qed.
  Example panic_handler_empty : panic_handler [] (handler [] [] false) = Err ESignature.
  Proof. reflexivity. Qed.
  Example panic_handler_export_name :
    panic_handler [] (handler [[TWord (lit "export_name"); TEq; TLit (lit "hello")]] [] true) = Err (EConflict (lit "export_name")).
  Proof. reflexivity. Qed.
  Example panic_handler_no_mangle :
    panic_handler [] (handler [[TWord (lit "no_mangle")]] [] true) = Err (EConflict (lit "no_mangle")).
  Proof. reflexivity. Qed.
End Handler.

Section Alignment.
  Import LogFormatModel.
  Definition aligned (a : alignment) : outcome unit bytes :=
    match build_formatted LogFormatExamples.X0 true (lit "test")
            (MkFormat (Some 10) (Some (CColor Green)) (Some [Bold]) (Some a) (Some PSpace)) 0 None None with
    | Ok s => Ok (strip_ansi s)
    | x => x
    end.

  Example left_aligned_styled_string : aligned ALeft = Ok (lit "test      ").
  Proof. reflexivity. Qed.
  Example right_aligned_styled_string : aligned ARight = Ok (lit "      test").
  Proof. reflexivity. Qed.
End Alignment.
