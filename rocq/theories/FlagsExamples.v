(** A [bitflags!] type in a concrete binary. *)
From Verif Require Import Base Utf8 ParserModel DecoderModel Numerals EncodeModel EncodeSpec DisplayModel DisplayProofs DisplayExamples
  EnvFilterModel SymbolModel SymbolProofs TableModel TableSpec TextSpec TextMain FlagsModel FlagsSpec FlagsProofs.
From Coq Require Import Permutation.

(** [bitflags! { struct Mode: u8 { const NONE = 0; const READ = 1; const WRITE = 2;
    #[cfg(never)] const OLD = 128; const BOTH = 3; const EXEC = 4 } }] *)
Definition mode_flags : bitflags :=
  MkBitflags (lit "Mode") W8
    [MkFlag (lit "NONE") 0 true; MkFlag (lit "READ") 1 true; MkFlag (lit "WRITE") 2 true;
     MkFlag (lit "OLD") 128 false; MkFlag (lit "BOTH") 3 true; MkFlag (lit "EXEC") 4 true]
    (lit "my-app") 77 (lit "my_app").

Definition static_at (i : Z) (name : bytes) (v a : Z) : elf_symbol :=
  MkElfSymbol (Some (static_name mode_flags i (MkFlag name v true))) (Some 5) a 16.

Definition mode_symbols : list elf_symbol := [
  static_at 5 (lit "EXEC") 4 64;
  MkElfSymbol (Some (lit "_defmt_version_ = 4")) None 1 0;
  MkElfSymbol (Some (lit "_defmt_encoding_ = raw")) None 2 0;
  static_at 0 (lit "NONE") 0 48;
  static_at 1 (lit "READ") 1 16;
  MkElfSymbol (Some (interned (lit "my-app") 77 (lit "my_app") (lit "bitflags") (format_tag (flags_type mode_flags)))) (Some 5) 1 1;
  static_at 4 (lit "BOTH") 3 80;
  MkElfSymbol (Some (interned (lit "my-app") 78 (lit "my_app") (lit "info") (lit "mode {}"))) (Some 5) 2 1;
  static_at 2 (lit "WRITE") 2 32].

Definition mode_data : bytes :=
  repeat 0 16 ++ le_bytes 16 1 ++ le_bytes 16 2 ++ le_bytes 16 0 ++ le_bytes 16 4 ++ le_bytes 16 3.
Definition mode_elf : elf := MkElf mode_symbols (Some (5, Some mode_data)).

Lemma mode_ok : bitflags_ok mode_flags.
Proof.
  assert (N : forall s c, forallb (fun x => negb (x =? c)) s = true -> ~ In c s).
  { intros s c H I. rewrite forallb_forall in H. apply H in I. rewrite Z.eqb_refl in I. discriminate. }
  unfold bitflags_ok, flags_name_ok, ident_ok. split; [|split; [|split; [|split]]].
  - repeat constructor; try reflexivity; apply N; reflexivity.
  - apply N. reflexivity.
  - repeat constructor; try reflexivity; try (apply N; reflexivity); vm_compute; congruence.
  - vm_compute. congruence.
  - vm_compute. reflexivity.
Qed.

Definition statics_list : list (bytes * bytes) := Eval vm_compute in flag_statics mode_flags.
Definition names_list : list (option bytes) := Eval vm_compute in map y_name mode_symbols.

Lemma mode_contained : contains_flags 5 mode_data mode_symbols mode_flags.
Proof.
  split; [|split].
  - intros st H. change (flag_statics mode_flags) with statics_list in H. cbn [In statics_list] in H.
    assert (P : forall k n before after, nth_error mode_symbols k = Some n -> mode_data = before ++ snd st ++ after ->
      Z.of_nat (length before) = y_address n -> y_name n = Some (fst st) -> y_section n = Some 5 ->
      y_size n = Z.of_nat (length (snd st)) -> exists y, In y mode_symbols /\ placed 5 mode_data y st).
    { intros k n before after I E L A B C. exists n. split; [eapply nth_error_In; eauto|]. repeat split; auto. exists before, after. auto. }
    repeat (destruct H as [<-|H]; [
      first [ eapply (P 3%nat _ (firstn 48 mode_data) (skipn 64 mode_data)); vm_compute; reflexivity
            | eapply (P 4%nat _ (firstn 16 mode_data) (skipn 32 mode_data)); vm_compute; reflexivity
            | eapply (P 8%nat _ (firstn 32 mode_data) (skipn 48 mode_data)); vm_compute; reflexivity
            | eapply (P 6%nat _ (firstn 80 mode_data) (skipn 96 mode_data)); vm_compute; reflexivity
            | eapply (P 0%nat _ (firstn 64 mode_data) (skipn 80 mode_data)); vm_compute; reflexivity ]|]).
    destruct H.
  - assert (D : NoDup (map y_name mode_symbols)).
    { change (map y_name mode_symbols) with names_list. unfold names_list.
      repeat (constructor; [intros H; cbn [In] in H; repeat (destruct H as [H|H]; [discriminate H|]); destruct H|]). constructor. }
    revert D. generalize mode_symbols. induction l as [|y l IH]; cbn [map]; intros D; [constructor|].
    inversion D as [|? ? D1 D2]; subst. constructor; [|auto].
    apply Forall_forall. intros y' I st _ A B. apply D1. rewrite A, <- B. now apply in_map.
  - intros y name d I (Ny & _ & Sy & D) T _ _ _ _.
    assert (C : forallb (fun y => match y_name y with
        | Some n => match demangle n with
                    | Ok d => if beq (d_tag d) (lit "defmt_bitflags_value") then existsb (beq n) (map fst (flag_statics mode_flags)) else true
                    | _ => true end
        | None => true end) mode_symbols = true) by (vm_compute; reflexivity).
    rewrite forallb_forall in C. specialize (C y I). cbv beta in C. rewrite Ny, D, T, beq_refl in C.
    apply existsb_exists in C as (n & In' & E). apply beq_true in E. subst n. exact In'.
Qed.

Definition mode_table : table :=
  MkTable None
    [(1, MkEntry GBitflags (format_tag (flags_type mode_flags)) (interned (lit "my-app") 77 (lit "my_app") (lit "bitflags") (format_tag (flags_type mode_flags))));
     (2, MkEntry GInfo (lit "mode {}") (interned (lit "my-app") 78 (lit "my_app") (lit "info") (lit "mode {}")))]
    [(MkKey (lit "Mode") (lit "my-app") (lit "77") (Some (lit "my_app")),
      [(lit "NONE", 0); (lit "READ", 1); (lit "WRITE", 2); (lit "BOTH", 3); (lit "EXEC", 4)])] EncRaw.

Lemma mode_parses : parse_elf true mode_elf = Ok (Some mode_table).
Proof. vm_compute. reflexivity. Qed.

Definition mode_shown (x : Z) : option text :=
  match decode mode_table (encode_frame (fun _ => 1) 2 None [] (lit "mode {}") [AvFmt (flags_type mode_flags) (VNum x)]) with
  | Ok (fr, _) => Some (display_message X0 mode_table fr)
  | _ => None
  end.

Lemma mode_printed : map mode_shown [0; 3; 5; 6; 8; 129] = map (fun s => Some (Some (lit s)))
  ["mode NONE"; "mode READ | WRITE | BOTH"; "mode READ | EXEC"; "mode WRITE | EXEC"; "mode (empty)"; "mode READ"]%string.
Proof. vm_compute. reflexivity. Qed.

(** A type all of whose flags are disabled: numbers are shown. *)
Definition bare_flags : bitflags := MkBitflags (lit "Bare") W16 [MkFlag (lit "A") 1 false] (lit "my-app") 77 (lit "my_app").
Lemma bare_shown : forall tbl, t_bitflags tbl = t_bitflags mode_table ->
  says X0 tbl None (flags_type bare_flags) (VNum 1) (lit "1").
Proof. intros tbl H. change (lit "1") with (dec_str 1). constructor. rewrite H. reflexivity. Qed.
