(** The built-in log formats. *)
From Verif Require Import Base Utf8 ParserModel Numerals EnvFilterModel LogFormatModel LogFormatSpec LogFormatProofs LogFormatAccept.

Definition raw (m : metadata) : segment := MkSegment m no_format.
Definition styled (m : metadata) (s : style) : segment := MkSegment m (MkFormat None None (Some [s]) None None).

(** What the built-in format strings mean. *)
Definition level_group (k : builtin) : segment :=
  match k with
  | FDefault => raw MLevel
  | FOneLine => styled (MNested [raw (MString (lit "[")); raw MLevel; raw (MString (lit "]"))]) Bold
  end.
Definition place (k : builtin) : list segment :=
  match k with
  | FDefault => [raw (MString ([10] ++ lit "└─ ")); raw MModule; raw (MString (lit " @ ")); raw MFilePath; raw (MString (lit ":")); raw MLine]
  | FOneLine => [raw (MString (lit " "));
      styled (MNested [raw (MString (lit "(")); styled MCrate Bold; raw (MString (lit " ")); raw (MFileName 3); raw (MString (lit ":"));
                       MkSegment MLine (MkFormat (Some 1) None None None (Some PSpace)); raw (MString (lit ")"))]) Dimmed]
  end.
Definition builtin_segments (k : builtin) (with_location has_timestamp host : bool) : list segment :=
  (if host then [raw (MString (lit "(HOST) "))] else []) ++ (if has_timestamp then [raw MTime; raw (MString (lit " "))] else []) ++
  [level_group k; raw (MString (lit " ")); raw MLog] ++ (if with_location then place k else []).

Section Builtin.
  Context (X : external) (HX : external_ok X).

  Lemma w_raw : forall g m w, spec_word m w -> writes X g (raw m) ([123] ++ w ++ [125]).
  Proof. intros g m w H. apply (W_spec X g m w [] [] H); [constructor|]. split; [cbn; lia|split; [cbn; lia|constructor]]. Qed.
  Lemma w_text : forall g s, text_ok g s -> writes X g (raw (MString s)) s.
  Proof. intros. now apply W_text. Qed.
  Lemma text_check : forall g s, s <> [] -> forallb (fun b => negb ((b =? 123) || (b =? 37) || (b =? 125) || (b =? 92))) s = true -> text_ok g s.
  Proof.
    intros g s N H. split; auto. apply Forall_forall. intros b Hb. rewrite forallb_forall in H. specialize (H b Hb). apply negb_true_iff in H.
    repeat (apply orb_false_iff in H as [H ?]). rewrite ?Z.eqb_neq in *. tauto.
  Qed.

  Definition group_inside : bytes := lit "({c:bold} {fff}:{l:1})".

  Lemma one_style : forall s, Forall2 writes_param [QStyle s] [style_name s] /\ params_ok [QStyle s].
  Proof. intros s. split; [repeat constructor|]. split; [cbn; lia|]. split; [cbn; lia|]. cbn. constructor; [easy|constructor]. Qed.

  Ltac wt := apply w_text, text_check; [discriminate|reflexivity].

  Lemma w_level : forall k, writes X false (level_group k) (match k with FDefault => lit "{L}" | FOneLine => lit "{[{L}]%bold}" end).
  Proof.
    intros [].
    - apply (w_raw false MLevel (lit "L")). constructor.
    - destruct (one_style Bold) as [A B].
      apply (W_group X false [raw (MString (lit "[")); raw MLevel; raw (MString (lit "]"))] (lit "[{L}]") [QStyle Bold] [style_name Bold]); auto.
      + change (lit "[{L}]") with (lit "[" ++ lit "{L}" ++ lit "]" ++ []).
        apply W_cons; [wt| |auto]. apply W_cons; [apply (w_raw true MLevel (lit "L")); constructor| |auto]. apply W_cons; [wt|constructor|auto].
      + exists MLevel, no_format. split; [cbn; auto|exact Logic.I].
      + intros s r E. assert (s = lit "[") by (unfold raw in E; congruence). subst s. unfold begins_plain. cbv zeta. replace (fst (word X (lit "["))) with (@nil Z) by reflexivity. rewrite (color_of_nil X HX). split; [reflexivity|]. split; [reflexivity|]. split; [reflexivity|]. split; [reflexivity|discriminate].
  Qed.

  Lemma w_place : forall k, writes_all X false (place k) (match k with FDefault => [10] ++ lit "└─ {m} @ {F}:{l}" | FOneLine => lit " {({c:bold} {fff}:{l:1})%dimmed}" end).
  Proof.
    intros [].
    - change ([10] ++ lit "└─ {m} @ {F}:{l}") with (([10] ++ lit "└─ ") ++ lit "{m}" ++ lit " @ " ++ lit "{F}" ++ lit ":" ++ lit "{l}" ++ []).
      apply W_cons; [wt| |auto]. apply W_cons; [apply (w_raw false MModule (lit "m")); constructor| |auto]. apply W_cons; [wt| |auto].
      apply W_cons; [apply (w_raw false MFilePath (lit "F")); constructor| |auto]. apply W_cons; [wt| |auto]. apply W_cons; [apply (w_raw false MLine (lit "l")); constructor| |auto]. constructor.
    - change (lit " {({c:bold} {fff}:{l:1})%dimmed}") with (lit " " ++ lit "{({c:bold} {fff}:{l:1})%dimmed}" ++ []).
      apply W_cons; [wt| |auto]. apply W_cons; [|constructor|auto].
      destruct (one_style Dimmed) as [A B].
      apply (W_group X false [raw (MString (lit "(")); styled MCrate Bold; raw (MString (lit " ")); raw (MFileName 3); raw (MString (lit ":"));
                       MkSegment MLine (MkFormat (Some 1) None None None (Some PSpace)); raw (MString (lit ")"))] group_inside [QStyle Dimmed] [style_name Dimmed]); auto.
      + change group_inside with (lit "(" ++ lit "{c:bold}" ++ lit " " ++ lit "{fff}" ++ lit ":" ++ lit "{l:1}" ++ lit ")" ++ []).
        apply W_cons; [wt| |auto]. apply W_cons; [destruct (one_style Bold) as [A' B']; apply (W_spec X true MCrate (lit "c") [QStyle Bold] [style_name Bold]); [constructor|auto|auto]| |auto].
        apply W_cons; [wt| |auto]. apply W_cons; [apply (w_raw true (MFileName 3) (lit "fff")); apply (SW_file 3); lia| |auto]. apply W_cons; [wt| |auto].
        apply W_cons; [|apply W_cons; [wt|constructor|auto]|auto].
        apply (W_spec X true MLine (lit "l") [QWidth 1 PSpace None] [lit "1"]); [constructor| |].
        * constructor; [|constructor]. apply (WP_width None 49 []); [repeat constructor|cbn; lia].
        * split; [cbn; lia|]. split; [cbn; lia|constructor].
      + eexists MCrate, _. split; [right; left; reflexivity|exact Logic.I].
      + intros s r E. assert (s = lit "(") by (unfold raw in E; congruence). subst s. unfold begins_plain. cbv zeta. replace (fst (word X (lit "("))) with (@nil Z) by reflexivity. rewrite (color_of_nil X HX). split; [reflexivity|]. split; [reflexivity|]. split; [reflexivity|]. split; [reflexivity|discriminate].
  Qed.

  Lemma builtin_writes : forall k loc ts host, writes_all X false (builtin_segments k loc ts host) (formatter_string k loc ts host).
  Proof.
    intros k loc ts host. unfold formatter_string.
    assert (M : writes_all X false ([level_group k; raw (MString (lit " ")); raw MLog] ++ (if loc then place k else [])) (builtin_string k loc false)).
    { assert (T : forall tail segs, writes_all X false segs tail -> writes_all X false ([level_group k; raw (MString (lit " ")); raw MLog] ++ segs)
        ((match k with FDefault => lit "{L}" | FOneLine => lit "{[{L}]%bold}" end) ++ lit " " ++ lit "{s}" ++ tail)).
      { intros tail segs H. cbn [app]. apply W_cons; [apply w_level| |destruct k; discriminate]. apply W_cons; [wt| |auto]. apply W_cons; [apply (w_raw false MLog (lit "s")); constructor|exact H|discriminate]. }
      destruct loc.
      - specialize (T _ _ (w_place k)). destruct k; exact T.
      - specialize (T [] [] (W_nil X false)). rewrite app_nil_r in *. destruct k; exact T. }
    assert (N : writes_all X false ((if ts then [raw MTime; raw (MString (lit " "))] else []) ++ [level_group k; raw (MString (lit " ")); raw MLog] ++ (if loc then place k else [])) (builtin_string k loc ts)).
    { destruct ts; [|exact M]. replace (builtin_string k loc true) with (lit "{t}" ++ lit " " ++ builtin_string k loc false) by (destruct k, loc; reflexivity).
      cbn [app] in *. apply W_cons; [apply (w_raw false MTime (lit "t")); constructor| |discriminate]. apply W_cons; [wt|exact M|]. intros _. destruct k; reflexivity. }
    unfold builtin_segments. destruct host; [|exact N]. cbn [app] in *. apply W_cons; [wt|exact N|]. intros _. destruct ts, k; reflexivity.
  Qed.

  Lemma builtin_parses : forall k loc ts host, parse_log_format X (formatter_string k loc ts host) = Ok (builtin_segments k loc ts host).
  Proof.
    intros k loc ts host. apply accepts; auto; [apply builtin_writes|]. exists (raw MLog). split; [|constructor]. unfold builtin_segments.
    apply in_or_app. right. apply in_or_app. right. apply in_or_app. left. cbn. auto.
  Qed.
End Builtin.
