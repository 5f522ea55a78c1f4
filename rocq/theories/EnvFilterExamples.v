(** Concrete runs of the [DEFMT_LOG] filter, and where it departs from the book. *)
From Verif Require Import Base ParserModel EnvFilterModel EnvFilterSpec EnvFilterProofs EnvFilterMain.

(** Identifiers of letters, digits and underscores; like [syn::parse_str], blanks before
    them are ignored. *)
Definition ident_char (c : Z) : bool :=
  ((97 <=? c) && (c <=? 122)) || ((65 <=? c) && (c <=? 90)) || ((48 <=? c) && (c <=? 57)) || (c =? 95).
Definition plain_ident (t : bytes) : bool :=
  match t with
  | [] => false
  | c :: _ => forallb ident_char t && negb ((48 <=? c) && (c <=? 57))
  end.
Fixpoint simple_ident (s : bytes) : bool :=
  match s with
  | [] => false
  | c :: t => if c =? 32 then simple_ident t else plain_ident s
  end.

Lemma simple_ident_ok : forall s, simple_ident s = true -> s <> [] /\ ~ In 44 s /\ ~ In 58 s /\ ~ In 61 s.
Proof.
  assert (G : forall s c, simple_ident s = true -> c = 44 \/ c = 58 \/ c = 61 -> ~ In c s).
  { induction s as [|d s IH]; intros c H Hc I; [destruct I|]. cbn [simple_ident] in H. destruct (d =? 32) eqn:E.
    - destruct I as [->|I]; [lia|]. exact (IH c H Hc I).
    - unfold plain_ident in H. apply andb_prop in H as [H _]. rewrite forallb_forall in H. apply H in I.
      destruct Hc as [->|[->| ->]]; discriminate. }
  intros s H. split; [intros ->; discriminate|]. repeat split; apply G; auto.
Qed.

Definition app_inner : path := [lit "app"; lit "inner"].
Definition book_override : bytes := lit "trace,app::inner=error".
Definition book_directives : list directive := [(None, Some LTrace); (Some app_inner, Some LError)].

Lemma book_text : log_text simple_ident book_override book_directives.
Proof.
  exists [lit "trace"; lit "app::inner=error"]. split; [reflexivity|]. constructor; [|constructor; [|constructor]].
  - exact (DT_level simple_ident (Some LTrace)).
  - apply (DT_module_level simple_ident app_inner (Some LError)). split; [discriminate|]. repeat constructor.
Qed.

Lemma book_effective : effective book_directives app_inner (Some LError).
Proof.
  apply E_module with app_inner.
  - exists []. reflexivity.
  - exists [(None, Some LTrace)], []. split; [reflexivity|]. intros l [].
  - intros q l (r & E) _. rewrite E, app_length. lia.
Qed.

Lemma names_app_inner : names_ok app_inner.
Proof. repeat constructor; cbn; try discriminate; intuition discriminate. Qed.

(** The book's own example of an override: [app::inner] should emit only errors, but its
    trace statements are compiled in. *)
Lemma override_ignored :
  effective book_directives app_inner (Some LError) /\ ~ enables (Some LError) LTrace /\
  compiled_in simple_ident (Some book_override) (lit "app") LTrace (join_path app_inner) = Ok true.
Proof.
  split; [exact book_effective|]. split; [|vm_compute; reflexivity].
  intros H. apply enables_rank in H. discriminate.
Qed.

(** [off] does override. *)
Lemma off_works :
  compiled_in simple_ident (Some (lit "trace,app::noisy=off")) (lit "app") LError (lit "app::noisy") = Ok false /\
  compiled_in simple_ident (Some (lit "trace,app::noisy=off")) (lit "app") LError (lit "app::noisy::inner") = Ok false /\
  compiled_in simple_ident (Some (lit "trace,app::noisy=off")) (lit "app") LTrace (lit "app::noisyx") = Ok true /\
  compiled_in simple_ident (Some (lit "trace,noisy=off")) (lit "noisy") LError (lit "noisy::a") = Ok false.
Proof. repeat split; vm_compute; reflexivity. Qed.

(** The book's example of directives for modules. *)
Lemma modules_work :
  let log := Some (lit "app::important=info,app::noisy=error") in
  map (fun l => compiled_in simple_ident log (lit "app") l (lit "app::important")) [LDebug; LInfo; LWarn; LError]
    = [Ok false; Ok true; Ok true; Ok true] /\
  map (fun l => compiled_in simple_ident log (lit "app") l (lit "app::noisy::inner")) [LWarn; LError] = [Ok false; Ok true].
Proof. split; vm_compute; reflexivity. Qed.

(** A blank after the comma is accepted, and the directive then applies to nothing. *)
Lemma blank_ignored :
  compiled_in simple_ident (Some (lit "error,app::inner=trace")) (lit "app") LTrace (lit "app::inner") = Ok true /\
  compiled_in simple_ident (Some (lit "error, app::inner=trace")) (lit "app") LTrace (lit "app::inner") = Ok false.
Proof. split; vm_compute; reflexivity. Qed.

(** Unknown levels and misspelt paths stop the compilation. *)
Lemma bad_values :
  compiled_in simple_ident (Some (lit "app=verbose")) (lit "app") LError (lit "app") = Panic /\
  compiled_in simple_ident (Some (lit "app:inner")) (lit "app") LError (lit "app") = Panic /\
  compiled_in simple_ident (Some (lit "app::=info")) (lit "app") LError (lit "app") = Panic.
Proof. repeat split; vm_compute; reflexivity. Qed.
