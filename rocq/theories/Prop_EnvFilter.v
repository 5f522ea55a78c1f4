(** C32 and C33: the [DEFMT_LOG] filter.  [valid] says which strings are identifiers; all
    that is assumed of it is that identifiers are non-empty and contain no comma, colon
    or equals sign. *)
From Verif Require Import Base ParserModel EnvFilterModel EnvFilterSpec EnvFilterProofs EnvFilterMain EnvFilterExamples.

Definition ident_predicate (valid : bytes -> bool) : Prop :=
  forall s, valid s = true -> s <> [] /\ ~ In 44 s /\ ~ In 58 s /\ ~ In 61 s.

(** The most specific directive decides, for directives that do not make an inner
    module stricter than one around it (other than switching it off).  Missing: inner
    modules that are stricter, see [C32_most_specific_refuted]. *)
Theorem C32_most_specific_partial : forall valid, ident_predicate valid ->
  forall log caller ds l ms v,
  log_means valid log ds -> valid caller = true -> names_ok (caller :: ms) ->
  (forall l p v q w, assigned caller ds p v -> assigned caller ds q w -> covers p q -> covers q (caller :: ms) ->
     enables v l -> w <> None -> enables w l) ->
  effective ds (caller :: ms) v ->
  exists b, compiled_in valid log caller l (join_path (caller :: ms)) = Ok b /\ (b = true <-> enables v l).
Proof. exact most_specific. Qed.
Print Assumptions C32_most_specific_partial.

(** Without that condition: what the most specific directive enables is compiled in. *)
Theorem C32_enabled : forall valid, ident_predicate valid ->
  forall log caller ds l ms v,
  log_means valid log ds -> valid caller = true -> names_ok (caller :: ms) ->
  effective ds (caller :: ms) v -> enables v l ->
  compiled_in valid log caller l (join_path (caller :: ms)) = Ok true.
Proof. exact enabled_compiled. Qed.
Print Assumptions C32_enabled.

(** What it switches off is not. *)
Theorem C32_off : forall valid, ident_predicate valid ->
  forall log caller ds l ms,
  log_means valid log ds -> valid caller = true -> names_ok (caller :: ms) ->
  effective ds (caller :: ms) None ->
  compiled_in valid log caller l (join_path (caller :: ms)) = Ok false.
Proof. exact off_not_compiled. Qed.
Print Assumptions C32_off.

(** Every module has a most specific directive. *)
Theorem C32_defined : forall ds m, exists v, effective ds m v.
Proof. exact effective_exists. Qed.
Print Assumptions C32_defined.

(** The exact behaviour: some setting around the module enables the level, and no [off]
    lies further in. *)
Theorem C32_exact : forall valid, ident_predicate valid ->
  forall log caller ds l ms,
  log_means valid log ds -> valid caller = true -> names_ok (caller :: ms) ->
  exists b, compiled_in valid log caller l (join_path (caller :: ms)) = Ok b /\
    (b = true <-> exists p v, assigned caller ds p v /\ covers p (caller :: ms) /\ enables v l /\
       forall q, assigned caller ds q None -> covers q (caller :: ms) -> (length q < length p)%nat).
Proof. exact compiled_exact. Qed.
Print Assumptions C32_exact.

(** Values that are not lists of directives stop the compilation, and only those. *)
Theorem C32_rejects : forall valid, ident_predicate valid ->
  forall log caller l mp, valid caller = true ->
  compiled_in valid log caller l mp = Panic <-> forall ds, ~ log_means valid log ds.
Proof. exact rejects. Qed.
Print Assumptions C32_rejects.

(** The unrestricted statement is false: with the book's [trace,app::inner=error], trace
    statements in [app::inner] are compiled in. *)
Theorem C32_most_specific_refuted : exists valid log caller ds l ms v,
  ident_predicate valid /\ log_means valid log ds /\ valid caller = true /\ names_ok (caller :: ms) /\
  effective ds (caller :: ms) v /\ ~ enables v l /\
  compiled_in valid log caller l (join_path (caller :: ms)) = Ok true.
Proof.
  exists simple_ident, (Some book_override), (lit "app"), book_directives, LTrace, [lit "inner"], (Some LError).
  split; [exact simple_ident_ok|]. split; [exact book_text|]. split; [reflexivity|]. split; [exact names_app_inner|].
  exact override_ignored.
Qed.
Print Assumptions C32_most_specific_refuted.

(** The generated byte comparison holds exactly when the directive's module is the
    statement's module or one around it. *)
Theorem C33_whole_segments : forall p m, p <> [] -> names_ok p -> names_ok m ->
  is_inside_of (join_path p) (join_path m) = true <-> exists r, m = p ++ r.
Proof. exact inside_covers. Qed.
Print Assumptions C33_whole_segments.

(** Adding a directive for a module that is not around the statement's module never
    changes whether it is compiled in. *)
Theorem C33_other_modules : forall valid, ident_predicate valid ->
  forall log log' caller a b q lv l ms,
  log_means valid log (a ++ b) -> log_means valid log' (a ++ (Some q, lv) :: b) ->
  valid caller = true -> names_ok (caller :: ms) -> (~ exists r, caller :: ms = q ++ r) ->
  compiled_in valid log' caller l (join_path (caller :: ms)) =
  compiled_in valid log caller l (join_path (caller :: ms)).
Proof. exact other_modules. Qed.
Print Assumptions C33_other_modules.

Example C32_off_example :
  compiled_in simple_ident (Some (lit "trace,app::noisy=off")) (lit "app") LError (lit "app::noisy::inner") = Ok false.
Proof. vm_compute. reflexivity. Qed.
Example C32_modules_example :
  map (fun l => compiled_in simple_ident (Some (lit "app::important=info,app::noisy=error")) (lit "app") l (lit "app::important"))
    [LDebug; LInfo; LWarn; LError] = [Ok false; Ok true; Ok true; Ok true].
Proof. vm_compute. reflexivity. Qed.
Example C32_blank_example :
  compiled_in simple_ident (Some (lit "error, app::inner=trace")) (lit "app") LTrace (lit "app::inner") = Ok false.
Proof. vm_compute. reflexivity. Qed.
Example C33_example :
  is_inside_of (lit "a::b") (lit "a::bc") = false /\ is_inside_of (lit "a::b") (lit "a::b::c::d") = true.
Proof. split; vm_compute; reflexivity. Qed.
