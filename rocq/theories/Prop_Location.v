(** Property C54: the locations of log statements. *)
From Verif Require Import Base Utf8 DecoderModel EnvFilterModel LogFormatModel LocationModel LocationSpec LocationProofs
  LocationMain LocationExamples LocationAny.

(** C54.  With orderly debug information every log statement in the program has its file, its line and the
    namespaces around it as its location, under its address, and nothing else has a location. *)
Theorem C54_located : forall symbols us m, Forall (tidy_unit symbols) us -> get_locations symbols us = Ok m ->
  all_located symbols (unit_trees us) m.
Proof. exact locations_exact. Qed.
Print Assumptions C54_located.

Example C54_located_ex : tidy_unit ex_symbols ex_unit /\
  get_locations ex_symbols [ex_unit] = Ok
  [(7, MkLocation (lit "/home/me/.cargo/dep/lib.rs") 70 (lit "dep::f"));
   (4, MkLocation (lit "/home/me/app/src/bin/main.rs") 14 (lit "app::main::{closure#0}"));
   (3, MkLocation (lit "/home/me/app/src/bin/main.rs") 12 (lit "app::main"))].
Proof. exact (conj ex_tidy ex_locations). Qed.

(** Without that order a statement can be said to be in a namespace that it is not in: here one of [main]
    that follows a closure of [main]. *)
Theorem C54_module_refuted : exists us symbols m u ts path v l,
  get_locations symbols us = Ok m /\ In (u, ts) (unit_trees us) /\ inside ts path v /\ statement symbols v /\
  has_address v 5 /\ loc_get 5 m = Some l /\ path = [lit "app"; lit "main"] /\ l_module l = lit "app::main::{closure#0}".
Proof. exact late_misplaced. Qed.
Print Assumptions C54_module_refuted.

(** In any order, as long as namespaces are only in namespaces: file, line and address are those of the statement, and the module
    is the namespace entered last before it. *)
Theorem C54_any_order : forall symbols us m, Forall nested_unit us -> get_locations symbols us = Ok m ->
  last_located symbols (unit_trees us) m.
Proof. exact locations_any. Qed.
Print Assumptions C54_any_order.

Example C54_any_order_ex : nested_unit late_unit /\
  exists m l v, get_locations ex_symbols [late_unit] = Ok m /\ loc_get 5 m = Some l /\ l_line l = 16 /\ l_module l = lit "app::main::{closure#0}" /\
    follows [ex_ns "app" [ex_ns "main" [ex_var "s1" 1 12 3; ex_ns "{closure#0}" [ex_var "s2" 1 14 4]; ex_var "s3" 1 16 5]]]
      [lit "app"; lit "main"; lit "{closure#0}"] v /\ has_address v 5.
Proof.
  split.
  - intros t E. injection E as <-. cbn [children]. constructor; [|constructor].
    constructor. constructor; [|constructor]. constructor.
    assert (V : forall k f l a, nested_only (ex_var k f l a)) by (intros; apply O_other; [reflexivity|constructor]).
    constructor; [apply V|]. constructor; [constructor; constructor; [apply V|constructor]|]. constructor; [apply V|constructor].
  - eexists. eexists. exists (MkVar (Some statement_name) (Some (lit "s3")) (Some 1) (Some 16) (Some [None; Some 5])). split; [vm_compute; reflexivity|]. split; [vm_compute; reflexivity|]. split; [reflexivity|]. split; [reflexivity|].
    split; [|exists 1%nat, []; reflexivity]. exists (firstn 5 (flat_map (reading []) [ex_ns "app" [ex_ns "main" [ex_var "s1" 1 12 3; ex_ns "{closure#0}" [ex_var "s2" 1 14 4]; ex_var "s3" 1 16 5]]])), [].
    split; [reflexivity|]. right. eexists (firstn 3 (flat_map (reading []) [ex_ns "app" [ex_ns "main" [ex_var "s1" 1 12 3; ex_ns "{closure#0}" [ex_var "s2" 1 14 4]; ex_var "s3" 1 16 5]]])), _.
    split; [reflexivity|]. intros p [J|[]]. discriminate.
Qed.

(** Reading them succeeds if texts are UTF-8 and the statements have files and different addresses; otherwise it is
    an error, never a panic. *)
Theorem C54_succeeds : forall symbols us, Forall (readable symbols) us -> distinct_addresses symbols (unit_variables us) ->
  exists m, get_locations symbols us = Ok m.
Proof. exact locations_succeed. Qed.
Print Assumptions C54_succeeds.

Theorem C54_no_panic : forall symbols us, (exists m, get_locations symbols us = Ok m) \/ get_locations symbols us = Err tt.
Proof. exact locations_no_panic. Qed.
Print Assumptions C54_no_panic.

Example C54_collision_ex : get_locations ex_symbols [MkUnit None (Some ex_files) (Some (ex_root [ex_var "s1" 1 12 3; ex_var "s2" 1 14 3]))] = Err tt.
Proof. exact ex_collision. Qed.

(** A frame is shown with the location of the statement at its index, the file as seen from the current directory. *)
Theorem C54_frame : forall symbols trees m f dir u ts path v line,
  all_located symbols trees m -> In (u, ts) trees -> inside ts path v -> statement symbols v ->
  has_address v (f_index f) -> v_line v = Some line -> 0 <= line < 4294967296 ->
  exists i file shown, location_info (Some m) f dir = (Some shown, Some line, Some (join (lit "::") path)) /\
    v_file v = Some i /\ source_file u i file /\ seen_from dir file shown.
Proof. exact frame_location. Qed.
Print Assumptions C54_frame.

Example C54_relative_ex : path_strip_prefix (lit "/home/me/app") (lit "/home/./me//app/src//bin/../main.rs/.") = Some (lit "src//bin/../main.rs") /\
  path_strip_prefix (lit "/home/me/app") (lit "/home/me/apple/x.rs") = None.
Proof. exact (conj ex_relative ex_outside). Qed.

(** Locations are shown with all log statements of the table or with none. *)
Theorem C54_all_or_none : forall t m dir,
  match usable_locations t m with
  | Some m' => m' = m /\ forall f, In (f_index f) (indices t) ->
      exists p line mo, location_info (usable_locations t m) f dir = (Some p, Some line, Some mo)
  | None => (exists i, In i (indices t) /\ loc_get i m = None) /\ forall f, location_info (usable_locations t m) f dir = (None, None, None)
  end.
Proof. exact all_or_none. Qed.
Print Assumptions C54_all_or_none.
