(** C70: the macros accept what is written as documented, and read it that way. *)
From Verif Require Import Base SyntaxModel SyntaxSpec SyntaxProofs SyntaxExamples.

(** [info!], [println!], [timestamp!]: a string, and arguments separated by commas. *)
Theorem C70_log : forall syn, syn_ok syn -> forall ts l, parse_log syn ts = Some l <-> message syn ts l.
Proof. exact log_iff. Qed.
Theorem C70_panic : forall syn, syn_ok syn -> forall ts r,
  parse_panic syn ts = Some r <-> (ts = [] /\ r = None) \/ (exists l, r = Some l /\ message syn ts l).
Proof. exact panic_iff. Qed.
Theorem C70_write : forall syn, syn_ok syn -> forall ts f l,
  parse_write syn ts = Some (f, l) <-> exists m, ts = f ++ TComma :: m /\ expression syn f /\ message syn m l.
Proof. exact write_iff. Qed.
Theorem C70_assert : forall syn, syn_ok syn -> forall ts c o,
  parse_assert syn ts = Some (c, o) <-> exists rest, ts = c ++ rest /\ expression syn c /\ continued syn rest o.
Proof. exact assert_iff. Qed.
Theorem C70_comparison : forall syn, syn_ok syn -> forall ts l r o,
  parse_comparison syn ts = Some (l, r, o) <->
  exists rest, ts = l ++ TComma :: r ++ rest /\ expression syn l /\ expression syn r /\ continued syn rest o.
Proof. exact comparison_iff. Qed.
Theorem C70_dbg : forall syn, syn_ok syn -> forall ts l, parse_dbg syn ts = Some l <-> arguments syn ts l.
Proof. exact exprs_iff. Qed.
Theorem C70_intern : forall ts s, parse_intern ts = Some s <-> ts = [TLit s].
Proof. exact intern_iff. Qed.
Theorem C70_bitflags : forall syn, syn_ok syn -> forall ts r, parse_flags syn ts = Some r <-> flags_written syn ts r.
Proof. exact flags_iff. Qed.
(** The loops of the parsers end by themselves. *)
Theorem C70_total : forall syn, syn_ok syn -> forall ts,
  terminated (S (length ts)) (syn_expr syn) expect_comma ts <> None /\
  terminated (S (length ts)) (parse_flag syn) expect_semi ts <> None.
Proof. intros syn ok ts. exact (conj (exprs_total syn ok ts) (flag_list_total syn ok ts)). Qed.
Theorem C70_panic_handler : forall args f o,
  panic_handler args f = Ok o <->
  args = [] /\ handler_signature f /\
  (forall a, In a (f_attrs f) -> ~ named_attr (lit "export_name") a /\ ~ named_attr (lit "no_mangle") a) /\
  o = {| o_attrs := f_attrs f; o_export := lit "_defmt_panic"; o_vis := []; o_name := f_name f; o_body := f_body f |}.
Proof. exact panic_handler_iff. Qed.
Theorem C70_global_logger : forall args s o,
  global_logger args s = Ok o <->
  args = [] /\ unit_struct s /\ l_struct o = s /\
  l_functions o = map (fun n => (lit "_defmt_" ++ n, n)) [lit "acquire"; lit "flush"; lit "release"; lit "write"].
Proof. exact global_logger_iff. Qed.

(** The visibility of the handler is lost. *)
Theorem C70_visibility_refuted : exists f out, panic_handler [] f = Ok out /\ f_vis f <> [] /\ o_vis out = [].
Proof. exists (handler [] [w "pub"]). eexists. repeat split; discriminate. Qed.
(** The conflict with [no_mangle] is not seen when it is written [#[unsafe(no_mangle)]]. *)
Theorem C70_conflict_refuted : exists f out,
  panic_handler [] f = Ok out /\ In [w "unsafe"; TGroup Paren [w "no_mangle"]] (f_attrs f).
Proof. exists (handler [[w "unsafe"; TGroup Paren [w "no_mangle"]]] []). eexists. split; [reflexivity | left; reflexivity]. Qed.

Print Assumptions C70_log.
Print Assumptions C70_panic.
Print Assumptions C70_write.
Print Assumptions C70_assert.
Print Assumptions C70_comparison.
Print Assumptions C70_dbg.
Print Assumptions C70_intern.
Print Assumptions C70_bitflags.
Print Assumptions C70_total.
Print Assumptions C70_panic_handler.
Print Assumptions C70_global_logger.
Print Assumptions C70_visibility_refuted.
Print Assumptions C70_conflict_refuted.

(** The assumptions about [syn] can be met. *)
Example C70_syn : syn_ok simple_syn.
Proof. exact simple_ok. Qed.
(** Commas inside parentheses do not separate; a last comma is allowed. *)
Example C70_ex_comparison : parse_comparison simple_syn in_assert =
  Some ([w "f"; TGroup Paren [w "a"; TComma; w "b"]], [w "c"; o "+"; o "1"], Some (lit "x = {}", Some [[w "x"]])).
Proof. vm_compute. reflexivity. Qed.
Example C70_ex_flags : option_map (fun i => map (fun f => (fl_name f, length (fl_cfgs f))) (fi_flags i)) (parse_flags simple_syn in_flags)
  = Some [(lit "A", 0%nat); (lit "B", 1%nat)].
Proof. vm_compute. reflexivity. Qed.
(** [assert!()] has no condition, [info!(x)] has no string, [info!("a" b)] no comma, [dbg!(a,,b)] one comma too many. *)
Example C70_ex_bad : parse_assert simple_syn [] = None /\ parse_log simple_syn [w "x"] = None /\
  parse_log simple_syn [TLit (lit "a"); w "b"] = None /\ parse_dbg simple_syn [w "a"; TComma; TComma; w "b"] = None.
Proof. vm_compute. auto. Qed.
Example C70_ex_panic : parse_panic simple_syn [] = Some None /\ parse_log simple_syn [] = None.
Proof. vm_compute. auto. Qed.
Example C70_ex_handler : (exists out, panic_handler [] (handler [[w "inline"]] []) = Ok out) /\
  panic_handler [] (handler [[w "inline"]; [w "no_mangle"]] []) = Err (EConflict (lit "no_mangle")).
Proof. vm_compute. eauto. Qed.
