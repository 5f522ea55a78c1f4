(** A parser for expressions without the grammar of expressions: all tokens up to the next
    comma or semicolon; and inputs. *)
From Verif Require Import Base SyntaxModel SyntaxSpec SyntaxProofs.

Fixpoint upto (p : tok -> bool) (ts : list tok) : list tok * list tok :=
  match ts with
  | [] => ([], [])
  | t :: ts' => if p t then let (e, r) := upto p ts' in (t :: e, r) else ([], ts)
  end.
Definition some_upto (p : tok -> bool) (ts : list tok) : option (list tok * list tok) :=
  match upto p ts with ([], _) => None | r => Some r end.

Lemma upto_app p ts e r : upto p ts = (e, r) -> ts = e ++ r /\ forallb p e = true.
Proof.
  revert e r. induction ts as [| t ts IH]; intros e r H; cbn [upto] in H.
  - injection H as <- <-. split; reflexivity.
  - destruct (p t) eqn:P; [| injection H as <- <-; split; reflexivity].
    destruct (upto p ts) as [e' r'] eqn:U. injection H as <- <-. destruct (IH _ _ eq_refl) as [-> F].
    split; [reflexivity |]. cbn [forallb]. rewrite P, F. reflexivity.
Qed.
Lemma upto_stops p e r : forallb p e = true -> (r = [] \/ exists t r', r = t :: r' /\ p t = false) -> upto p (e ++ r) = (e, r).
Proof.
  intros F S0. induction e as [| t e IH]; cbn [app upto].
  - destruct S0 as [-> | (t & r' & -> & P)]; [reflexivity |]. cbn [upto]. rewrite P. reflexivity.
  - cbn [forallb] in F. apply andb_prop in F. destruct F as [P F]. rewrite P, (IH F). reflexivity.
Qed.
Lemma some_upto_reads p ts e r : some_upto p ts = Some (e, r) -> ts = e ++ r /\ e <> [].
Proof.
  unfold some_upto. destruct (upto p ts) as [e' r'] eqn:U. destruct e' as [| t e']; [congruence |].
  intro H. injection H as <- <-. destruct (upto_app _ _ _ _ U) as [Q _]. split; [exact Q | congruence].
Qed.
Lemma some_upto_is p e r : (r = [] \/ exists t r', r = t :: r' /\ p t = false) ->
  some_upto p (e ++ r) = Some (e, r) <-> e <> [] /\ forallb p e = true.
Proof.
  intro S0. unfold some_upto. split.
  - destruct (upto p (e ++ r)) as [e' r'] eqn:U. destruct e' as [| t e']; [congruence |].
    intro H. injection H as <- <-. destruct (upto_app _ _ _ _ U) as [_ F]. split; [congruence | exact F].
  - intros [N F]. rewrite (upto_stops _ _ _ F S0). destruct e; [congruence | reflexivity].
Qed.

Definition in_expr (t : tok) : bool := match t with TComma | TSemi => false | _ => true end.
Definition in_type (t : tok) : bool := match t with TComma | TSemi | TGroup Brace _ => false | _ => true end.
Definition simple_syn : syn_parsers := {| syn_expr := some_upto in_expr; syn_type := some_upto in_type |}.

Lemma simple_ok : syn_ok simple_syn.
Proof.
  constructor; cbn [simple_syn syn_expr syn_type].
  - apply some_upto_reads.
  - intros e rest Er. rewrite some_upto_is.
    2: { destruct Er as [-> | [(r & ->) | (r & ->)]]; [left; reflexivity | right; eauto | right; eauto]. }
    assert (Q := some_upto_is in_expr e [] (or_introl eq_refl)). rewrite app_nil_r in Q. symmetry. exact Q.
  - apply some_upto_reads.
  - intros t body. rewrite some_upto_is by (right; eauto).
    assert (Q := some_upto_is in_type t [] (or_introl eq_refl)). rewrite app_nil_r in Q. symmetry. exact Q.
Qed.

Definition w (s : string) : tok := TWord (lit s).
Definition o (s : string) : tok := TOther (lit s).

(** [assert_eq!(f(a, b), c + 1, "x = {}", x,)] *)
Definition in_assert : list tok :=
  [w "f"; TGroup Paren [w "a"; TComma; w "b"]; TComma; w "c"; o "+"; o "1"; TComma; TLit (lit "x = {}"); TComma; w "x"; TComma].

(** [#[doc] pub(crate) struct Flags: u8 { const A = 1; #[cfg(x)] const B = 2; }] *)
Definition in_flags : list tok :=
  [TPound; TGroup Bracket [w "doc"]; w "pub"; TGroup Paren [w "crate"]; w "struct"; w "Flags"; TColon; w "u8";
   TGroup Brace [w "const"; w "A"; TEq; o "1"; TSemi;
                 TPound; TGroup Bracket [w "cfg"; TGroup Paren [w "x"]]; w "const"; w "B"; TEq; o "2"; TSemi]].

(** [pub fn halt() -> ! { .. }] under [#[defmt::panic_handler]]. *)
Definition handler (attrs : list (list tok)) (vis : list tok) : fn_item :=
  {| f_attrs := attrs; f_vis := vis; f_const := false; f_async := false; f_unsafe := false; f_abi := None; f_generics := [];
     f_where := []; f_variadic := false; f_inputs := []; f_never := true; f_name := lit "halt"; f_body := [w "loop"; TGroup Brace []] |}.
