From Verif Require Import Base Utf8 ParserModel DecoderModel Numerals DisplayModel SymbolModel SymbolProofs JsonSpec JsonScalars JsonValues JsonProofs.
From Coq Require Import Permutation.

Theorem demangle_error_iff : forall raw, demangle raw = Err tt <-> forall y, ~ symbol_text y raw.
Proof.
  intros raw. split.
  - intros E y Y. apply demangle_iff in Y. congruence.
  - intros N. destruct (demangle_total raw) as [(y & Y)|E]; [|exact E]. apply demangle_iff in Y. now elim (N y).
Qed.

Theorem symbol_text_one : forall raw y z, symbol_text y raw -> symbol_text z raw -> y = z.
Proof. intros raw y z Y Z. apply demangle_iff in Y, Z. congruence. Qed.

Lemma split_perm : forall (ms : list (bytes * content)) k c c',
  (exists a b d, ms = a ++ (k, c) :: b ++ (k, c') :: d) -> exists l, Permutation ms ((k, c) :: (k, c') :: l).
Proof.
  intros ms k c c' (a & b & d & ->). exists (a ++ b ++ d). rewrite <- Permutation_middle. apply perm_skip.
  rewrite app_assoc, <- Permutation_middle, app_assoc. reflexivity.
Qed.

Lemma perm_split : forall l (ms : list (bytes * content)) k c c', Permutation ms ((k, c) :: (k, c') :: l) ->
  exists a b d x y, ms = a ++ (k, x) :: b ++ (k, y) :: d.
Proof.
  intros l ms k c c' P.
  assert (I1 : In (k, c) ms) by (apply (Permutation_in _ (Permutation_sym P)); now left).
  apply in_split in I1 as (a & b & ->). apply Permutation_sym in P. apply Permutation_cons_app_inv in P.
  assert (I2 : In (k, c') (a ++ b)) by (apply (Permutation_in _ P); now left). apply in_app_or in I2 as [I2|I2]; apply in_split in I2 as (u & v & ->).
  - exists u, v, b, c', c. now rewrite <- app_assoc.
  - exists a, u, v, c, c'. reflexivity.
Qed.

Lemma fields_of_perm : forall ms ms' y, Permutation ms ms' -> fields_of ms y -> fields_of ms' y.
Proof.
  intros ms ms' y P (N & A & B & C & D & E). assert (I' : forall x, In x ms -> In x ms') by (intros x; now apply Permutation_in). split.
  - intros a k c b c' d K Eq. destruct (split_perm ms' k c c') as (l & L); [eauto|].
    destruct (perm_split l ms k c c' (Permutation_trans P L)) as (a' & b' & d' & x & z & Em). now apply (N a' k x b' z d' K).
  - split; [now apply I'|]. split; [now apply I'|]. split; [now apply I'|]. split; [now apply I'|]. destruct (d_crate y); [now apply I'|].
    destruct E as [E|E]; [left; now apply I'|]. right. intros c J. apply (E c). now apply (Permutation_in _ (Permutation_sym P)).
Qed.

Theorem demangle_order : forall ms ms' t w w' y, fields_of ms y -> Permutation ms ms' -> object_text ms' t -> blank w -> blank w' -> demangle (w ++ t ++ w') = Ok y.
Proof.
  intros ms ms' t w w' y F P O W W'. apply demangle_iff. apply (Sy_object y ms' t w w'); auto. now apply (fields_of_perm ms).
Qed.

Theorem mangle_text : forall y, symbol_ok y ->
  symbol_text (MkDSymbol (s_package y) (dec_str (s_disambiguator y)) (s_tag y) (s_data y) (Some (s_crate y))) (mangle y).
Proof. intros y V. apply demangle_iff. now apply demangle_mangle. Qed.

Theorem ignored_iff : forall s, ignore_value (S (length s)) [] s = Ok [] <-> exists w v, s = w ++ v /\ blank w /\ value v.
Proof.
  intros s. split.
  - intros H. apply value_only in H as (w & v & -> & W & V). exists w, v. now rewrite app_nil_r.
  - intros (w & v & -> & W & V). rewrite <- (app_nil_r v) at 2. apply value_skipped; [exact V|exact W|exact Logic.I|]. rewrite app_nil_r. lia.
Qed.

Definition spread : bytes :=
  [10; 9; 123; 13] ++ lit """new"" : [ {}, {""a"":-1.5E+3,""b"":""\ud800""},[ ] ]" ++ [9; 44; 10] ++
  lit """data"":""\u004A\uD83d\uDE00\t"",""tag"":""defmt_info"",""package"" :""p"", ""disambiguator"":""7"" , ""crate_name"":null}" ++ [10].

Lemma spread_read : demangle spread = Ok (MkDSymbol (lit "p") (lit "7") (lit "defmt_info") (lit "J" ++ utf8_encode 128512 ++ [9]) None).
Proof. vm_compute. reflexivity. Qed.

Lemma spread_text : symbol_text (MkDSymbol (lit "p") (lit "7") (lit "defmt_info") (lit "J" ++ utf8_encode 128512 ++ [9]) None) spread.
Proof. apply demangle_iff, spread_read. Qed.

Definition not_symbols : list bytes :=
  [lit "{""data"":""\ud800"",""tag"":""t"",""disambiguator"":""1"",""package"":""p""}";
   lit "{""data"":""x"",""tag"":""t"",""tag"":""t"",""disambiguator"":""1"",""package"":""p""}";
   lit "{""data"":""x"",""tag"":""t"",""disambiguator"":1,""package"":""p""}";
   lit "{""data"":""x"",""tag"":""t"",""disambiguator"":""1"",""package"":""p"",}";
   lit "{""data"":""x"",""tag"":""t"",""disambiguator"":""1"",""package"":""p"",""new"":01}";
   lit "{""data"":""x"",""tag"":""t"",""disambiguator"":""1""}";
   lit "{""data"":""x"",""tag"":""t"",""disambiguator"":""1"",""package"":""p""} x";
   lit "[""p"",""1"",""t"",""x""]"].

Lemma not_symbols_none : Forall (fun raw => demangle raw = Err tt /\ forall y, ~ symbol_text y raw) not_symbols.
Proof.
  assert (E : Forall (fun raw => demangle raw = Err tt) not_symbols) by (repeat constructor; vm_compute; reflexivity).
  eapply Forall_impl; [|exact E]. intros raw R. split; [exact R|now apply demangle_error_iff].
Qed.
