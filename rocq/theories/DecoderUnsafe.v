(** The tables for which [Table::decode] can panic, exactly (C12). *)
From Verif Require Import Base Utf8 RzcobsModel ParserModel ParserProofs DecoderModel DecoderProofs
  PrepareProofs DecoderPanic.

(** The bytes [tb] are a timestamp of the table, read by themselves. *)
Definition stamp (t : table) (tb : bytes) : Prop :=
  match t_timestamp t with
  | None => tb = []
  | Some e => exists args, forall fuel rest, decode_format t (S fuel) (e_string e) (tb ++ rest) = Ok (args, rest)
  end.

(** An entry that makes the parser panic: as a whole, or, when it is not a log
    message, in one of the alternatives between ['|']. *)
Definition harmful (t : table) (i : Z) : Prop :=
  exists e, lookup_entry i (t_entries t) = Some e /\
    (parse (e_string e) ForwardsCompatible = Panic \/
     tag_level (e_tag e) = None /\
     exists v, In v (split_on 124 (e_string e)) /\ parse v ForwardsCompatible = Panic).

(** An entry whose first argument is a value of a [Format] type. *)
Definition carries_value (t : table) (k : Z) : Prop :=
  exists e fs p ps, lookup_entry k (t_entries t) = Some e /\
    parse (e_string e) ForwardsCompatible = Ok fs /\ prepare_params (params_of fs) = p :: ps /\ p_ty p = TFormat.

Definition indices_u16 (t : table) : Prop :=
  forall i e, lookup_entry i (t_entries t) = Some e -> 0 <= i < 65536.
Definition strings_fit (t : table) : Prop :=
  forall i e, lookup_entry i (t_entries t) = Some e -> Z.of_nat (length (e_string e)) < 2 ^ 64.

Lemma read_u_le : forall n x rest, 0 <= x < 256 ^ Z.of_nat n -> read_u n (le_bytes n x ++ rest) = Ok (x, rest).
Proof.
  intros n x rest H. unfold read_u, rbind, read_bytes. rewrite app_length, le_bytes_length.
  replace (Z.of_nat n <=? Z.of_nat (n + length rest)) with true by (symmetry; apply Z.leb_le; lia).
  rewrite Nat2Z.id, firstn_app, skipn_app, le_bytes_length, Nat.sub_diag, firstn_O, skipn_O, app_nil_r.
  rewrite firstn_all2 by (rewrite le_bytes_length; lia). rewrite (skipn_all2 (le_bytes n x)) by (rewrite le_bytes_length; lia).
  unfold bind, ret. cbn [fst snd]. now rewrite (le_value_bytes n x H).
Qed.

Lemma rbind_ok : forall A B (m : reader A) (f : A -> reader B) b a r, m b = Ok (a, r) -> rbind m f b = f a r.
Proof. intros A B m f b a r H. unfold rbind. rewrite H. reflexivity. Qed.
Lemma rbind_panic : forall A B (m : reader A) (f : A -> reader B) b, m b = Panic -> rbind m f b = Panic.
Proof. intros A B m f b H. unfold rbind. rewrite H. reflexivity. Qed.

Lemma stamp_reads : forall t tb fuel rest, stamp t tb -> exists ts,
  match t_timestamp t with
  | Some e => rbind (decode_format t (S fuel) (e_string e)) (fun a => ret (Some (e_string e), a))
  | None => ret (None, [])
  end (tb ++ rest) = Ok (ts, rest).
Proof.
  intros t tb fuel rest H. unfold stamp in H. destruct (t_timestamp t) as [e|].
  - destruct H as (args & H). eexists. erewrite rbind_ok by apply H. reflexivity.
  - subst tb. eexists. reflexivity.
Qed.

Lemma decode_head : forall t k e tb rest, stamp t tb -> 0 <= k < 65536 -> lookup_entry k (t_entries t) = Some e ->
  exists fuel, decode_format t (S (S fuel)) (e_string e) rest = Panic -> decode t (le_bytes 2 k ++ tb ++ rest) = Panic.
Proof.
  intros t k e tb rest T K L. exists (length (tb ++ rest) + 1)%nat. intros P. unfold decode.
  assert (E : S (length (le_bytes 2 k ++ tb ++ rest)) = S (S (length (tb ++ rest) + 1)))
    by (rewrite app_length, le_bytes_length; lia).
  rewrite E. unfold decode_fuel. erewrite rbind_ok by (apply read_u_le; exact K). cbv beta.
  destruct (stamp_reads t tb (S (length (tb ++ rest) + 1)) rest T) as (ts & R).
  erewrite rbind_ok by exact R. unfold get_with_level. rewrite L.
  erewrite rbind_ok by reflexivity. cbn [snd]. now rewrite rbind_panic.
Qed.

Lemma format_panic : forall t fuel s b, parse s ForwardsCompatible = Panic -> decode_format t (S fuel) s b = Panic.
Proof. intros t fuel s b H. cbn [decode_format]. now rewrite H. Qed.

Lemma split_bars : forall s, length (split_on 124 s) = S (length (filter (fun c => c =? 124) s)).
Proof.
  induction s as [|c s IH]; [reflexivity|]. cbn [split_on filter]. destruct (c =? 124); cbn [length]; [now rewrite IH|].
  destruct (split_on 124 s) as [|x l]; [discriminate|]. cbn [length] in *. exact IH.
Qed.

Lemma split_no_bar : forall s, has_bar s = false -> split_on 124 s = [s].
Proof.
  induction s as [|c s IH]; intros H; [reflexivity|]. cbn [has_bar existsb] in H. apply orb_false_iff in H as [H1 H2].
  cbn [split_on]. rewrite H1, (IH H2). reflexivity.
Qed.

(** Every alternative of a string of at most [2^64] bytes has its number. *)
Lemma variant_reached : forall s v, has_bar s = true -> Z.of_nat (length s) < 2 ^ 64 -> In v (split_on 124 s) ->
  exists db, forall rest, get_variant s (db ++ rest) = Ok (v, rest).
Proof.
  intros s v H L I. apply In_nth_error in I as (d & N).
  assert (D : (d < length (split_on 124 s))%nat) by (apply nth_error_Some; congruence).
  assert (B : (length (filter (fun c => (c =? 124)%Z) s) <= length s)%nat)
    by (clear; induction s as [|c s IH]; cbn [filter length]; [lia|]; destruct (c =? 124)%Z; cbn [length]; lia).
  unfold get_variant. rewrite H. cbn [negb]. pose proof D as D'. rewrite split_bars in D'.
  assert (W : exists n, discriminant_width (Z.of_nat (length (filter (fun c => c =? 124) s))) = Some n /\
    Z.of_nat (length (filter (fun c => c =? 124) s)) < 256 ^ Z.of_nat n).
  { set (k := Z.of_nat (length (filter (fun c => c =? 124) s))) in *. assert (K : k < 2 ^ 64) by lia. unfold discriminant_width.
    destruct (k <? 2 ^ 8) eqn:E1; [exists 1%nat; split; [reflexivity|apply Z.ltb_lt in E1; exact E1]|].
    destruct (k <? 2 ^ 16) eqn:E2; [exists 2%nat; split; [reflexivity|apply Z.ltb_lt in E2; exact E2]|].
    destruct (k <? 2 ^ 32) eqn:E3; [exists 4%nat; split; [reflexivity|apply Z.ltb_lt in E3; exact E3]|].
    apply Z.ltb_lt in K. rewrite K. exists 8%nat; split; [reflexivity|apply Z.ltb_lt in K; exact K]. }
  destruct W as (n & W1 & W2). rewrite W1. exists (le_bytes n (Z.of_nat d)). intros rest.
  erewrite rbind_ok by (apply read_u_le; lia). unfold nth_variant.
  replace (Z.of_nat d <? Z.of_nat (length (split_on 124 s))) with true by (symmetry; apply Z.ltb_lt; lia).
  rewrite Nat2Z.id, N. reflexivity.
Qed.

Lemma nested_panics : forall t i, strings_fit t -> 0 <= i < 65536 -> harmful t i ->
  (exists e, lookup_entry i (t_entries t) = Some e /\ parse (e_string e) ForwardsCompatible = Panic) \/
  exists b, forall fuel n rest, decode_ty t (decode_format t (S fuel)) n TFormat (b ++ rest) = Panic.
Proof.
  intros t i F I (e & L & [P|(G & v & J & P)]); [left; eauto|]. right.
  assert (W : get_without_level t i = Some (e_string e)) by (unfold get_without_level, get_with_level; rewrite L, G; reflexivity).
  destruct (has_bar (e_string e)) eqn:B.
  - destruct (variant_reached _ _ B (F _ _ L) J) as (db & R). exists (le_bytes 2 i ++ db). intros fuel n rest.
    rewrite <- app_assoc. cbn [decode_ty]. unfold get_format.
    erewrite rbind_ok; [|erewrite rbind_ok by (apply read_u_le; exact I); rewrite W; reflexivity]. rewrite B.
    erewrite rbind_ok by apply R. apply rbind_panic, format_panic, P.
  - rewrite (split_no_bar _ B) in J. destruct J as [<-|[]]. exists (le_bytes 2 i). intros fuel n rest.
    cbn [decode_ty]. unfold get_format.
    erewrite rbind_ok; [|erewrite rbind_ok by (apply read_u_le; exact I); rewrite W; reflexivity]. rewrite B.
    erewrite rbind_ok by reflexivity. apply rbind_panic, format_panic, P.
Qed.

Theorem harmful_panics : forall t i k tb, indices_u16 t -> strings_fit t -> stamp t tb -> carries_value t k ->
  harmful t i -> exists b, decode t b = Panic.
Proof.
  intros t i k tb U F T (e & fs & p & ps & L & P & R & Y) H.
  assert (I : 0 <= i < 65536) by (destruct H as (e' & L' & _); exact (U _ _ L')).
  destruct (nested_panics t i F I H) as [(e' & L' & P')|(b & B)].
  - exists (le_bytes 2 i ++ tb ++ []). destruct (decode_head t i e' tb [] T I L') as (fuel & D). apply D, format_panic, P'.
  - exists (le_bytes 2 k ++ tb ++ b). destruct (decode_head t k e tb b T (U _ _ L) L) as (fuel & D). apply D.
    cbn [decode_format]. rewrite P, R. cbn [decode_params]. rewrite Y. apply rbind_panic.
    specialize (B fuel (S (S fuel)) []). rewrite app_nil_r in B. exact B.
Qed.

Lemma parse_panic_dec : forall s, parse s ForwardsCompatible = Panic \/ parse s ForwardsCompatible <> Panic.
Proof. intros s. destruct (parse s ForwardsCompatible); (left; reflexivity) || (right; discriminate). Qed.

Lemma variants_dec : forall l, (exists v, In v l /\ parse v ForwardsCompatible = Panic) \/
  (forall v, In v l -> parse_safe v).
Proof.
  induction l as [|s l IH]; [right; intros v []|].
  destruct (parse_panic_dec s) as [P|P]; [left; exists s; split; [now left|exact P]|].
  destruct IH as [(v & J & Q)|IH]; [left; exists v; split; [now right|exact Q]|].
  right. intros v [<-|J]; [exact P|now apply IH].
Qed.

Definition bad_entry (e : entry) : Prop :=
  parse (e_string e) ForwardsCompatible = Panic \/
  tag_level (e_tag e) = None /\ exists v, In v (split_on 124 (e_string e)) /\ parse v ForwardsCompatible = Panic.

Lemma bad_entry_dec : forall e, bad_entry e \/ ~ bad_entry e.
Proof.
  intros e. unfold bad_entry. destruct (parse_panic_dec (e_string e)) as [P|P]; [now left; left|].
  destruct (variants_dec (split_on 124 (e_string e))) as [V|V].
  - destruct (tag_level (e_tag e)) eqn:G; [|left; right; auto]. right. intros [Q|[Q _]]; congruence.
  - right. intros [Q|[_ (v & J & Q)]]; [congruence|exact (V v J Q)].
Qed.

Lemma lookup_in : forall i es e, lookup_entry i es = Some e -> In i (map fst es).
Proof.
  intros i es e. induction es as [|[j x] es IH]; cbn [lookup_entry map fst]; [discriminate|].
  destruct (i =? j) eqn:E; intros H; [left; symmetry; now apply Z.eqb_eq|right; now apply IH].
Qed.

Lemma harmful_dec : forall t, (exists i, harmful t i) \/ (forall i, ~ harmful t i).
Proof.
  intros t. assert (D : forall l, (exists i, In i l /\ harmful t i) \/ (forall i, In i l -> ~ harmful t i)).
  { induction l as [|i l IH]; [right; intros i []|].
    assert (E : harmful t i \/ ~ harmful t i).
    { unfold harmful. destruct (lookup_entry i (t_entries t)) as [e|]; [|right; intros (e & ? & _); discriminate].
      destruct (bad_entry_dec e) as [B|B]; [left; exists e; split; [reflexivity|exact B]|].
      right. intros (e' & Q & B'). inversion Q; subst e'. exact (B B'). }
    destruct E as [E|E]; [left; exists i; split; [now left|exact E]|].
    destruct IH as [(j & J & H)|IH]; [left; exists j; split; [now right|exact H]|].
    right. intros j [<-|J]; [exact E|now apply IH]. }
  destruct (D (map fst (t_entries t))) as [(i & _ & H)|H]; [left; now exists i|]. right. intros i J.
  apply (H i); [|exact J]. destruct J as (e & L & _). exact (lookup_in _ _ _ L).
Qed.

Lemma harmless_safe : forall t tb, stamp t tb -> (forall i, ~ harmful t i) -> table_safe t.
Proof.
  intros t tb T H. split; [|split].
  - intros e E. unfold stamp in T. rewrite E in T. destruct T as (args & T). specialize (T O []). intros P.
    rewrite (format_panic t O (e_string e) _ P) in T. discriminate.
  - intros i e L P. apply (H i). exists e. auto.
  - intros i e v L G J P. apply (H i). exists e. split; [exact L|]. right. split; [exact G|]. now exists v.
Qed.

Theorem decode_panics_iff : forall t k tb, indices_u16 t -> strings_fit t -> stamp t tb -> carries_value t k ->
  ((exists b, decode t b = Panic) <-> exists i, harmful t i).
Proof.
  intros t k tb U F T C. split.
  - intros (b & P). destruct (harmful_dec t) as [H|H]; [exact H|]. exfalso.
    destruct (decode_total t b (harmless_safe t tb T H)) as [(f & n & E)|[E|E]]; congruence.
  - intros (i & H). exact (harmful_panics t i k tb U F T C H).
Qed.

(** A table without values of [Format] types in its messages: whatever entry of
    it the parser cannot take as a whole makes the decoder panic. *)
Theorem whole_panics : forall t i e tb, stamp t tb -> 0 <= i < 65536 -> lookup_entry i (t_entries t) = Some e ->
  parse (e_string e) ForwardsCompatible = Panic -> forall rest, decode t (le_bytes 2 i ++ tb ++ rest) = Panic.
Proof.
  intros t i e tb T I L P rest. destruct (decode_head t i e tb rest T I L) as (fuel & D). apply D, format_panic, P.
Qed.

Lemma indices_logs : forall t i e, NoDup (map fst (t_entries t)) -> lookup_entry i (t_entries t) = Some e ->
  (In i (indices t) <-> is_log_tag (e_tag e) = true).
Proof.
  intros t i e N L. unfold indices. rewrite in_map_iff. split.
  - intros ([j e'] & E & I). cbn [fst] in E. subst j. apply filter_In in I as [I G]. cbn [snd] in G.
    assert (Q : e' = e); [|congruence]. clear G. revert N L I. generalize (t_entries t). intros es.
    induction es as [|[j x] es IH]; [contradiction|]. cbn [map fst lookup_entry]. intros N L [I|I]; inversion N as [|? ? NI N']; subst.
    + inversion I; subst. rewrite Z.eqb_refl in L. congruence.
    + destruct (i =? j) eqn:E; [|exact (IH N' L I)]. apply Z.eqb_eq in E. subst j. exfalso. apply NI.
      apply in_map_iff. exists (i, e'). auto.
  - intros G. exists (i, e). split; [reflexivity|]. apply filter_In. split; [|exact G].
    clear G N. revert L. generalize (t_entries t). intros es. induction es as [|[j x] es IH]; [discriminate|].
    cbn [lookup_entry]. destruct (i =? j) eqn:E; intros L; [apply Z.eqb_eq in E; inversion L; subst; now left|right; exact (IH L)].
Qed.

(** Whatever an entry of the table is for, its index begins a message if its
    arguments follow. *)
Theorem any_entry : forall t i e tb ab args rest, stamp t tb -> 0 <= i < 65536 -> lookup_entry i (t_entries t) = Some e ->
  decode_format t (S (length (le_bytes 2 i ++ tb ++ ab ++ rest))) (e_string e) (ab ++ rest) = Ok (args, rest) ->
  exists fr, decode t (le_bytes 2 i ++ tb ++ ab ++ rest) = Ok (fr, (2 + length tb + length ab)%nat) /\
    f_index fr = i /\ f_level fr = tag_level (e_tag e) /\ f_format fr = e_string e /\ f_args fr = args.
Proof.
  intros t i e tb ab args rest T K L D. unfold decode, decode_fuel.
  erewrite rbind_ok by (apply read_u_le; exact K). cbv beta.
  destruct (stamp_reads t tb (length (le_bytes 2 i ++ tb ++ ab ++ rest)) (ab ++ rest) T) as (ts & R).
  erewrite rbind_ok by exact R. unfold get_with_level. rewrite L.
  erewrite rbind_ok by reflexivity. cbn [snd fst]. erewrite rbind_ok by exact D.
  unfold ret. eexists. split; [f_equal; f_equal; rewrite !app_length, le_bytes_length; lia|]. repeat split; reflexivity.
Qed.

(** A table with a timestamp whose interned string is no format string. *)
Definition stamped : table := MkTable (Some (MkEntry GTimestamp (lit "{=u32:us}") []))
  [(1, MkEntry GInfo (lit "x={=?} y={=u8}") []); (2, MkEntry GDerived (lit "A|B({=u8})") []);
   (3, MkEntry GStr (lit "{=1}") [])] [] EncRzcobs.

Lemma stamped_ok : indices_u16 stamped /\ strings_fit stamped /\ stamp stamped [7; 0; 0; 0] /\ carries_value stamped 1 /\
  harmful stamped 3 /\ decode stamped [1; 0; 7; 0; 0; 0; 3; 0] = Panic /\ ~ harmful stamped 2.
Proof.
  assert (H : forall i e, lookup_entry i (t_entries stamped) = Some e -> 0 <= i < 65536 /\ Z.of_nat (length (e_string e)) < 2 ^ 64).
  { intros i e. cbn [stamped t_entries lookup_entry].
    destruct (i =? 1) eqn:E1; [apply Z.eqb_eq in E1; intros Q; inversion Q; subst; split; [lia|reflexivity]|].
    destruct (i =? 2) eqn:E2; [apply Z.eqb_eq in E2; intros Q; inversion Q; subst; split; [lia|reflexivity]|].
    destruct (i =? 3) eqn:E3; [apply Z.eqb_eq in E3; intros Q; inversion Q; subst; split; [lia|reflexivity]|discriminate]. }
  split; [intros i e L; exact (proj1 (H i e L))|]. split; [intros i e L; exact (proj2 (H i e L))|].
  split.
  { unfold stamp. cbn [stamped t_timestamp]. exists [AUxx 7]. intros fuel rest. cbn [decode_format e_string].
    assert (P : exists fs h, parse (lit "{=u32:us}") ForwardsCompatible = Ok fs /\ prepare_params (params_of fs) = [MkParameter 0 (TU W32) h])
      by (do 2 eexists; split; vm_compute; reflexivity).
    destruct P as (fs & h & P & R). rewrite P, R.
    cbn [decode_params decode_ty p_ty width_bytes]. erewrite rbind_ok; [|erewrite rbind_ok by (apply (read_u_le 4 7); lia); reflexivity].
    reflexivity. }
  split; [do 4 eexists; split; [reflexivity|]; split; [vm_compute; reflexivity|]; split; vm_compute; reflexivity|].
  split; [eexists; split; [reflexivity|]; left; vm_compute; reflexivity|]. split; [vm_compute; reflexivity|].
  intros (e & L & B). inversion L; subst e; clear L. cbn [e_string e_tag] in B. destruct B as [B|(_ & v & J & B)]; [vm_compute in B; discriminate|].
  vm_compute in J. destruct J as [<-|[<-|[]]]; vm_compute in B; discriminate.
Qed.
