From Verif Require Import Base Utf8 ParserModel DecoderModel Numerals DisplayModel SymbolModel SymbolProofs JsonSpec JsonScalars JsonValues.

(** [demangle] accepts exactly the JSON texts of a symbol. *)

Lemma beq_case : forall a b : bytes, (a = b /\ beq a b = true) \/ (a <> b /\ beq a b = false).
Proof.
  intros a b. destruct (beq a b) eqn:E; [left|right]; (split; [|reflexivity]).
  - now apply beq_true.
  - intros ->. now rewrite beq_refl in E.
Qed.

(* ------------------------------------------------------------------ *)
(** * Strings and options with white space before them *)

Lemma read_string_some : forall w v s r, blank w -> spelled v s -> read_string (w ++ 34 :: s ++ 34 :: r) = Ok (v, r).
Proof.
  intros w v s r W S. unfold read_string. rewrite skip_blank, skip_head by (exact W || reflexivity).
  change (expect [34] (34 :: ?x)) with (@Ok unit bytes x). cbn [bind]. now apply spelled_read.
Qed.

Lemma read_string_only : forall s v r, read_string s = Ok (v, r) -> exists w t, s = w ++ 34 :: t ++ 34 :: r /\ blank w /\ spelled v t.
Proof.
  intros s v r H. unfold read_string in H. destruct (expect [34] (skip_ws s)) as [a| | |] eqn:A; try discriminate. cbn [bind] in H.
  apply expect_ok in A. apply string_read_only in H as (t & -> & S). destruct (skip_split s) as (w & W & E). exists w, t.
  rewrite E, A. auto.
Qed.

Lemma read_option_some : forall w v s r, blank w -> spelled v s -> read_option (w ++ 34 :: s ++ 34 :: r) = Ok (Some v, r).
Proof.
  intros w v s r W S. unfold read_option. rewrite (read_string_some w v s r W S), skip_blank, skip_head by (exact W || reflexivity). reflexivity.
Qed.

Lemma read_option_null : forall w r, blank w -> read_option (w ++ lit "null" ++ r) = Ok (None, r).
Proof.
  intros w r W. unfold read_option. rewrite skip_blank by exact W. change (lit "null") with (110 :: lit "ull"). cbn [app].
  rewrite skip_head by reflexivity. change (110 =? 110) with true. cbn iota. change (117 :: 108 :: 108 :: r) with (lit "ull" ++ r). now rewrite expect_some.
Qed.

Lemma read_option_only : forall s v r, read_option s = Ok (v, r) ->
  (exists w t x, s = w ++ 34 :: t ++ 34 :: r /\ blank w /\ spelled x t /\ v = Some x) \/
  (exists w, s = w ++ lit "null" ++ r /\ blank w /\ v = None).
Proof.
  intros s v r H. unfold read_option in H. destruct (skip_split s) as (w & W & E). destruct (skip_ws s) as [|c t]; [discriminate|].
  destruct (Z.eqb_spec c 110) as [->|N].
  - right. destruct (expect (lit "ull") t) as [a| | |] eqn:A; try discriminate. cbn [bind] in H. injection H as <- <-. apply expect_ok in A. subst t.
    exists w. split; [exact E|auto].
  - left. destruct (read_string s) as [[x u]| | |] eqn:R; try discriminate. cbn [bind fst snd] in H. injection H as <- <-.
    apply read_string_only in R as (w' & t' & -> & W' & S). exists w', t', x. auto.
Qed.

(* ------------------------------------------------------------------ *)
(** * Fields *)

(** What has been read of a field. *)
Definition of_text (o : option bytes) : option content := match o with Some s => Some (CText s) | None => None end.
Definition get (k : bytes) (f : fields) : option content :=
  if beq k (lit "package") then of_text (f_package f)
  else if beq k (lit "disambiguator") then of_text (f_disambiguator f)
  else if beq k (lit "tag") then of_text (f_tag f)
  else if beq k (lit "data") then of_text (f_data f)
  else match f_crate f with Some (Some s) => Some (CText s) | Some None => Some CNull | None => None end.

(** The contents a known field can have. *)
Definition typed (k : bytes) (c : content) : Prop :=
  match c with CText _ => True | CNull => k = lit "crate_name" | COther => False end.

Inductive adds (f : fields) (k : bytes) : content -> fields -> Prop :=
| A_known c f' : In k known_fields -> typed k c -> get k f = None -> get k f' = Some c ->
    (forall k', In k' known_fields -> k' <> k -> get k' f' = get k' f) -> adds f k c f'
| A_other : ~ In k known_fields -> adds f k COther f.

Lemma known_cases : forall k, In k known_fields -> k = lit "package" \/ k = lit "disambiguator" \/ k = lit "tag" \/ k = lit "data" \/ k = lit "crate_name".
Proof. intros k H. cbn [known_fields In] in H. intuition. Qed.

Lemma fields_ext : forall f g, (forall k, In k known_fields -> get k f = get k g) -> f = g.
Proof.
  intros [p d t x c] [p' d' t' x' c'] H.
  pose proof (H (lit "package") ltac:(cbn; auto)) as H1. pose proof (H (lit "disambiguator") ltac:(cbn; auto)) as H2.
  pose proof (H (lit "tag") ltac:(cbn; auto)) as H3. pose proof (H (lit "data") ltac:(cbn; auto)) as H4. pose proof (H (lit "crate_name") ltac:(cbn; auto 6)) as H5.
  assert (T : forall a b, of_text a = of_text b -> a = b) by (intros [a|] [b|] E; cbn in E; congruence).
  apply T in H1, H2, H3, H4. cbn [f_package f_disambiguator f_tag f_data] in *. subst. f_equal.
  change (get (lit "crate_name")) with (fun f => match f_crate f with Some (Some s) => Some (CText s) | Some None => Some CNull | None => None end) in H5.
  cbn [f_crate] in H5. destruct c as [[c|]|], c' as [[c'|]|]; congruence.
Qed.

Ltac field_cases k' := let K := fresh in intros k' K ?; destruct (known_cases k' K) as [-> |[-> |[-> |[-> | ->]]]]; (reflexivity || congruence).

Lemma get_known : forall k f, In k known_fields ->
  get k f =
  if beq k (lit "package") then of_text (f_package f) else if beq k (lit "disambiguator") then of_text (f_disambiguator f)
  else if beq k (lit "tag") then of_text (f_tag f) else if beq k (lit "data") then of_text (f_data f)
  else match f_crate f with Some (Some s) => Some (CText s) | Some None => Some CNull | None => None end.
Proof. reflexivity. Qed.

(** The value of a field is read exactly when it is one. *)
Lemma field_read : forall n k f c t f' w r, adds f k c f' -> holds k c t -> blank w -> stop r -> (length (w ++ t ++ r) < n)%nat ->
  read_field n k f (w ++ t ++ r) = Ok (f', r).
Proof.
  intros n k f c t f' w r A H W T L. destruct A as [c f' K Ty G G' O|K].
  - destruct H as [k v s Ks S| |k t Ks V]; [| |contradiction].
    + cbn [app]. rewrite <- app_assoc. cbn [app]. unfold read_field. pose proof G as G0.
      destruct (known_cases k Ks) as [-> |[-> |[-> |[-> | ->]]]].
      all: match goal with |- context [beq (lit ?a) (lit ?b)] => idtac end.
      * change (beq (lit "package") (lit "package")) with true. cbn iota. change (of_text (f_package f) = None) in G. destruct (f_package f); [discriminate|].
        rewrite (read_string_some w v s r W S). cbn [bind fst snd]. f_equal. f_equal. apply fields_ext. intros k' K'.
        destruct (beq_case k' (lit "package")) as [[-> _]|[N _]]; [rewrite G'; reflexivity|]. rewrite (O k' K' N).
        destruct (known_cases k' K') as [-> |[-> |[-> |[-> | ->]]]]; (reflexivity || congruence).
      * change (beq (lit "disambiguator") (lit "package")) with false. change (beq (lit "disambiguator") (lit "disambiguator")) with true. cbn iota.
        change (of_text (f_disambiguator f) = None) in G. destruct (f_disambiguator f); [discriminate|].
        rewrite (read_string_some w v s r W S). cbn [bind fst snd]. f_equal. f_equal. apply fields_ext. intros k' K'.
        destruct (beq_case k' (lit "disambiguator")) as [[-> _]|[N _]]; [rewrite G'; reflexivity|]. rewrite (O k' K' N).
        destruct (known_cases k' K') as [-> |[-> |[-> |[-> | ->]]]]; (reflexivity || congruence).
      * change (beq (lit "tag") (lit "package")) with false. change (beq (lit "tag") (lit "disambiguator")) with false. change (beq (lit "tag") (lit "tag")) with true. cbn iota.
        change (of_text (f_tag f) = None) in G. destruct (f_tag f); [discriminate|].
        rewrite (read_string_some w v s r W S). cbn [bind fst snd]. f_equal. f_equal. apply fields_ext. intros k' K'.
        destruct (beq_case k' (lit "tag")) as [[-> _]|[N _]]; [rewrite G'; reflexivity|]. rewrite (O k' K' N).
        destruct (known_cases k' K') as [-> |[-> |[-> |[-> | ->]]]]; (reflexivity || congruence).
      * change (beq (lit "data") (lit "package")) with false. change (beq (lit "data") (lit "disambiguator")) with false. change (beq (lit "data") (lit "tag")) with false.
        change (beq (lit "data") (lit "data")) with true. cbn iota. change (of_text (f_data f) = None) in G. destruct (f_data f); [discriminate|].
        rewrite (read_string_some w v s r W S). cbn [bind fst snd]. f_equal. f_equal. apply fields_ext. intros k' K'.
        destruct (beq_case k' (lit "data")) as [[-> _]|[N _]]; [rewrite G'; reflexivity|]. rewrite (O k' K' N).
        destruct (known_cases k' K') as [-> |[-> |[-> |[-> | ->]]]]; (reflexivity || congruence).
      * change (beq (lit "crate_name") (lit "package")) with false. change (beq (lit "crate_name") (lit "disambiguator")) with false.
        change (beq (lit "crate_name") (lit "tag")) with false. change (beq (lit "crate_name") (lit "data")) with false.
        change (beq (lit "crate_name") (lit "crate_name")) with true. cbn iota. unfold get in G. cbn [beq] in G.
        change (match f_crate f with Some (Some s) => Some (CText s) | Some None => Some CNull | None => None end = None) in G.
        destruct (f_crate f) as [[|]|]; try discriminate.
        rewrite (read_option_some w v s r W S). cbn [bind fst snd]. f_equal. f_equal. apply fields_ext. intros k' K'.
        destruct (beq_case k' (lit "crate_name")) as [[-> _]|[N _]]; [rewrite G'; reflexivity|]. rewrite (O k' K' N).
        destruct (known_cases k' K') as [-> |[-> |[-> |[-> | ->]]]]; (reflexivity || congruence).
    + unfold read_field. change (beq (lit "crate_name") (lit "package")) with false. change (beq (lit "crate_name") (lit "disambiguator")) with false.
      change (beq (lit "crate_name") (lit "tag")) with false. change (beq (lit "crate_name") (lit "data")) with false.
      change (beq (lit "crate_name") (lit "crate_name")) with true. cbn iota.
      change (match f_crate f with Some (Some s) => Some (CText s) | Some None => Some CNull | None => None end = None) in G.
      destruct (f_crate f) as [[|]|]; try discriminate.
      rewrite (read_option_null w r W). cbn [bind fst snd]. f_equal. f_equal. apply fields_ext. intros k' K'.
      destruct (beq_case k' (lit "crate_name")) as [[-> _]|[N _]]; [rewrite G'; reflexivity|]. rewrite (O k' K' N).
      destruct (known_cases k' K') as [-> |[-> |[-> |[-> | ->]]]]; (reflexivity || congruence).
  - inversion H as [| |? ? Ks V]; subst.
    unfold read_field.
    destruct (beq_case k (lit "package")) as [[-> _]|[_ ->]]; [now elim K; cbn; auto|].
    destruct (beq_case k (lit "disambiguator")) as [[-> _]|[_ ->]]; [now elim K; cbn; auto|].
    destruct (beq_case k (lit "tag")) as [[-> _]|[_ ->]]; [now elim K; cbn; auto|].
    destruct (beq_case k (lit "data")) as [[-> _]|[_ ->]]; [now elim K; cbn; auto|].
    destruct (beq_case k (lit "crate_name")) as [[-> _]|[_ ->]]; [now elim K; cbn; auto 6|].
    rewrite value_skipped by auto. reflexivity.
Qed.

Lemma field_only : forall n k f s f' r, read_field n k f s = Ok (f', r) ->
  exists w t c, s = w ++ t ++ r /\ blank w /\ holds k c t /\ adds f k c f'.
Proof.
  intros n k f s f' r H. unfold read_field in H.
  assert (Str : forall (o : option bytes) (g : bytes -> fields), In k known_fields -> get k f = of_text o ->
    (forall v, get k (g v) = Some (CText v)) -> (forall v k', In k' known_fields -> k' <> k -> get k' (g v) = get k' f) ->
    match o with Some _ => Err tt | None => p <- read_string s ;; Ok (g (fst p), snd p) end = Ok (f', r) ->
    exists w t c, s = w ++ t ++ r /\ blank w /\ holds k c t /\ adds f k c f').
  { intros o g K G G' O E. destruct o; [discriminate|]. destruct (read_string s) as [[v u]| | |] eqn:R; try discriminate. cbn [bind fst snd] in E.
    injection E as <- <-. apply read_string_only in R as (w & t & -> & W & S). exists w, (34 :: t ++ [34]), (CText v).
    split; [cbn [app]; rewrite <- app_assoc; reflexivity|]. split; [exact W|]. split; [now constructor|]. apply A_known; cbn [typed]; auto. }
  destruct (beq_case k (lit "package")) as [[-> B]|[N1 B]]; rewrite B in H.
  { apply (Str (f_package f) (fun v => MkFields (Some v) (f_disambiguator f) (f_tag f) (f_data f) (f_crate f))); auto; [cbn; auto|]. intros v. field_cases k'. }
  destruct (beq_case k (lit "disambiguator")) as [[-> B']|[N2 B']]; rewrite B' in H.
  { apply (Str (f_disambiguator f) (fun v => MkFields (f_package f) (Some v) (f_tag f) (f_data f) (f_crate f))); auto; [cbn; auto|]. intros v. field_cases k'. }
  destruct (beq_case k (lit "tag")) as [[-> B2]|[N3 B2]]; rewrite B2 in H.
  { apply (Str (f_tag f) (fun v => MkFields (f_package f) (f_disambiguator f) (Some v) (f_data f) (f_crate f))); auto; [cbn; auto|]. intros v. field_cases k'. }
  destruct (beq_case k (lit "data")) as [[-> B3]|[N4 B3]]; rewrite B3 in H.
  { apply (Str (f_data f) (fun v => MkFields (f_package f) (f_disambiguator f) (f_tag f) (Some v) (f_crate f))); auto; [cbn; auto|]. intros v. field_cases k'. }
  destruct (beq_case k (lit "crate_name")) as [[-> B4]|[N5 B4]]; rewrite B4 in H.
  { destruct (f_crate f) eqn:C; [discriminate|]. destruct (read_option s) as [[v u]| | |] eqn:R; try discriminate. cbn [bind fst snd] in H. injection H as <- <-.
    assert (A : forall c, typed (lit "crate_name") c -> get (lit "crate_name") (MkFields (f_package f) (f_disambiguator f) (f_tag f) (f_data f) (Some v)) = Some c ->
      adds f (lit "crate_name") c (MkFields (f_package f) (f_disambiguator f) (f_tag f) (f_data f) (Some v))).
    { intros c T G. apply A_known; auto; [cbn; auto 6| |field_cases k'].
      change (match f_crate f with Some (Some s) => Some (CText s) | Some None => Some CNull | None => None end = None). now rewrite C. }
    apply read_option_only in R as [(w & t & x & -> & W & S & ->)|(w & -> & W & ->)].
    - exists w, (34 :: t ++ [34]), (CText x). split; [cbn [app]; rewrite <- app_assoc; reflexivity|]. split; [exact W|].
      split; [constructor; [cbn; auto 6|exact S]|]. apply A; reflexivity.
    - exists w, (lit "null"), CNull. split; [reflexivity|]. split; [exact W|]. split; [constructor|]. apply A; reflexivity. }
  destruct (ignore_value n [] s) as [u| | |] eqn:V; try discriminate. cbn [bind] in H. injection H as <- <-. apply value_only in V as (w & v & -> & W & V).
  assert (K : ~ In k known_fields) by (intros K; destruct (known_cases k K) as [-> |[-> |[-> |[-> | ->]]]]; congruence).
  exists w, v, COther. split; [reflexivity|]. split; [exact W|]. split; [now constructor|now apply A_other].
Qed.

(* ------------------------------------------------------------------ *)
(** * Objects *)

Inductive add_all : fields -> list (bytes * content) -> fields -> Prop :=
| AA_nil f : add_all f [] f
| AA_cons f k c f' ms g : adds f k c f' -> add_all f' ms g -> add_all f ((k, c) :: ms) g.

Lemma member_head : forall k c t, member k c t -> exists r, t = 34 :: r.
Proof. intros k c t []. eauto. Qed.

Lemma members_stop : forall ms t w r, members ms t -> blank w -> stop (t ++ w ++ 125 :: r).
Proof.
  intros ms t w r [|k c u a b ms' x A B] W.
  - cbn [app]. apply blank_stop; [exact W|cbn; tauto].
  - rewrite <- app_assoc. apply blank_stop; [exact A|cbn; tauto].
Qed.

(** One member, from its opening quote on. *)
Lemma member_read : forall n k c t f f' rest (K : fields * bytes -> outcome unit (dsymbol * bytes)), member k c t -> adds f k c f' -> stop rest -> (length (t ++ rest) <= n)%nat ->
  (r <- expect [34] (t ++ rest) ;; q <- parse_str r ;; r <- expect_colon (snd q) ;; p <- read_field n (fst q) f r ;; K p) = K (f', rest).
Proof.
  intros n k c t f f' rest K M A T L. destruct M as [k ks w w' c t S W W' H]. cbn [app] in L |- *.
  change (expect [34] (34 :: ?x)) with (@Ok unit bytes x). cbn [bind]. rewrite <- app_assoc in L |- *. cbn [app] in L |- *. rewrite (spelled_read k ks S). cbn [bind fst snd].
  unfold expect_colon. rewrite <- app_assoc in L |- *. rewrite skip_blank by exact W. cbn [app] in L |- *. rewrite skip_head by reflexivity.
  change (expect [58] (58 :: ?x)) with (@Ok unit bytes x). cbn [bind]. rewrite <- app_assoc in L |- *.
  rewrite (field_read n k f c t f' w' rest); auto. cbn [length] in L. rewrite app_length in L. cbn [length] in L. rewrite app_length in L. cbn [length] in L. lia.
Qed.

Lemma member_only : forall n f s y r (K : fields * bytes -> outcome unit (dsymbol * bytes)),
  (r <- expect [34] s ;; q <- parse_str r ;; r <- expect_colon (snd q) ;; p <- read_field n (fst q) f r ;; K p) = Ok (y, r) ->
  exists k c t f' u, s = t ++ u /\ member k c t /\ adds f k c f' /\ K (f', u) = Ok (y, r).
Proof.
  intros n f s y r K H. destruct (expect [34] s) as [a| | |] eqn:A; try discriminate. cbn [bind] in H. apply expect_ok in A. subst s.
  destruct (parse_str a) as [[k b]| | |] eqn:B; try discriminate. cbn [bind fst snd] in H. apply string_read_only in B as (ks & -> & S).
  unfold expect_colon in H. destruct (expect [58] (skip_ws b)) as [d| | |] eqn:D; try discriminate. cbn [bind] in H. apply expect_ok in D.
  destruct (skip_split b) as (w & W & E). rewrite D in E. subst b. destruct (read_field n k f d) as [[f' u]| | |] eqn:F; try discriminate. cbn [bind] in H.
  apply field_only in F as (w' & t & c & -> & W' & Ho & Ad). exists k, c, (34 :: ks ++ 34 :: w ++ 58 :: w' ++ t), f', u.
  split; [cbn [app]; rewrite <- !app_assoc; cbn [app]; rewrite <- !app_assoc; cbn [app]; rewrite <- !app_assoc; reflexivity|].
  split; [now constructor|]. split; [exact Ad|exact H].
Qed.

Lemma map_end : forall n first f g w r y, blank w -> finish f = Ok y -> g = f -> read_map (S n) first g (w ++ 125 :: r) = Ok (y, r).
Proof.
  intros n first f g w r y W F ->. cbn [read_map]. rewrite skip_blank, skip_head by (exact W || reflexivity). change (125 =? 125) with true. cbn iota. now rewrite F.
Qed.

Lemma map_read : forall ms t, members ms t -> forall n f f' w r y, add_all f ms f' -> finish f' = Ok y -> blank w ->
  (length (t ++ w ++ (125 :: r)%Z) < n)%nat -> read_map n false f (t ++ w ++ 125 :: r) = Ok (y, r).
Proof.
  induction 1 as [|k c t a b ms x A B M Ms IH]; intros n f f' w r y Ad F W L; (destruct n as [|n]; [lia|]).
  - inversion Ad. subst. cbn [app]. now apply (map_end n false f').
  - inversion Ad as [|? ? ? f1 ? ? A1 A2]. subst. rewrite <- app_assoc in L |- *. cbn [app] in L |- *. rewrite <- !app_assoc in L |- *.
    cbn [read_map]. rewrite skip_blank, skip_head by (exact A || reflexivity). change (44 =? 125) with false. change (44 =? 44) with true. cbn iota. cbn [bind].
    rewrite skip_blank by exact B. destruct (member_head k c t M) as (h & Eh).
    assert (Sk : skip_ws (t ++ x ++ w ++ 125 :: r) = t ++ x ++ w ++ 125 :: r) by (rewrite Eh; cbn [app]; apply skip_head; reflexivity).
    rewrite Sk. rewrite app_length in L. cbn [length] in L. rewrite app_length in L.
    rewrite (member_read (S n) k c t f f1 (x ++ w ++ 125 :: r) (fun p => read_map n false (fst p) (snd p))); auto; [|now apply (members_stop ms)|lia].
    cbn [fst snd]. apply (IH n f1 f'); auto. rewrite Eh in L. cbn [app length] in L. rewrite app_length in L. lia.
Qed.

Lemma map_only : forall n f s y r, read_map n false f s = Ok (y, r) ->
  exists ms t w f', s = t ++ w ++ 125 :: r /\ members ms t /\ blank w /\ add_all f ms f' /\ finish f' = Ok y.
Proof.
  induction n as [|n IH]; intros f s y r H; [discriminate|]. cbn [read_map] in H. destruct (skip_split s) as (w & W & E).
  destruct (skip_ws s) as [|c u]; [discriminate|]. destruct (Z.eqb_spec c 125) as [->|N].
  - destruct (finish f) as [z| | |] eqn:F; try discriminate. cbn [bind] in H. injection H as <- <-. exists [], [], w, f.
    split; [exact E|]. split; [constructor|]. split; [exact W|]. split; [constructor|exact F].
  - destruct (Z.eqb_spec c 44) as [->|]; [|discriminate]. cbn [bind] in H. destruct (skip_split u) as (w' & W' & E').
    destruct (member_only (S n) f (skip_ws u) y r (fun p => read_map n false (fst p) (snd p)) H) as (k & c & t & f1 & v & Ev & M & A & R). cbn [fst snd] in R.
    destruct (IH f1 v y r R) as (ms & x & w2 & f' & -> & Ms & W2 & AA & F). exists ((k, c) :: ms), (w ++ 44 :: w' ++ t ++ x), w2, f'.
    split; [rewrite E, E', Ev, <- app_assoc; cbn [app]; rewrite <- !app_assoc; reflexivity|]. split; [now constructor|]. split; [exact W2|]. split; [|exact F].
    apply (AA_cons f k c f1); auto.
Qed.

Definition nothing : fields := MkFields None None None None None.

Lemma object_read : forall ms t, object_text ms t -> forall f y n r, add_all nothing ms f -> finish f = Ok y -> (length (t ++ r) <= n)%nat ->
  exists u, t ++ r = 123 :: u /\ read_map n true nothing u = Ok (y, r).
Proof.
  intros ms t [w W|k c m w w' ms' x W W' M Ms] f y n r A F L.
  - exists (w ++ 125 :: r). split; [cbn [app]; now rewrite <- app_assoc|]. inversion A. subst. destruct n as [|n]; [cbn in L; lia|].
    now apply (map_end n true nothing).
  - exists (w ++ m ++ x ++ w' ++ 125 :: r). split; [cbn [app]; now rewrite <- !app_assoc|]. inversion A as [|? ? ? f1 ? ? A1 A2]. subst.
    cbn [app length] in L. rewrite <- !app_assoc in L. cbn [app] in L. rewrite app_length in L.
    destruct n as [|n]; [lia|]. cbn [read_map]. rewrite skip_blank by exact W. destruct (member_head k c m M) as (h & Eh).
    assert (Sk : skip_ws (m ++ x ++ w' ++ 125 :: r) = 34 :: h ++ x ++ w' ++ 125 :: r) by (rewrite Eh; cbn [app]; apply skip_head; reflexivity).
    rewrite Sk. change (34 =? 125) with false. cbn iota. cbn [bind]. change (34 :: h ++ x ++ w' ++ 125 :: r) with ((34 :: h) ++ x ++ w' ++ 125 :: r). rewrite <- Eh.
    rewrite (member_read (S n) k c m nothing f1 (x ++ w' ++ 125 :: r) (fun p => read_map n false (fst p) (snd p))); auto; [|now apply (members_stop ms')|lia].
    cbn [fst snd]. apply (map_read ms' x Ms n f1 f); auto. rewrite Eh in L. cbn [app length] in L. rewrite app_length in L. lia.
Qed.

Lemma object_only : forall n u y r, read_map n true nothing u = Ok (y, r) ->
  exists ms t f, 123 :: u = t ++ r /\ object_text ms t /\ add_all nothing ms f /\ finish f = Ok y.
Proof.
  intros [|n] s y r H; [discriminate|]. cbn [read_map] in H. destruct (skip_split s) as (w & W & E).
  destruct (skip_ws s) as [|c u]; [discriminate|]. destruct (Z.eqb_spec c 125) as [->|N].
  - destruct (finish nothing) as [z| | |] eqn:F; discriminate.
  - cbn [bind] in H.
    destruct (member_only (S n) nothing (c :: u) y r (fun p => read_map n false (fst p) (snd p)) H) as (k & d & t & f1 & v & Ev & M & A & R). cbn [fst snd] in R.
    destruct (map_only n f1 v y r R) as (ms & x & w2 & f' & -> & Ms & W2 & AA & F). exists ((k, d) :: ms), (123 :: w ++ t ++ x ++ w2 ++ [125]), f'.
    split; [rewrite E, Ev; cbn [app]; rewrite <- !app_assoc; reflexivity|]. split; [now constructor|]. split; [|exact F]. apply (AA_cons nothing k d f1); auto.
Qed.

(* ------------------------------------------------------------------ *)
(** * The members are the fields of the symbol *)

Lemma adds_get : forall f k c f', adds f k c f' -> forall k' c', In k' known_fields ->
  (get k' f' = Some c' <-> get k' f = Some c' \/ (k' = k /\ c' = c)).
Proof.
  intros f k c f' A k' c' K'. destruct A as [c f' K T G G' O|K].
  - destruct (beq_case k' k) as [[-> _]|[N _]].
    + rewrite G, G'. split; [intros E; injection E as <-; auto|intros [?|[_ ->]]; [discriminate|reflexivity]].
    + rewrite O by auto. split; [auto|intros [?|[? _]]; [assumption|contradiction]].
  - split; [auto|intros [?|[-> _]]; [assumption|contradiction]].
Qed.

Lemma add_all_get : forall f ms f', add_all f ms f' -> forall k c, In k known_fields -> (get k f' = Some c <-> get k f = Some c \/ In (k, c) ms).
Proof.
  induction 1 as [f|f k0 c0 f1 ms g A AA IH]; intros k c K; [cbn; tauto|]. rewrite (IH k c K), (adds_get f k0 c0 f1 A k c K). cbn [In].
  split; [intros [[?|[-> ->]]|?]; auto|intros [?|[E|?]]; auto]. injection E as -> ->. auto.
Qed.

(** No known field twice, and none that is already there. *)
Fixpoint fresh (f : fields) (ms : list (bytes * content)) : Prop :=
  match ms with
  | [] => True
  | (k, c) :: ms' => (In k known_fields -> get k f = None /\ forall c', ~ In (k, c') ms') /\ fresh f ms'
  end.

Lemma add_all_fresh : forall f ms f', add_all f ms f' -> fresh f ms.
Proof.
  induction 1 as [f|f k c f1 ms g A AA IH]; [exact Logic.I|]. cbn [fresh].
  assert (K : forall l, fresh f1 l -> fresh f l /\ (In k known_fields -> forall c', ~ In (k, c') l)).
  { induction l as [|[k2 c2] l IHl]; [split; [exact Logic.I|auto]|]. intros [N F]. destruct (IHl F) as [F' N']. split.
    - cbn [fresh]. split; [|exact F']. intros K2. destruct (N K2) as [G D]. split; [|exact D]. destruct (get k2 f) as [x|] eqn:X; [|reflexivity].
      pose proof (proj2 (adds_get f k c f1 A k2 x K2) (or_introl X)). congruence.
    - intros Kk c' [E|E]; [|now apply (N' Kk c')]. injection E as -> ->. destruct (N Kk) as [G _].
      destruct A as [c f1 K0 T G0 G1 O|K0]; [congruence|contradiction]. }
  destruct (K ms IH) as [F N]. split; [|exact F]. intros Kk. split; [|now apply N]. destruct A as [c f1 K0 T G0 G1 O|K0]; [exact G0|contradiction].
Qed.

Lemma fresh_split : forall f ms, fresh f ms -> forall a k c b c' d, In k known_fields -> ms <> a ++ (k, c) :: b ++ (k, c') :: d.
Proof.
  intros f ms F a. revert ms F. induction a as [|[k0 c0] a IH]; intros ms F k c b c' d K E; subst ms; cbn [app fresh] in F.
  - destruct F as [F _]. destruct (F K) as [_ N]. apply (N c'), in_or_app. right. now left.
  - destruct F as [_ F]. now apply (IH _ F k c b c' d K).
Qed.

Lemma put_exists : forall f k c, In k known_fields -> typed k c -> get k f = None -> exists f', adds f k c f'.
Proof.
  intros f k c K T G. destruct c as [v| |]; [|unfold typed in T; subst k|contradiction].
  - destruct (known_cases k K) as [-> |[-> |[-> |[-> | ->]]]].
    + exists (MkFields (Some v) (f_disambiguator f) (f_tag f) (f_data f) (f_crate f)). apply A_known; [assumption|exact Logic.I|assumption|reflexivity|]. field_cases k'.
    + exists (MkFields (f_package f) (Some v) (f_tag f) (f_data f) (f_crate f)). apply A_known; [assumption|exact Logic.I|assumption|reflexivity|]. field_cases k'.
    + exists (MkFields (f_package f) (f_disambiguator f) (Some v) (f_data f) (f_crate f)). apply A_known; [assumption|exact Logic.I|assumption|reflexivity|]. field_cases k'.
    + exists (MkFields (f_package f) (f_disambiguator f) (f_tag f) (Some v) (f_crate f)). apply A_known; [assumption|exact Logic.I|assumption|reflexivity|]. field_cases k'.
    + exists (MkFields (f_package f) (f_disambiguator f) (f_tag f) (f_data f) (Some (Some v))). apply A_known; [assumption|exact Logic.I|assumption|reflexivity|]. field_cases k'.
  - exists (MkFields (f_package f) (f_disambiguator f) (f_tag f) (f_data f) (Some None)). apply A_known; [assumption|reflexivity|assumption|reflexivity|]. field_cases k'.
Qed.

Definition well_typed (p : bytes * content) : Prop := if in_dec (list_eq_dec Z.eq_dec) (fst p) known_fields then typed (fst p) (snd p) else snd p = COther.

Lemma fresh_adds : forall ms f, Forall well_typed ms -> fresh f ms -> exists f', add_all f ms f'.
Proof.
  induction ms as [|[k c] ms IH]; intros f T F; [exists f; constructor|]. inversion T as [|? ? Tk T']. subst. cbn [fresh] in F. destruct F as [N F].
  unfold well_typed in Tk. cbn [fst snd] in Tk. destruct (in_dec (list_eq_dec Z.eq_dec) k known_fields) as [K|K].
  - destruct (N K) as [G D]. destruct (put_exists f k c K Tk G) as (f1 & A).
    assert (F1 : fresh f1 ms).
    { assert (X : forall l, fresh f l -> (forall c', ~ In (k, c') l) -> fresh f1 l).
      { induction l as [|[k2 c2] l IHl]; intros Fl Dl; [exact Logic.I|]. cbn [fresh] in Fl |- *. destruct Fl as [Nl Fl]. split.
        - intros K2. destruct (Nl K2) as [G2 D2]. split; [|exact D2]. destruct (get k2 f1) as [x|] eqn:Y; [|reflexivity].
          apply (adds_get f k c f1 A k2 x K2) in Y as [Y|[-> ->]]; [congruence|]. exfalso. apply (Dl c2). now left.
        - apply IHl; [exact Fl|]. intros c' I'. apply (Dl c'). now right. }
      now apply X. }
    destruct (IH f1 T' F1) as (g & AA). exists g. now apply (AA_cons f k c f1).
  - subst c. destruct (IH f T' F) as (g & AA). exists g. apply (AA_cons f k COther f); [now apply A_other|exact AA].
Qed.

Lemma finish_iff : forall f y, finish f = Ok y <->
  get (lit "package") f = Some (CText (d_package y)) /\ get (lit "disambiguator") f = Some (CText (d_disambiguator y)) /\
  get (lit "tag") f = Some (CText (d_tag y)) /\ get (lit "data") f = Some (CText (d_data y)) /\
  match d_crate y with
  | Some s => get (lit "crate_name") f = Some (CText s)
  | None => get (lit "crate_name") f = Some CNull \/ get (lit "crate_name") f = None
  end.
Proof.
  intros [p d t x c] [p' d' t' x' c'].
  change (get (lit "package") ?f) with (of_text (f_package f)). change (get (lit "disambiguator") ?f) with (of_text (f_disambiguator f)).
  change (get (lit "tag") ?f) with (of_text (f_tag f)). change (get (lit "data") ?f) with (of_text (f_data f)).
  change (get (lit "crate_name") ?f) with (match f_crate f with Some (Some s) => Some (CText s) | Some None => Some CNull | None => None end).
  cbn [f_package f_disambiguator f_tag f_data f_crate d_package d_disambiguator d_tag d_data d_crate finish]. split.
  - destruct p as [p|], d as [d|], t as [t|], x as [x|]; try discriminate. intros H. injection H as <- <- <- <- <-. cbn. destruct c as [[c|]|]; auto 10.
  - intros (P & D & T & X & C). destruct p as [p|], d as [d|], t as [t|], x as [x|]; try discriminate. cbn in P, D, T, X.
    injection P as <-. injection D as <-. injection T as <-. injection X as <-. do 2 f_equal. destruct c as [[c|]|], c' as [c'|]; try congruence.
    all: destruct C; congruence.
Qed.

Lemma members_typed : forall k c t, member k c t -> well_typed (k, c).
Proof.
  intros k c t [k' ks w w' c' t' S W W' H]. unfold well_typed. cbn [fst snd]. destruct H as [k0 v s K Sp| |k0 t0 K V].
  - destruct (in_dec (list_eq_dec Z.eq_dec) k0 known_fields); [exact Logic.I|contradiction].
  - destruct (in_dec (list_eq_dec Z.eq_dec) (lit "crate_name") known_fields) as [|N]; [reflexivity|elim N; cbn; auto 6].
  - destruct (in_dec (list_eq_dec Z.eq_dec) k0 known_fields); [contradiction|reflexivity].
Qed.

Lemma object_typed : forall ms t, object_text ms t -> Forall well_typed ms.
Proof.
  assert (K : forall ms t, members ms t -> Forall well_typed ms) by (induction 1; constructor; auto; eapply members_typed; eauto).
  intros ms t [w W|k c m w w' ms' x W W' M Ms]; constructor; [eapply members_typed; eauto|eapply K; eauto].
Qed.

Lemma known_here : In (lit "package") known_fields /\ In (lit "disambiguator") known_fields /\ In (lit "tag") known_fields /\
  In (lit "data") known_fields /\ In (lit "crate_name") known_fields.
Proof. cbn. auto 20. Qed.

Lemma nothing_get : forall k, get k nothing = None.
Proof. intros k. unfold get, nothing. cbn. repeat destruct (beq k _); reflexivity. Qed.

Lemma fields_iff : forall ms y, Forall well_typed ms -> ((exists f, add_all nothing ms f /\ finish f = Ok y) <-> fields_of ms y).
Proof.
  intros ms y T. destruct known_here as (K1 & K2 & K3 & K4 & K5). split.
  - intros (f & A & F). apply finish_iff in F as (P & D & G & X & C). pose proof (add_all_get nothing ms f A) as Q.
    assert (Q' : forall k c, In k known_fields -> (get k f = Some c <-> In (k, c) ms)).
    { intros k c K. rewrite (Q k c K), nothing_get. split; [intros [?|?]; [discriminate|assumption]|auto]. }
    split; [now apply (fresh_split nothing), (add_all_fresh nothing ms f)|]. rewrite <- !Q' by assumption. split; [exact P|]. split; [exact D|]. split; [exact G|]. split; [exact X|].
    destruct (d_crate y) as [s|]; [now rewrite <- Q'|]. rewrite <- Q' by assumption. destruct C as [C|C]; [now left|]. right. intros c I'. apply (Q' _ c K5) in I'. congruence.
  - intros (N & P & D & G & X & C).
    assert (Fr : fresh nothing ms).
    { clear P D G X C T. induction ms as [|[k c] ms IH]; [exact Logic.I|]. cbn [fresh]. split.
      - intros K. split; [apply nothing_get|]. intros c' I'. apply in_split in I' as (b & d & ->). now apply (N [] k c b c' d K).
      - apply IH. intros a k' c' b c2 d K E. apply (N ((k, c) :: a) k' c' b c2 d K). now rewrite E. }
    destruct (fresh_adds ms nothing T Fr) as (f & A). exists f. split; [exact A|]. pose proof (add_all_get nothing ms f A) as Q.
    assert (Q' : forall k c, In k known_fields -> In (k, c) ms -> get k f = Some c) by (intros k c K I'; apply (Q k c K); now right).
    apply finish_iff. split; [now apply Q'|]. split; [now apply Q'|]. split; [now apply Q'|]. split; [now apply Q'|].
    destruct (d_crate y) as [s|]; [now apply Q'|]. destruct C as [C|C]; [left; now apply Q'|]. right. destruct (get (lit "crate_name") f) as [c|] eqn:E; [|reflexivity].
    apply (Q _ c K5) in E as [E|E]; [rewrite nothing_get in E; discriminate|]. now elim (C c).
Qed.

(* ------------------------------------------------------------------ *)
(** * Arrays *)

Lemma next_first : forall w c r, blank w -> is_ws c = false -> c <> 93 -> next_element true (w ++ c :: r) = Ok (c :: r).
Proof. intros w c r W C N. unfold next_element. rewrite skip_blank, skip_head by assumption. now replace (c =? 93) with false by lia. Qed.

Lemma next_more : forall w w' c r, blank w -> blank w' -> is_ws c = false -> c <> 93 -> next_element false (w ++ 44 :: w' ++ c :: r) = Ok (c :: r).
Proof.
  intros w w' c r W W' C N. unfold next_element. rewrite skip_blank, skip_head by (assumption || reflexivity). change (44 =? 93) with false. change (44 =? 44) with true. cbn iota.
  rewrite skip_blank, skip_head by assumption. now replace (c =? 93) with false by lia.
Qed.

Lemma next_only : forall first s u, next_element first s = Ok u -> exists w w', s = w ++ (if first then [] else 44 :: w') ++ u /\ blank w /\ blank w'.
Proof.
  intros first s u H. unfold next_element in H. destruct (skip_split s) as (w & W & E). destruct (skip_ws s) as [|c r]; [discriminate|].
  destruct (c =? 93); [discriminate|]. destruct first.
  - injection H as <-. exists w, []. split; [exact E|]. split; [exact W|constructor].
  - destruct (Z.eqb_spec c 44) as [->|]; [|discriminate]. destruct (skip_split r) as (w' & W' & E'). destruct (skip_ws r) as [|d r']; [discriminate|].
    destruct (d =? 93); [discriminate|]. injection H as <-. exists w, w'. split; [rewrite E, E'; reflexivity|auto].
Qed.

Lemma string_here : forall v s r, spelled v s -> read_string (34 :: s ++ 34 :: r) = Ok (v, r).
Proof. intros v s r S. apply (read_string_some [] v s r); [constructor|exact S]. Qed.

Lemma option_here : forall v s r, spelled v s -> read_option (34 :: s ++ 34 :: r) = Ok (Some v, r).
Proof. intros v s r S. apply (read_option_some [] v s r); [constructor|exact S]. Qed.

Lemma seq_read : forall y p d t x c w, padded (d_package y) p -> padded (d_disambiguator y) d -> padded (d_tag y) t -> padded (d_data y) x -> padded_option (d_crate y) c ->
  read_seq (p ++ 44 :: d ++ 44 :: t ++ 44 :: x ++ 44 :: c ++ 93 :: w) = Ok (y, w).
Proof.
  intros [yp yd yt yx yc] p d t x c w P D T X C. cbn [d_package d_disambiguator d_tag d_data d_crate] in *. unfold read_seq.
  destruct P as [yp ps p1 p2 P1 P2 Ps]. rewrite <- app_assoc. cbn [app]. rewrite <- app_assoc. cbn [app].
  rewrite next_first by (assumption || reflexivity || discriminate). cbn [bind]. rewrite (string_here _ _ _ Ps). cbn [bind fst snd].
  destruct D as [yd ds d1 d2 D1 D2 Ds]. rewrite <- app_assoc. cbn [app]. rewrite <- app_assoc. cbn [app].
  rewrite next_more by (assumption || reflexivity || discriminate). cbn [bind]. rewrite (string_here _ _ _ Ds). cbn [bind fst snd].
  destruct T as [yt ts t1 t2 T1 T2 Ts]. rewrite <- app_assoc. cbn [app]. rewrite <- app_assoc. cbn [app].
  rewrite next_more by (assumption || reflexivity || discriminate). cbn [bind]. rewrite (string_here _ _ _ Ts). cbn [bind fst snd].
  destruct X as [yx xs x1 x2 X1 X2 Xs]. rewrite <- app_assoc. cbn [app]. rewrite <- app_assoc. cbn [app].
  rewrite next_more by (assumption || reflexivity || discriminate). cbn [bind]. rewrite (string_here _ _ _ Xs). cbn [bind fst snd].
  destruct C as [v q Q|c1 c2 C1 C2].
  - destruct Q as [v cs c1 c2 C1 C2 Cs]. rewrite <- app_assoc. cbn [app]. rewrite <- app_assoc. cbn [app].
    rewrite next_more by (assumption || reflexivity || discriminate). cbn [bind]. rewrite (option_here _ _ _ Cs). cbn [bind fst snd].
    rewrite skip_blank by exact C2. rewrite skip_head by reflexivity. reflexivity.
  - rewrite <- app_assoc. change (lit "null") with (110 :: lit "ull"). cbn [app]. rewrite next_more by (assumption || reflexivity || discriminate). cbn [bind].
    match goal with |- context [read_option ?a] => change a with ([] ++ lit "null" ++ c2 ++ 93 :: w) end.
    rewrite (read_option_null [] (c2 ++ 93 :: w) ltac:(constructor)). cbn [bind fst snd].
    rewrite skip_blank by exact C2. rewrite skip_head by reflexivity. reflexivity.
Qed.

Lemma seq_only : forall s y w, read_seq s = Ok (y, w) -> exists p d t x c,
  s = p ++ 44 :: d ++ 44 :: t ++ 44 :: x ++ 44 :: c ++ 93 :: w /\ padded (d_package y) p /\ padded (d_disambiguator y) d /\ padded (d_tag y) t /\
  padded (d_data y) x /\ padded_option (d_crate y) c.
Proof.
  intros s y w H. unfold read_seq in H.
  destruct (next_element true s) as [s1| | |] eqn:N1; try discriminate. cbn [bind] in H. apply next_only in N1 as (a1 & b1 & E1 & A1 & B1).
  destruct (read_string s1) as [[p r1]| | |] eqn:R1; try discriminate. cbn [bind fst snd] in H. apply read_string_only in R1 as (c1 & t1 & F1 & C1 & T1).
  destruct (next_element false r1) as [s2| | |] eqn:N2; try discriminate. cbn [bind] in H. apply next_only in N2 as (a2 & b2 & E2 & A2 & B2).
  destruct (read_string s2) as [[d r2]| | |] eqn:R2; try discriminate. cbn [bind fst snd] in H. apply read_string_only in R2 as (c2 & t2 & F2 & C2 & T2).
  destruct (next_element false r2) as [s3| | |] eqn:N3; try discriminate. cbn [bind] in H. apply next_only in N3 as (a3 & b3 & E3 & A3 & B3).
  destruct (read_string s3) as [[t r3]| | |] eqn:R3; try discriminate. cbn [bind fst snd] in H. apply read_string_only in R3 as (c3 & t3 & F3 & C3 & T3).
  destruct (next_element false r3) as [s4| | |] eqn:N4; try discriminate. cbn [bind] in H. apply next_only in N4 as (a4 & b4 & E4 & A4 & B4).
  destruct (read_string s4) as [[x r4]| | |] eqn:R4; try discriminate. cbn [bind fst snd] in H. apply read_string_only in R4 as (c4 & t4 & F4 & C4 & T4).
  destruct (next_element false r4) as [s5| | |] eqn:N5; try discriminate. cbn [bind] in H. apply next_only in N5 as (a5 & b5 & E5 & A5 & B5).
  destruct (read_option s5) as [[c r5]| | |] eqn:R5; try discriminate. cbn [bind fst snd] in H.
  destruct (expect [93] (skip_ws r5)) as [z| | |] eqn:X; try discriminate. cbn [bind] in H. injection H as <- <-.
  apply expect_ok in X. destruct (skip_split r5) as (w5 & W5 & E6). rewrite X in E6.
  exists ((a1 ++ c1) ++ 34 :: t1 ++ 34 :: a2), ((b2 ++ c2) ++ 34 :: t2 ++ 34 :: a3), ((b3 ++ c3) ++ 34 :: t3 ++ 34 :: a4), ((b4 ++ c4) ++ 34 :: t4 ++ 34 :: a5).
  apply read_option_only in R5 as [(c5 & t5 & v & F5 & C5 & T5 & ->)|(c5 & F5 & C5 & ->)].
  - exists ((b5 ++ c5) ++ 34 :: t5 ++ 34 :: w5). cbn [d_package d_disambiguator d_tag d_data d_crate].
    split; [|do 4 (split; [constructor; (assumption || now apply blank_app)|]); do 2 constructor; (assumption || now apply blank_app)].
    rewrite E1, F1, E2, F2, E3, F3, E4, F4, E5, F5, E6. repeat (cbn [app]; rewrite <- ?app_assoc). reflexivity.
  - exists ((b5 ++ c5) ++ lit "null" ++ w5). cbn [d_package d_disambiguator d_tag d_data d_crate].
    split; [|do 4 (split; [constructor; (assumption || now apply blank_app)|]); constructor; (assumption || now apply blank_app)].
    rewrite E1, F1, E2, F2, E3, F3, E4, F4, E5, F5, E6. repeat (cbn [app]; rewrite <- ?app_assoc). reflexivity.
Qed.

(* ------------------------------------------------------------------ *)
(** * Symbols *)

Theorem demangle_iff : forall raw y, demangle raw = Ok y <-> symbol_text y raw.
Proof.
  intros raw y. split.
  - intros H. unfold demangle in H. destruct (skip_split raw) as (w & W & E). destruct (skip_ws raw) as [|c r]; [discriminate|].
    match type of H with bind ?a _ = _ => destruct a as [[z u]| | |] eqn:R; try discriminate end. cbn [bind fst snd] in H.
    destruct (skip_split u) as (w' & W' & E'). destruct (skip_ws u); [|discriminate]. injection H as ->. rewrite app_nil_r in E'. subst u.
    destruct (Z.eqb_spec c 123) as [->|]; [|destruct (Z.eqb_spec c 91) as [->|]; [|discriminate]].
    + apply object_only in R as (ms & t & f & Et & O & A & F). rewrite E, Et. apply (Sy_object y ms t w w'); auto.
      apply fields_iff; [eapply object_typed, O|eauto].
    + apply seq_only in R as (p & d & t & x & c & -> & P & D & T & X & C). rewrite E. now apply (Sy_array y p d t x c w w').
  - intros [ms t w w' W W' O F|p d t x c w w' W W' P D T X C]; unfold demangle; rewrite skip_blank by exact W.
    + apply fields_iff in F as (f & A & F); [|eapply object_typed, O].
      destruct (object_read ms t O f y (S (length (w ++ t ++ w'))) w' A F) as (u & Eu & R); [rewrite (app_length w); lia|].
      rewrite Eu, skip_head by reflexivity. change (123 =? 123) with true. cbn iota. rewrite <- Eu. change (MkFields None None None None None) with nothing. rewrite R. cbn [bind fst snd].
      now rewrite skip_all.
    + rewrite skip_head by reflexivity. change (91 =? 123) with false. change (91 =? 91) with true. cbn iota. rewrite (seq_read y p d t x c w') by assumption.
      cbn [bind fst snd]. now rewrite skip_all.
Qed.
