(** The decoder reads exactly the wire format (C48). *)
From Verif Require Import Base Utf8 ParserModel ParserProofs DecoderModel DecoderProofs DecoderPanic Numerals PrepareProofs RenderProofs
  EncodeModel EncodeSpec EncodeProofs DeriveProofs EncodeMain EncodeTop DisplayTotal WireSpec.

(** * Sizes *)

Lemma smallest_unique : forall sizes P n m, smallest sizes P n -> smallest sizes P m -> n = m.
Proof. intros sizes P n m (I1 & P1 & M1) (I2 & P2 & M2). pose proof (M1 m I2 P2). pose proof (M2 n I1 P1). lia. Qed.

Lemma bitfield_size_spec : forall lo hi, lo / 8 <= (hi - 1) / 8 -> forall n, bitfield_size lo hi = Some n <-> container_size lo hi n.
Proof.
  intros lo hi H.
  assert (E : forall n, bitfield_size lo hi = Some n -> container_size lo hi n).
  { unfold bitfield_size, container_size, smallest. cbv zeta. generalize dependent ((hi - 1) / 8). generalize (lo / 8). clear.
    intros a b H n. remember (b - a + 1) as sz.
    destruct (sz =? 1) eqn:E1; [|destruct (sz =? 2) eqn:E2; [|destruct ((3 <=? sz) && (sz <=? 4)) eqn:E3;
      [|destruct ((5 <=? sz) && (sz <=? 8)) eqn:E4; [|destruct ((9 <=? sz) && (sz <=? 16)) eqn:E5; [|discriminate]]]]];
    intros Q; injection Q as <-; (split; [cbn; tauto|split; [lia|]]); intros m I L;
      cbn [In] in I; destruct I as [<-|[<-|[<-|[<-|[<-|[]]]]]]; try lia. }
  intros n. split; [apply E|]. intros C.
  destruct (bitfield_size lo hi) as [m|] eqn:B; [now rewrite (smallest_unique _ _ _ _ C (E m eq_refl))|].
  exfalso. unfold bitfield_size in B. cbv zeta in B. destruct C as (I & L & _).
  revert B L H. generalize ((hi - 1) / 8). generalize (lo / 8). clear - I. intros a b B L H.
  assert (Z.of_nat n <= 16) by (cbn [In] in I; destruct I as [<-|[<-|[<-|[<-|[<-|[]]]]]]; lia).
  destruct (b - a + 1 =? 1) eqn:E1; [discriminate|]. destruct (b - a + 1 =? 2) eqn:E2; [discriminate|].
  destruct ((3 <=? b - a + 1) && (b - a + 1 <=? 4)) eqn:E3; [discriminate|].
  destruct ((5 <=? b - a + 1) && (b - a + 1 <=? 8)) eqn:E4; [discriminate|].
  destruct ((9 <=? b - a + 1) && (b - a + 1 <=? 16)) eqn:E5; [discriminate|]. lia.
Qed.

Lemma discriminant_width_spec : forall s n, discriminant_width (Z.of_nat (bars s)) = Some n <-> discriminant_size s n.
Proof.
  intros s.
  assert (E : forall n, discriminant_width (Z.of_nat (bars s)) = Some n -> discriminant_size s n).
  { unfold discriminant_width, discriminant_size, smallest. generalize (Z.of_nat (bars s)) as b. clear. intros b n.
    change (2 ^ 8) with 256. change (2 ^ 16) with 65536. change (2 ^ 32) with 4294967296. change (2 ^ 64) with 18446744073709551616.
    destruct (b <? 256) eqn:E1; [|destruct (b <? 65536) eqn:E2; [|destruct (b <? 4294967296) eqn:E3;
      [|destruct (b <? 18446744073709551616) eqn:E4; [|discriminate]]]];
    intros Q; injection Q as <-;
    (split; [cbn; tauto|split; [cbn; lia|]]); intros m I L; cbn [In] in I; destruct I as [<-|[<-|[<-|[<-|[]]]]]; cbn in L; lia. }
  intros n. split; [apply E|]. intros C.
  destruct (discriminant_width (Z.of_nat (bars s))) as [m|] eqn:B; [now rewrite (smallest_unique _ _ _ _ C (E m eq_refl))|].
  exfalso. destruct C as (I & L & _). unfold discriminant_width in B. revert B L. generalize (Z.of_nat (bars s)). clear - I. intros b B L.
  destruct (b <? 2 ^ 8) eqn:E1; [discriminate|]. destruct (b <? 2 ^ 16) eqn:E2; [discriminate|]. destruct (b <? 2 ^ 32) eqn:E3; [discriminate|].
  destruct (b <? 2 ^ 64) eqn:E4; [discriminate|]. cbn [In] in I. destruct I as [<-|[<-|[<-|[<-|[]]]]]; cbn in *; lia.
Qed.

Lemma has_bar_iff : forall s, has_bar s = true <-> In 124 s.
Proof.
  intros s. split.
  - intros H. destruct (in_dec Z.eq_dec 124 s) as [I|N]; auto. rewrite (has_bar_false s N) in H. discriminate.
  - intros I. unfold has_bar. apply existsb_exists. exists 124. split; auto.
Qed.

Lemma split_length : forall s, length (split_on 124 s) = S (bars s).
Proof.
  induction s as [|c s IH]; [reflexivity|]. unfold bars in *. cbn [split_on filter]. destruct (c =? 124); cbn [length]; [lia|].
  destruct (split_on 124 s); cbn [length] in *; lia.
Qed.

Lemma le_bytes_mod : forall n x, le_bytes n x = le_bytes n (x mod 256 ^ Z.of_nat n).
Proof.
  intros n x. rewrite <- le_value_mod. rewrite <- (le_bytes_length n x) at 2. symmetry. apply le_bytes_value. apply le_bytes_ok.
Qed.

(** * What is read *)

Section Sound.
  Context (tbl : table).

  (** [m] reads the bytes that stand for its result. *)
  Definition sound {A} (m : reader A) (P : A -> bytes -> Prop) : Prop :=
    forall b a r, bytes_ok b -> m b = Ok (a, r) -> exists c, b = c ++ r /\ P a c.

  Lemma sound_bind : forall A B (m : reader A) (f : A -> reader B) P R,
    sound m P -> (forall a c, P a c -> sound (f a) (fun x c' => R x (c ++ c'))) -> sound (rbind m f) R.
  Proof.
    intros A B m f P R M F b x r Hb E. apply rbind_ok in E as (a & b' & E1 & E2).
    destruct (M _ _ _ Hb E1) as (c & -> & Pa). apply Forall_app in Hb as [_ Hb].
    destruct (F a c Pa _ _ _ Hb E2) as (c' & -> & Rx). exists (c ++ c'). split; auto. now rewrite app_assoc.
  Qed.

  Lemma sound_ret : forall A (a : A) (P : A -> bytes -> Prop), P a [] -> sound (ret a) P.
  Proof. intros A a P H b x r Hb E. inversion E; subst. exists []. auto. Qed.

  Lemma sound_fail : forall A e (P : A -> bytes -> Prop), sound (fail e) P.
  Proof. intros A e P b x r Hb E. discriminate. Qed.

  Lemma sound_impl : forall A (m : reader A) (P R : A -> bytes -> Prop), sound m P -> (forall a c, P a c -> R a c) -> sound m R.
  Proof. intros A m P R M H b a r Hb E. destruct (M _ _ _ Hb E) as (c & -> & Pa). eauto. Qed.

  Lemma sound_map : forall A B (m : reader A) (g : A -> B) (P : A -> bytes -> Prop) (R : B -> bytes -> Prop), sound m P -> (forall a c, P a c -> R (g a) c) ->
    sound (rbind m (fun a => ret (g a))) R.
  Proof.
    intros A B m g P R M H. eapply sound_bind; [exact M|]. intros a c Pa. apply sound_ret. rewrite app_nil_r. auto.
  Qed.

  Lemma sound_u : forall n, sound (read_u n) (fun x c => 0 <= x < 256 ^ Z.of_nat n /\ c = le_bytes n x).
  Proof.
    intros n b x r Hb E. apply read_u_inv in E as (l & -> & Hl & ->). apply Forall_app in Hb as [H1 H2]. exists l.
    split; auto. subst n. split; [now apply Base.le_value_bound|]. now rewrite le_bytes_value.
  Qed.

  Lemma sound_i : forall n, (0 < n)%nat -> sound (read_i n) (fun x c => - 2 ^ (8 * Z.of_nat n - 1) <= x < 2 ^ (8 * Z.of_nat n - 1) /\ c = le_bytes n x).
  Proof.
    intros n Hn. unfold read_i. eapply sound_map; [apply sound_u|]. intros u c (H & ->).
    assert (P : 2 ^ (8 * Z.of_nat n) = 2 * 2 ^ (8 * Z.of_nat n - 1)).
    { rewrite <- Z.pow_succ_r by lia. f_equal. lia. }
    unfold to_signed. rewrite pow_width in H. destruct (u <? 2 ^ (8 * Z.of_nat n - 1)) eqn:E.
    - split; [lia|reflexivity].
    - split; [lia|]. rewrite (le_bytes_mod n (u - _)), (le_bytes_mod n u). f_equal. rewrite pow_width.
      replace (u - 2 ^ (8 * Z.of_nat n)) with (u + (-1) * 2 ^ (8 * Z.of_nat n)) by lia. now rewrite Z_mod_plus_full.
  Qed.

  Lemma sound_bytes : forall n, 0 <= n -> sound (read_bytes n) (fun s c => c = s /\ Z.of_nat (length s) = n /\ bytes_ok s).
  Proof.
    intros n Hn b s r Hb E. apply read_bytes_length in E as (_ & L & ->); auto. apply Forall_app in Hb as [H1 _]. exists s. auto.
  Qed.

  Lemma sound_lift : forall A (o : option A), sound (lift_option o) (fun a c => o = Some a /\ c = []).
  Proof. intros A [a|] b x r Hb E; inversion E; subst. exists []. auto. Qed.

  Lemma nested_iff : forall i s, 0 <= i < 2 ^ 16 -> get_without_level tbl i = Some s <-> nested_at tbl i s.
  Proof.
    intros i s H. unfold get_without_level, get_with_level, nested_at. destruct (lookup_entry i (t_entries tbl)) as [e|] eqn:L.
    - split.
      + intros E. split; auto. exists e. split; auto. destruct (tag_level (e_tag e)) eqn:T; [discriminate|].
        split; [congruence|]. intros X. repeat (destruct X as [X|X]; [rewrite <- X in T; discriminate|]). destruct X.
      + intros (_ & e' & Q & <- & N). injection Q as <-. destruct (e_tag e); cbn [tag_level]; try reflexivity; exfalso; apply N; cbn; tauto.
    - split; [discriminate|]. intros (_ & e & Q & _). discriminate.
  Qed.

  Lemma sound_get_format : sound (get_format tbl) (fun s c => exists i, nested_at tbl i s /\ c = le_bytes 2 i).
  Proof.
    unfold get_format. eapply sound_bind; [apply sound_u|]. intros i c (H & ->).
    eapply sound_impl; [apply sound_lift|]. intros s c (E & ->). exists i. rewrite app_nil_r. split; auto. now apply nested_iff.
  Qed.

  Lemma sound_variant : forall s, sound (if has_bar s then get_variant s else ret s) (selects s).
  Proof.
    intros s. destruct (has_bar s) eqn:B.
    - unfold get_variant. rewrite B. cbn [negb]. cbv zeta. fold (bars s). destruct (discriminant_width (Z.of_nat (bars s))) as [n|] eqn:W; [|apply sound_fail].
      eapply sound_bind; [apply sound_u|]. intros d c (H & ->). eapply sound_impl; [apply sound_lift|]. intros v c (E & ->).
      rewrite app_nil_r. unfold nth_variant in E. destruct (_ <? _); [|discriminate].
      rewrite <- (Z2Nat.id d) by lia. apply Sel_alternative; [now apply has_bar_iff|exact E|now apply discriminant_width_spec].
    - apply sound_ret. apply Sel_whole. intros I. apply has_bar_iff in I. congruence.
  Qed.

  Section Rec.
    Context (rec : bytes -> reader (list arg)) (sf : nat).
    Context (Hrec : forall f, sound (rec f) (wire_format tbl f)).

    Lemma sound_elements : forall n s, sound (decode_elements rec n s (has_bar s)) (fun es c => wire_elements tbl s es c /\ length es = n).
    Proof.
      induction n as [|n IH]; intros s; cbn [decode_elements]; [apply sound_ret; split; [constructor|reflexivity]|].
      eapply sound_bind; [apply sound_variant|]. intros v d Hv. eapply sound_bind; [apply Hrec|]. intros args b Ha.
      eapply sound_map; [apply IH|]. intros es bs (He & L). split; [|cbn [length]; lia].
      replace (d ++ b ++ bs) with (d ++ b ++ bs) by reflexivity. constructor; auto.
    Qed.

    Lemma sound_slice : forall n, sound (decode_format_slice tbl rec n)
      (fun es c => exists i s b, nested_at tbl i s /\ wire_elements tbl s es b /\ length es = Z.to_nat n /\ c = le_bytes 2 i ++ b).
    Proof.
      intros n. unfold decode_format_slice. eapply sound_bind; [apply sound_get_format|]. intros s c (i & N & ->).
      eapply sound_impl; [apply sound_elements|]. intros es b (W & L). exists i, s, b. auto.
    Qed.

    Lemma sound_sequence : forall n, sound (decode_sequence tbl rec n) (wire_sequence tbl).
    Proof.
      induction n as [|n IH]; cbn [decode_sequence]; [intros b a r Hb E; discriminate|].
      eapply sound_bind; [apply sound_u|]. intros i c (H & ->). destruct (i =? 0) eqn:Z0.
      - assert (i = 0) by lia. subst i. apply sound_ret. apply WS_end.
      - eapply sound_bind; [apply sound_lift|]. intros f c (E & ->). eapply sound_bind; [apply Hrec|]. intros args b Ha.
        eapply sound_map; [apply IH|]. intros rest bs Hr. cbn [app]. apply WS_next; auto; [lia|]. now apply nested_iff.
    Qed.

    Lemma sound_text : forall x, x = TDebug \/ x = TDisplay -> sound (decode_ty tbl rec sf x) (wire tbl x).
    Proof.
      assert (P : forall b a r, match position (fun x => x =? 255) b with
        | None => Err RzcobsModel.UnexpectedEof
        | Some e => let data := firstn e b in if utf8_valid data then Ok (APreformatted data, skipn (S e) b) else Err RzcobsModel.Malformed
        end = Ok (a, r) -> exists s, utf8_valid s = true /\ a = APreformatted s /\ b = (s ++ [255]) ++ r).
      { intros b a r E. destruct (position (fun x => x =? 255) b) as [e|] eqn:Q; [|discriminate]. cbv zeta in E.
        destruct (utf8_valid (firstn e b)) eqn:U; [|discriminate]. injection E as <- <-. exists (firstn e b). split; auto. split; auto.
        destruct (position_some _ _ _ Q) as (A & _ & x & q & C & D). assert (x = 255) by lia. subst x.
        rewrite <- (firstn_skipn e b) at 1. rewrite C. change (255 :: q) with ([255] ++ q). rewrite app_assoc. f_equal.
        change q with (skipn 1 (255 :: q)). rewrite <- C, skipn_skipn. now replace (e + 1)%nat with (S e) by lia. }
      intros x Hx b a r Hb E.
      assert (Q : exists s, utf8_valid s = true /\ a = APreformatted s /\ b = (s ++ [255]) ++ r).
      { destruct Hx as [-> | ->]; cbn [decode_ty] in E; exact (P b a r E). }
      destruct Q as (s & U & -> & ->). exists (s ++ [255]). split; auto. destruct Hx as [-> | ->]; constructor; auto.
    Qed.

    Lemma sound_ty : forall x, ty_valid x -> sound (decode_ty tbl rec sf x) (wire tbl x).
    Proof.
      intros x V.
      assert (PW : forall w, 256 ^ Z.of_nat (width_bytes w) = 2 ^ (8 * Z.of_nat (width_bytes w))) by (intros; apply pow_width).
      destruct x; try solve [apply sound_text; auto]; cbn [decode_ty].
      - cbn [ty_valid] in V. destruct V as (V1 & V2 & V3).
        assert (Q : lo / 8 <= (hi - 1) / 8) by (apply Z.div_le_mono; lia).
        destruct (bitfield_size lo hi) as [n|] eqn:B; [|intros b a r Hb E; discriminate].
        apply (bitfield_size_spec lo hi Q) in B. eapply sound_map; [apply sound_u|]. intros v c (H & ->).
        rewrite Z.shiftl_mul_pow2 by (pose proof (Z.div_pos lo 8); lia). change u128_mod with (2 ^ 128).
        apply W_bits; auto. rewrite pow_width in H. exact H.
      - eapply sound_bind; [apply sound_u|]. intros v c (H & ->). destruct (v =? 0) eqn:E0.
        + apply sound_ret. assert (v = 0) by lia. subst v. apply (W_bool tbl false).
        + destruct (v =? 1) eqn:E1; [|apply sound_fail]. apply sound_ret. assert (v = 1) by lia. subst v. apply (W_bool tbl true).
      - eapply sound_bind; [apply sound_u|]. intros v c (H & ->). destruct (is_scalar v) eqn:S; [|apply sound_fail].
        apply sound_ret. rewrite app_nil_r. now constructor.
      - eapply sound_map; [apply sound_sequence|]. intros args c W. now constructor.
      - eapply sound_map; [apply sound_u|]. intros v c (H & ->). now constructor.
      - eapply sound_map; [apply sound_u|]. intros v c (H & ->). now constructor.
      - eapply sound_bind; [apply sound_get_format|]. intros s c (i & N & ->). eapply sound_bind; [apply sound_variant|]. intros v d Hv.
        eapply sound_map; [apply Hrec|]. intros args b W. eapply W_format; eauto.
      - eapply sound_map; [apply sound_slice|]. intros es c (i & s & b & N & W & L & ->). eapply W_array; eauto. cbn in V. lia.
      - eapply sound_bind; [apply sound_u|]. intros n c (H & ->). eapply sound_map; [apply sound_slice|]. intros es c (i & s & b & N & W & L & ->).
        eapply W_slice; eauto; [lia|]. change (2 ^ 32) with (256 ^ Z.of_nat 4). lia.
      - eapply sound_map; [apply sound_i; destruct w; cbn; lia|]. intros v c (H & ->). now constructor.
      - eapply sound_map; [apply sound_i; lia|]. intros v c (H & ->). now constructor.
      - eapply sound_bind; [apply sound_u|]. intros i c (H & ->). eapply sound_map; [apply sound_lift|]. intros s c (E & ->).
        rewrite app_nil_r. constructor. now apply nested_iff.
      - eapply sound_bind; [apply sound_u|]. intros n c (H & ->). eapply sound_bind; [apply sound_bytes; lia|]. intros s c (-> & L & _).
        destruct (utf8_valid s) eqn:U; [|apply sound_fail]. apply sound_ret. rewrite app_nil_r. apply W_str; auto.
        change (2 ^ 32) with (256 ^ Z.of_nat 4). lia.
      - eapply sound_map; [apply sound_u|]. intros v c (H & ->). constructor. now rewrite <- PW.
      - eapply sound_map; [apply sound_u|]. intros v c (H & ->). now constructor.
      - eapply sound_bind; [apply sound_u|]. intros n c (H & ->). eapply sound_map; [apply sound_bytes; lia|]. intros s c (-> & L & B).
        apply W_bytes; auto. change (2 ^ 32) with (256 ^ Z.of_nat 4). lia.
      - cbn in V. eapply sound_map; [apply sound_bytes; lia|]. intros s c (-> & L & B). apply W_byte_array; auto.
    Qed.

    Lemma sound_params : forall ps, Forall (fun p => ty_valid (p_ty p)) ps ->
      sound (decode_params tbl rec sf ps) (wire_args tbl (map p_ty ps)).
    Proof.
      induction ps as [|p ps IH]; intros V; cbn [decode_params map]; [apply sound_ret; constructor|]. inversion V; subst.
      eapply sound_bind; [apply sound_ty; auto|]. intros a b W. eapply sound_map; [apply IH; auto|]. intros rest bs Ws. now constructor.
    Qed.
  End Rec.

  Lemma sound_decode_format : forall fuel f, sound (decode_format tbl fuel f) (wire_format tbl f).
  Proof.
    induction fuel as [|fuel IH]; intros f; cbn [decode_format]; [intros b a r Hb E; discriminate|].
    destruct (parse f ForwardsCompatible) as [frags|e| |] eqn:P; [|apply sound_fail|intros b a r Hb X; discriminate|intros b a r Hb X; discriminate].
    eapply sound_impl; [apply sound_params; [exact IH|eapply prepare_valid_fc; eauto]|]. intros args c W.
    econstructor; [apply arg_types_exist; exact P|exact W].
  Qed.

  Lemma sound_decode_fuel : forall fuel, sound (decode_fuel tbl fuel) (wire_frame tbl).
  Proof.
    intros fuel. unfold decode_fuel. eapply sound_bind; [apply sound_u|]. intros i c (H & ->).
    apply sound_bind with (P := fun ts tb => match t_timestamp tbl, fst ts with
      | Some te, Some f => f = e_string te /\ wire_format tbl f (snd ts) tb
      | None, None => snd ts = [] /\ tb = [] | _, _ => False end).
    { destruct (t_timestamp tbl) as [e|]; [|apply sound_ret; cbn [fst snd]; auto]. eapply (sound_map _ _ (decode_format tbl fuel (e_string e)) (fun a => (Some (e_string e), a))); [apply sound_decode_format|]. intros a c W. cbn [fst snd]. auto. }
    intros [ts ts_args] tb Hts. cbn [fst snd] in *. eapply sound_bind; [apply sound_lift|]. intros [l f] c (E & ->). cbn [fst snd app].
    unfold get_with_level in E. destruct (lookup_entry i (t_entries tbl)) as [e|] eqn:L; [|discriminate]. injection E as <- <-.
    eapply sound_map; [apply sound_decode_format|]. intros args b W. now constructor.
  Qed.
End Sound.

Lemma decode_wire : forall tbl b fr n, bytes_ok b -> decode tbl b = Ok (fr, n) -> (n <= length b)%nat /\ wire_frame tbl fr (firstn n b).
Proof.
  intros tbl b fr n Hb E. unfold decode in E. destruct (decode_fuel tbl (S (length b)) b) as [[fr' r]|e| |] eqn:D; try discriminate.
  injection E as -> <-. destruct (sound_decode_fuel tbl _ _ _ _ Hb D) as (c & -> & W). rewrite app_length.
  replace (length c + length r - length r)%nat with (length c) by lia. split; [lia|]. now rewrite firstn_app_exact.
Qed.

(** * What is written *)

Section Complete.
  Context (tbl : table).
  Notation a0 := (fun _ : bytes => 0).

  Definition RT (x : ty) (a : arg) (b : bytes) : Prop := reads (fun n => decode_ty tbl (decode_format tbl n) (S n) x) b a.
  Definition RTs (xs : list ty) (args : list arg) (b : bytes) : Prop := DTs tbl xs b args.
  Definition RF (f : bytes) (args : list arg) (b : bytes) : Prop := DF tbl f b args.
  Definition RE (s : bytes) (es : list (bytes * list arg)) (b : bytes) : Prop :=
    reads (fun n => decode_elements (decode_format tbl n) (length es) s (has_bar s)) b es.
  Definition RS (args : list arg) (b : bytes) : Prop :=
    reads (fun n => decode_sequence tbl (decode_format tbl n) (S n)) b args.

  Lemma reads_format : forall i s, nested_at tbl i s -> reads (fun _ => get_format tbl) (le_bytes 2 i) s.
  Proof.
    intros i s N. pose proof N as (H & _). apply (nested_iff tbl i s H) in N. unfold get_format. apply reads_nil.
    eapply (reads_bind _ _ (fun _ => read_u 2) (fun _ i => lift_option (get_without_level tbl i))).
    - apply reads_u_exact. exact H.
    - rewrite N. apply reads_ret.
  Qed.

  Lemma reads_variant : forall s v d, selects s v d -> reads (fun _ => if has_bar s then get_variant s else ret s) d v.
  Proof.
    intros s v d H. destruct H as [N|k n v I E D].
    - rewrite (has_bar_false s N). apply reads_ret.
    - apply has_bar_iff in I. rewrite I. unfold get_variant. rewrite I. cbn [negb]. cbv zeta. fold (bars s).
      pose proof D as (_ & Hn & _). apply discriminant_width_spec in D. rewrite D.
      assert (K : Z.of_nat k <= Z.of_nat (bars s)).
      { assert (k < length (split_on 124 s))%nat by (apply nth_error_Some; congruence). rewrite split_length in *. lia. }
      apply reads_nil. eapply (reads_bind _ _ (fun _ => read_u n) (fun _ d => lift_option (nth_variant s d))).
      + apply reads_u_exact. rewrite pow_width. lia.
      + unfold nth_variant. cbv zeta. rewrite split_length. replace (Z.of_nat k <? Z.of_nat (S (bars s))) with true by lia.
        rewrite Nat2Z.id, E. apply reads_ret.
  Qed.

  Lemma wire_reads :
    (forall x a b, wire tbl x a b -> RT x a b) /\
    (forall xs args b, wire_args tbl xs args b -> RTs xs args b) /\
    (forall f args b, wire_format tbl f args b -> RF f args b) /\
    (forall s es b, wire_elements tbl s es b -> RE s es b) /\
    (forall args b, wire_sequence tbl args b -> RS args b).
  Proof.
    assert (PR : forall x p v a b, prim_of_ty x = Some p -> prim_means a0 tbl p v a -> put_prim a0 p v = b -> RT x a b).
    { intros x p v a b H1 H2 <-. exact (DT_prim a0 tbl x p v a H1 H2). }
    apply wire_combined.
    - intros b. eapply PR; [reflexivity|apply PM_bool|destruct b; reflexivity].
    - intros w x H. eapply PR; [reflexivity|apply PM_u; exact H|reflexivity].
    - intros x H. eapply PR; [reflexivity|apply PM_usize; exact H|reflexivity].
    - intros w x H. eapply PR; [reflexivity|apply PM_i; exact H|reflexivity].
    - intros x H. eapply PR; [reflexivity|apply PM_isize; exact H|reflexivity].
    - intros x H. eapply PR; [reflexivity|apply PM_f32; exact H|reflexivity].
    - intros x H. eapply PR; [reflexivity|apply PM_f64; exact H|reflexivity].
    - intros c H. eapply PR; [reflexivity|apply PM_char; exact H|reflexivity].
    - intros s n -> H U. eapply PR; [reflexivity|apply PM_str; auto|reflexivity].
    - intros i s N. pose proof N as (H & _). apply (nested_iff tbl i s H) in N. unfold RT. cbn [decode_ty]. apply reads_nil.
      eapply (reads_bind _ _ (fun _ => read_u 2) (fun _ i => rbind (lift_option (get_without_level tbl i)) _)).
      + apply reads_u_exact. exact H.
      + rewrite N. exists O. reflexivity.
    - intros s U. exact (DT_text a0 tbl TDebug s (or_introl eq_refl) U).
    - intros s U. exact (DT_text a0 tbl TDisplay s (or_intror eq_refl) U).
    - intros s n -> H _. exact (DT_bytes a0 tbl s H).
    - intros s n H _. exact (DT_byte_array tbl s n H).
    - intros lo hi n x Hl C H. unfold RT. cbn [decode_ty].
      apply bitfield_size_spec in C; [|apply Z.div_le_mono; lia]. rewrite C.
      replace (x * 2 ^ (lo / 8 * 8) mod 2 ^ 128) with (Z.shiftl x (lo / 8 * 8) mod u128_mod)
        by (rewrite Z.shiftl_mul_pow2 by (pose proof (Z.div_pos lo 8); lia); reflexivity).
      apply (reads_bind_ret _ _ (fun _ => read_u n) (fun v => AUxx (Z.shiftl v (lo / 8 * 8) mod u128_mod))).
      apply reads_u_exact. now rewrite pow_width.
    - intros i s v d args b N S _ IH. unfold RT. cbn [decode_ty].
      eapply (reads_bind _ _ (fun _ => get_format tbl)); [apply reads_format; exact N|].
      eapply (reads_bind _ _ (fun _ => if has_bar s then get_variant s else ret s) (fun n v => rbind (decode_format tbl n v) _)); [apply reads_variant; exact S|].
      apply (reads_bind_ret _ _ (fun n => decode_format tbl n v) (AFormat v)). exact IH.
    - intros i s es n b L Hn N _ IH. unfold RT. cbn [decode_ty].
      eapply (reads_bind _ _ (fun _ => read_u 4)); [apply reads_u_exact; change (256 ^ Z.of_nat 4) with (2 ^ 32); lia|].
      apply (reads_bind_ret _ _ (fun n' => decode_format_slice tbl (decode_format tbl n') n) AFormatSlice). unfold decode_format_slice.
      eapply (reads_bind _ _ (fun _ => get_format tbl)); [apply reads_format; exact N|]. subst n. rewrite Nat2Z.id. exact IH.
    - intros i s es n b L N _ IH. unfold RT. cbn [decode_ty].
      apply (reads_bind_ret _ _ (fun n' => decode_format_slice tbl (decode_format tbl n') n) AFormatSlice). unfold decode_format_slice.
      eapply (reads_bind _ _ (fun _ => get_format tbl)); [apply reads_format; exact N|]. subst n. rewrite Nat2Z.id. exact IH.
    - intros args b _ IH. unfold RT. cbn [decode_ty].
      apply (reads_bind_ret _ _ (fun n => decode_sequence tbl (decode_format tbl n) (S n)) AFormatSequence). exact IH.
    - exact (DTs_nil tbl).
    - intros t ts a args b bs _ IH1 _ IH2. exact (DTs_cons tbl t ts b bs a args IH1 IH2).
    - intros f tys args b T _ IH. exact (DF_intro a0 tbl f tys ForwardsCompatible b args T IH).
    - intros s. unfold RE. cbn [length decode_elements]. apply reads_ret.
    - intros s v d args b es bs S _ IH1 _ IH2. unfold RE. cbn [length decode_elements].
      eapply (reads_bind _ _ (fun _ => if has_bar s then get_variant s else ret s) (fun n v => rbind (decode_format tbl n v) _)); [apply reads_variant; exact S|].
      eapply (reads_bind _ _ (fun n => decode_format tbl n v) (fun n args => rbind (decode_elements (decode_format tbl n) (length es) s (has_bar s)) _)); [exact IH1|].
      apply (reads_bind_ret _ _ (fun n => decode_elements (decode_format tbl n) (length es) s (has_bar s)) (fun es => (v, args) :: es)). exact IH2.
    - unfold RS. destruct (reads_u_exact 2 0 ltac:(cbn; lia)) as [k0 K0]. exists O. intros fuel _ r. cbn [decode_sequence].
      unfold rbind at 1. change [0; 0] with (le_bytes 2 0). rewrite (K0 k0 (le_n _) r). reflexivity.
    - intros i s args b rest bs Hi N _ [k1 K1] _ [k2 K2]. unfold RS.
      pose proof N as (H & _). apply (nested_iff tbl i s H) in N.
      exists (S (Nat.max k1 k2)). intros fuel L r. cbn [decode_sequence].
      assert (R := reads_u_exact 2 i H). destruct R as [k0 K0]. specialize (K0 k0 (le_n _) ((b ++ bs) ++ r)).
      unfold rbind at 1. rewrite <- app_assoc. rewrite K0. cbn [bind fst snd].
      replace (i =? 0) with false by lia. rewrite N. cbn [lift_option]. rewrite rbind_ret_l. unfold rbind at 1.
      rewrite <- app_assoc, K1 by lia. cbn [bind fst snd]. unfold rbind at 1.
      destruct fuel as [|fuel]; [lia|].
      assert (Q : decode_sequence tbl (decode_format tbl (S fuel)) (S fuel) (bs ++ r) = Ok (rest, r)).
      { pose proof (K2 fuel ltac:(lia) r) as K.
        destruct (fuel_le_sequence tbl (decode_format tbl fuel) (decode_format tbl (S fuel)) 0 0
          (fun f => fuel_le_decode_format tbl fuel (S fuel) f ltac:(lia)) (le_n _) (S fuel) (S fuel) (le_n _) (bs ++ r)) as [X|X]; congruence. }
      rewrite Q. reflexivity.
  Qed.
End Complete.

Lemma wire_decode : forall tbl c r fr, wire_frame tbl fr c -> decode tbl (c ++ r) = Ok (fr, length c).
Proof.
  intros tbl c r fr W.
  assert (R : reads (fun n => decode_fuel tbl n) c fr).
  { destruct W as [i e ts ts_args tb args b Hi L T W]. unfold decode_fuel.
    eapply (reads_bind _ _ (fun _ => read_u 2)); [apply reads_u_exact; exact Hi|].
    eapply (reads_bind _ _ (fun n => match t_timestamp tbl with Some e => _ | None => _ end)).
    - instantiate (1 := (ts, ts_args)). destruct (t_timestamp tbl) as [te|]; destruct ts as [f|]; try contradiction.
      + destruct T as (-> & T). apply (reads_bind_ret _ _ (fun n => decode_format tbl n (e_string te)) (fun a => (Some (e_string te), a))).
        now apply (wire_reads tbl).
      + destruct T as (-> & ->). apply reads_ret.
    - assert (X : reads (fun n => rbind (decode_format tbl n (e_string e)) (fun args0 =>
                  ret (MkFrame (tag_level (e_tag e)) i ts ts_args (e_string e) args0))) b (MkFrame (tag_level (e_tag e)) i ts ts_args (e_string e) args)).
      { apply (reads_bind_ret _ _ (fun n => decode_format tbl n (e_string e)) (MkFrame (tag_level (e_tag e)) i ts ts_args (e_string e))).
        now apply (wire_reads tbl). }
      unfold get_with_level. rewrite L. cbn [lift_option].
      destruct X as [k K]. exists k. intros fuel F q. rewrite rbind_ret_l. apply K; auto. }
  destruct R as [k K]. unfold decode.
  rewrite (decode_fuel_enough tbl (S (length (c ++ r))) (Nat.max k (S (length (c ++ r))))) by lia.
  rewrite K by lia. rewrite app_length. do 2 f_equal. lia.
Qed.

Lemma decode_is_wire : forall tbl b fr n, bytes_ok b ->
  (decode tbl b = Ok (fr, n) <-> (n <= length b)%nat /\ wire_frame tbl fr (firstn n b)).
Proof.
  intros tbl b fr n Hb. split; [now apply decode_wire|]. intros [L W].
  rewrite <- (firstn_skipn n b). rewrite (wire_decode _ _ _ _ W). do 2 f_equal. rewrite firstn_length. lia.
Qed.

Lemma wire_unambiguous : forall tbl f1 f2 c1 c2 r1 r2, wire_frame tbl f1 c1 -> wire_frame tbl f2 c2 ->
  c1 ++ r1 = c2 ++ r2 -> f1 = f2 /\ c1 = c2 /\ r1 = r2.
Proof.
  intros tbl f1 f2 c1 c2 r1 r2 W1 W2 E. pose proof (wire_decode _ _ r1 _ W1) as D1. pose proof (wire_decode _ _ r2 _ W2) as D2.
  rewrite E, D2 in D1. injection D1 as F L. split; [auto|]. assert (c1 = c2).
  { apply (f_equal (firstn (length c1))) in E. rewrite firstn_app_exact in E. rewrite <- L, firstn_app_exact in E. exact E. }
  subst c2. split; auto. now apply app_inv_head in E.
Qed.
