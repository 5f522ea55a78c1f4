(** Examples for the locations of log statements. *)
From Verif Require Import Base Utf8 DecoderModel EnvFilterModel LogFormatModel LocationModel LocationSpec LocationProofs LocationMain.

Definition ex_symbols : list bytes := [lit "s1"; lit "s2"; lit "s3"].
Definition ex_var (linkage : string) (file line addr : Z) : die :=
  Die (KVariable (MkVar (Some statement_name) (Some (lit linkage)) (Some file) (Some line) (Some [None; Some addr]))) [].
Definition ex_files : Z -> option (option bytes * bytes) := fun i =>
  if i =? 1 then Some (Some (lit "src/bin"), lit "main.rs") else
  if i =? 2 then Some (Some (lit "/home/me/.cargo/dep"), lit "lib.rs") else None.

Definition ex_ns (n : string) (ch : list die) : die := Die (KNamespace (Some (lit n))) ch.
Definition ex_root (ch : list die) : die := Die KOther ch.

(** A local variable, a collected statement, a closure and another function. *)
Definition ex_unit : unit_info := MkUnit (Some (lit "/home/me/app/")) (Some ex_files) (Some (ex_root
  [ex_ns "app" [ex_ns "main" [ex_var "s1" 1 12 3; ex_var "gone" 1 13 3; ex_ns "{closure#0}" [ex_var "s2" 1 14 4]];
                Die KOther [Die (KVariable (MkVar (Some (lit "x")) None (Some 1) (Some 9) (Some []))) []]];
   ex_ns "dep" [ex_ns "f" [ex_var "s3" 2 70 7]]])).

Example ex_locations : get_locations ex_symbols [ex_unit] = Ok
  [(7, MkLocation (lit "/home/me/.cargo/dep/lib.rs") 70 (lit "dep::f"));
   (4, MkLocation (lit "/home/me/app/src/bin/main.rs") 14 (lit "app::main::{closure#0}"));
   (3, MkLocation (lit "/home/me/app/src/bin/main.rs") 12 (lit "app::main"))].
Proof. vm_compute. reflexivity. Qed.

(** ** The example is orderly *)
Lemma leaf_no_namespace : forall k, named k = false -> ~ has_namespace (Die k []).
Proof. intros k N H. inversion H; subst; [congruence|contradiction]. Qed.

Lemma ns_not_direct : forall symbols n ch, ~ direct symbols (ex_ns n ch).
Proof. intros symbols n ch D. inversion D; subst. discriminate. Qed.
Lemma other_not_namespace : forall v ch, Forall (fun t => ~ has_namespace t) ch -> ~ has_namespace (Die (KVariable v) ch).
Proof. intros v ch F H. inversion H as [? ? N|? ? ? J K]; subst; [discriminate|]. rewrite Forall_forall in F. eapply F; eauto. Qed.

Example ex_tidy : tidy_unit ex_symbols ex_unit.
Proof.
  intros t E. injection E as <-. cbn [children].
  assert (V : forall k f l a, ~ has_namespace (ex_var k f l a)) by (intros; apply leaf_no_namespace; reflexivity).
  assert (Tv : forall k f l a, tidy ex_symbols (ex_var k f l a)) by (intros; apply T_other; [reflexivity|constructor]).
  split.
  - constructor; [|constructor; [|constructor]].
    + constructor.
      * constructor; [|constructor; [|constructor]].
        -- constructor; [repeat constructor; auto; apply Tv|].
           constructor; [|constructor; [|constructor; constructor]].
           ++ constructor; [intros H; now apply V in H|]. constructor; [intros H; now apply V in H|constructor].
           ++ constructor; [intros H; now apply V in H|constructor].
        -- apply T_other; [reflexivity|]. constructor; [apply leaf_no_namespace; reflexivity|constructor].
      * constructor; [|constructor; constructor]. constructor; [|constructor]. intros _ D.
        inversion D as [|? ? ? _ J Dt]; subst. destruct J as [<-|[]]. inversion Dt as [? ? S|? ? ? _ J _]; subst; [|destruct J].
        destruct S as (S & _). discriminate.
    + constructor; [|constructor; constructor]. constructor; [|constructor].
      constructor; [constructor; [apply Tv|constructor]|constructor; constructor].
  - constructor; [|constructor; constructor]. constructor; [|constructor]. intros _. apply ns_not_direct.
Qed.

(** A statement after the closure of the same function is said to be in the closure. *)
Definition late_unit : unit_info := MkUnit (Some (lit "/home/me/app/")) (Some ex_files) (Some (ex_root
  [ex_ns "app" [ex_ns "main" [ex_var "s1" 1 12 3; ex_ns "{closure#0}" [ex_var "s2" 1 14 4]; ex_var "s3" 1 16 5]]])).

Definition late_var : variable :=
  MkVar (Some statement_name) (Some (lit "s3")) (Some 1) (Some 16) (Some [None; Some 5]).

Theorem late_misplaced : exists us symbols m u ts path v l,
  get_locations symbols us = Ok m /\ In (u, ts) (unit_trees us) /\ inside ts path v /\ statement symbols v /\
  has_address v 5 /\ loc_get 5 m = Some l /\ path = [lit "app"; lit "main"] /\ l_module l = lit "app::main::{closure#0}".
Proof.
  exists [late_unit], ex_symbols. eexists. exists late_unit. eexists. exists [lit "app"; lit "main"], late_var. eexists.
  split; [vm_compute; reflexivity|]. split; [left; reflexivity|]. split.
  { eapply I_namespace; [now left|]. eapply I_namespace; [now left|]. eapply I_here. right. right. left. reflexivity. }
  split.
  { split; [reflexivity|]. split; [exists (lit "s3"); split; [reflexivity|right; right; now left]|]. repeat split; discriminate. }
  split; [exists 1%nat, []; reflexivity|]. split; [vm_compute; reflexivity|]. split; reflexivity.
Qed.

(** Two statements at the same address. *)
Example ex_collision : get_locations ex_symbols [MkUnit None (Some ex_files) (Some (ex_root [ex_var "s1" 1 12 3; ex_var "s2" 1 14 3]))] = Err tt.
Proof. reflexivity. Qed.

Example ex_relative : path_strip_prefix (lit "/home/me/app") (lit "/home/./me//app/src//bin/../main.rs/.") = Some (lit "src//bin/../main.rs").
Proof. reflexivity. Qed.
Example ex_outside : path_strip_prefix (lit "/home/me/app") (lit "/home/me/apple/x.rs") = None.
Proof. reflexivity. Qed.
