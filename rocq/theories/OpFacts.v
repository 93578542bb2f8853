(** Operator types told apart by what they match. *)

From Coq Require Import List ZArith NArith String Bool Lia.
From Verif Require Import Py Segments Version VersionSets Operators Spec CacheFacts.
Import ListNotations.
Open Scope Z_scope.

Definition trials : list (version * version) :=
  let w := bare 0 [1; 2; 3; 4] in
  let p := Version 0 [1; 2; 3] None (Some (Tag (lit "post") 1)) None None in
  map (fun v => (v, w)) [w; bare 0 [1; 2; 3; 3]; bare 0 [1; 2; 3; 5]; bare 0 [1; 2; 5]; bare 0 [1; 5]; bare 0 [2; 5]]
  ++ map (fun v => (v, p)) [p; bare 0 [1; 2; 3]; bare 0 [1; 2; 5]; bare 0 [1; 5]; bare 0 [2; 5]].

Definition differ (t u : op_type) (p : version * version) : bool :=
  op_valid t (snd p) && op_valid u (snd p) &&
  match op_matches t (fst p) (snd p), op_matches u (fst p) (snd p) with Ok a, Ok b => xorb a b | _, _ => false end.

Lemma trials_tell t u : op_eqb t u = false -> existsb (differ t u) trials = true.
Proof. destruct t, u; intros H; try discriminate H; vm_compute; reflexivity. Qed.

Lemma bare_wf r : r <> [] -> forallb (fun x => 0 <=? x) r = true -> wf (bare 0 r).
Proof.
  intros N F. split; [cbn; lia|]. split; [exact N|]. split; [|repeat split].
  apply Forall_forall. intros x X. rewrite forallb_forall in F. apply F in X. lia.
Qed.

Lemma post_wf : wf (Version 0 [1; 2; 3] None (Some (Tag (lit "post") 1)) None None).
Proof. split; [cbn; lia|]. split; [discriminate|]. split; [repeat constructor; lia|]. repeat split. cbn. lia. Qed.

Lemma told_apart t u : op_eqb t u = false ->
  exists v w a, wf v /\ wf w /\ op_valid t w = true /\ op_valid u w = true /\ op_matches t v w = Ok a /\ op_matches u v w = Ok (negb a).
Proof.
  intros H. apply trials_tell in H. apply existsb_exists in H as ([v w] & I & D). unfold differ in D. cbn [fst snd] in D.
  apply andb_true_iff in D as [D E]. apply andb_true_iff in D as [D F].
  assert (W : Forall (fun p => wf (fst p) /\ wf (snd p)) trials).
  { unfold trials. cbv zeta. cbn [map app]. repeat (apply Forall_cons; [split; cbn [fst snd]; first [exact post_wf | apply bare_wf; [discriminate|reflexivity]]|]). apply Forall_nil. }
  rewrite Forall_forall in W. destruct (W _ I) as [Wv Ww]. cbn [fst snd] in *.
  destruct (op_matches t v w) as [a|] eqn:X; [|discriminate]. destruct (op_matches u v w) as [b|] eqn:Y; [|discriminate].
  exists v, w, a. do 5 (split; [assumption || reflexivity|]). f_equal. destruct a, b; auto; discriminate.
Qed.

Lemma op_same t u : op_eqb t u = true -> op_matches t = op_matches u /\ op_translate t = op_translate u /\ forall w, op_valid t w = op_valid u w.
Proof. destruct t, u; intros H; try discriminate H; auto. Qed.

Theorem op_eqb_means t u : op_eqb t u = true <-> forall v w, wf v -> wf w -> op_valid t w = true -> op_valid u w = true -> op_matches t v w = op_matches u v w.
Proof.
  split.
  - intros H v w _ _ _ _. apply op_same in H as [-> _]. reflexivity.
  - intros H. destruct (op_eqb t u) eqn:E; auto. apply told_apart in E as (v & w & a & Wv & Ww & Vt & Vu & M & N).
    specialize (H v w Wv Ww Vt Vu). rewrite M, N in H. destruct a; discriminate.
Qed.
