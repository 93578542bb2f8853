(** C118: what an accepted version tells about later ones. *)

From Coq Require Import List ZArith NArith String Bool Lia.
From Verif Require Import Py Segments Version Operators Parsers Spec OrderFacts NestSpec CarrySpec CarryFacts.
Import ListNotations.
Open Scope Z_scope.

(** If [t v] accepts [w], it accepts all that [u w] accepts exactly when its
    bound increases the same part or an earlier one, and [w] is not already an
    early version of its bound with a bound beyond that. *)
Theorem C118_carried v w t u p q : ordinary v -> ordinary w -> breaks v t p -> breaks w u q -> op_matches t w v = Ok true ->
  covers t v u w <-> at_or_above p q /\ (q = Itself \/ unchanged p v w).
Proof. exact (carried v w t u p q). Qed.
Print Assumptions C118_carried.

Theorem C118_caret v w : ordinary v -> ordinary w -> op_matches CARET w v = Ok true ->
  covers CARET v CARET w <->
  part (v_release w) 0 = part (v_release v) 0
  /\ ~ (final w /\ (parts w < Nat.min 3 (parts v))%nat /\ forall n, part (v_release w) n = 0).
Proof. exact (caret_carried v w). Qed.
Print Assumptions C118_caret.

Theorem C118_tilde v w : ordinary v -> ordinary w -> op_matches TILDE w v = Ok true ->
  covers TILDE v TILDE w <-> ~ (final w /\ parts w = 1%nat /\ (1 < parts v)%nat).
Proof. exact (tilde_carried v w). Qed.
Print Assumptions C118_tilde.

Theorem C118_tilde_equal v w : ordinary v -> ordinary w -> (2 <= parts w)%nat -> op_matches TILDE_EQUAL w v = Ok true ->
  covers TILDE_EQUAL v TILDE_EQUAL w <-> (parts v <= parts w)%nat /\ part (v_release w) (parts v - 2) = part (v_release v) (parts v - 2).
Proof. exact (tilde_equal_carried v w). Qed.
Print Assumptions C118_tilde_equal.

(** Nested or apart. *)
Theorem C118_caret_groups v w : ordinary v -> ordinary w -> final v -> final w -> (3 <= parts v)%nat -> (3 <= parts w)%nat -> grouped CARET v w.
Proof. exact (caret_grouped v w). Qed.
Print Assumptions C118_caret_groups.

Theorem C118_tilde_groups v w : ordinary v -> ordinary w -> (2 <= parts v)%nat -> (2 <= parts w)%nat -> grouped TILDE v w.
Proof. exact (tilde_grouped v w). Qed.
Print Assumptions C118_tilde_groups.

Theorem C118_tilde_equal_groups v w : ordinary v -> ordinary w -> final v -> final w -> (2 <= parts v)%nat -> parts v = parts w -> grouped TILDE_EQUAL v w.
Proof. exact (tilde_equal_grouped v w). Qed.
Print Assumptions C118_tilde_equal_groups.

Definition rel (r : list Z) : version := bare 0 r.
Definition early (r : list Z) : version := Version 0 r (Some (Tag (lit "alpha") 1)) None None None.

Ltac ord := split; [reflexivity|repeat constructor; cbn; lia].

Example C118_caret_case : op_matches CARET (rel [1; 4]) (rel [1; 2; 3]) = Ok true /\ covers CARET (rel [1; 2; 3]) CARET (rel [1; 4])
  /\ op_matches CARET (early [2; 0]) (rel [1; 2; 3]) = Ok true /\ op_matches CARET (rel [2; 5]) (early [2; 0]) = Ok true /\ op_matches CARET (rel [2; 5]) (rel [1; 2; 3]) = Ok false
  /\ op_matches CARET (early [0; 3]) (rel [0; 2; 3]) = Ok true /\ covers CARET (rel [0; 2; 3]) CARET (early [0; 3])
  /\ op_matches CARET (rel [0]) (rel [0; 0]) = Ok true /\ op_matches CARET (rel [0; 5]) (rel [0]) = Ok true /\ op_matches CARET (rel [0; 5]) (rel [0; 0]) = Ok false.
Proof.
  split; [vm_compute; reflexivity|]. split; [apply C118_caret; [ord|ord|vm_compute; reflexivity|]; split; [reflexivity|intros (_ & _ & K); discriminate (K 0%nat)]|].
  do 4 (split; [vm_compute; reflexivity|]). split; [apply C118_caret; [ord|ord|vm_compute; reflexivity|]; split; [reflexivity|intros ([K _] & _); discriminate K]|].
  repeat split; vm_compute; reflexivity.
Qed.

Example C118_tilde_case : op_matches TILDE (rel [1; 2; 9]) (rel [1; 2; 3]) = Ok true /\ covers TILDE (rel [1; 2; 3]) TILDE (rel [1; 2; 9])
  /\ op_matches TILDE (early [1; 3]) (rel [1; 2; 3]) = Ok true /\ covers TILDE (rel [1; 2; 3]) TILDE (early [1; 3])
  /\ op_matches TILDE (rel [1]) (rel [1; 0]) = Ok true /\ ~ covers TILDE (rel [1; 0]) TILDE (rel [1])
  /\ op_matches TILDE_EQUAL (rel [1; 2; 9; 1]) (rel [1; 2; 3]) = Ok true /\ covers TILDE_EQUAL (rel [1; 2; 3]) TILDE_EQUAL (rel [1; 2; 9; 1])
  /\ op_matches TILDE_EQUAL (early [1; 3; 0]) (rel [1; 2; 3]) = Ok true /\ ~ covers TILDE_EQUAL (rel [1; 2; 3]) TILDE_EQUAL (early [1; 3; 0])
  /\ op_matches TILDE_EQUAL (rel [1; 0]) (rel [1; 0; 0]) = Ok true /\ ~ covers TILDE_EQUAL (rel [1; 0; 0]) TILDE_EQUAL (rel [1; 0]).
Proof.
  split; [vm_compute; reflexivity|]. split; [apply C118_tilde; [ord|ord|vm_compute; reflexivity|]; intros (_ & K & _); discriminate K|].
  split; [vm_compute; reflexivity|]. split; [apply C118_tilde; [ord|ord|vm_compute; reflexivity|]; intros (_ & K & _); discriminate K|].
  split; [vm_compute; reflexivity|]. split; [rewrite C118_tilde; [|ord|ord|vm_compute; reflexivity]; intros K; apply K; repeat split; repeat constructor|].
  split; [vm_compute; reflexivity|]. split; [apply C118_tilde_equal; [ord|ord|cbn; lia|vm_compute; reflexivity|]; split; [cbn; lia|reflexivity]|].
  split; [vm_compute; reflexivity|]. split; [rewrite C118_tilde_equal; [|ord|ord|cbn; lia|vm_compute; reflexivity]; intros [_ K]; discriminate K|].
  split; [vm_compute; reflexivity|]. rewrite C118_tilde_equal; [|ord|ord|cbn; lia|vm_compute; reflexivity]. intros [K _]. cbn in K. lia.
Qed.

(** Different operators, and releases with fewer parts that overlap without being nested. *)
Example C118_groups_case : breaks (rel [1; 2; 3]) CARET (Increased 0) /\ breaks (rel [1; 4; 0]) TILDE (Increased 1) /\ covers CARET (rel [1; 2; 3]) TILDE (rel [1; 4; 0])
  /\ grouped CARET (rel [0; 2; 3]) (rel [0; 2; 5]) /\ op_matches CARET (rel [0; 2; 7]) (rel [0; 2; 3]) = Ok true /\ op_matches CARET (rel [0; 2; 7]) (rel [0; 2; 5]) = Ok true
  /\ grouped TILDE (rel [1; 2]) (rel [1; 2; 5]) /\ op_matches TILDE (rel [1; 2; 6]) (rel [1; 2]) = Ok true /\ op_matches TILDE (rel [1; 2; 6]) (rel [1; 2; 5]) = Ok true
  /\ grouped TILDE_EQUAL (rel [1; 2; 0]) (rel [1; 2; 5]) /\ op_matches TILDE_EQUAL (rel [1; 2; 6]) (rel [1; 2; 0]) = Ok true /\ op_matches TILDE_EQUAL (rel [1; 2; 6]) (rel [1; 2; 5]) = Ok true.
Proof.
  assert (B : breaks (rel [1; 2; 3]) CARET (Increased 0)) by (apply (caret_final (rel [1; 2; 3])); split; reflexivity).
  assert (C : breaks (rel [1; 4; 0]) TILDE (Increased 1)) by (apply (tilde_final (rel [1; 4; 0])); split; reflexivity).
  split; [exact B|]. split; [exact C|]. split; [apply (C118_carried (rel [1; 2; 3]) (rel [1; 4; 0]) CARET TILDE (Increased 0) (Increased 1)); [ord|ord|exact B|exact C|vm_compute; reflexivity|]; split; [cbn; lia|right; reflexivity]|].
  split; [apply C118_caret_groups; [ord|ord|split; reflexivity|split; reflexivity|cbn; lia|cbn; lia]|]. do 2 (split; [vm_compute; reflexivity|]).
  split; [apply C118_tilde_groups; [ord|ord|cbn; lia|cbn; lia]|]. do 2 (split; [vm_compute; reflexivity|]).
  split; [apply C118_tilde_equal_groups; [ord|ord|split; reflexivity|split; reflexivity|cbn; lia|reflexivity]|]. split; vm_compute; reflexivity.
Qed.
