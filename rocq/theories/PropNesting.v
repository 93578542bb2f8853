(** Theorems about how the operators contain one another: C106. *)

From Coq Require Import List ZArith NArith String Bool Lia.
From Verif Require Import Py Segments Version Operators Specifiers Spec OrderFacts NestSpec NestFacts.
Import ListNotations.
Open Scope Z_scope.

(** ** C106 How the operators contain one another *)

(** Of two of the operators that have an upper bound, with the same version,
    one accepts all that the other accepts exactly when its bound increases the
    same part of the release or an earlier one. *)
Theorem C106_nested w t u p q : ordinary w -> breaks w t p -> breaks w u q ->
  (forall v, op_matches t v w = Ok true -> op_matches u v w = Ok true) <-> at_or_above q p.
Proof. exact (nested w t u p q). Qed.
Print Assumptions C106_nested.

(** They all have such a place, except the wildcard that accepts everything. *)
Theorem C106_places t w : op_made t w -> bounded t -> (t = WILDCARD_EQUAL \/ t = WILDCARD_DOUBLE_EQUAL -> ~ wildcard_any w) ->
  exists p, breaks w t p.
Proof. exact (breaks_exists t w). Qed.
Print Assumptions C106_places.

(** [~= 1.2.3] is [>= 1.2.3] and [== 1.2.*]. *)
Theorem C106_compatible w v : ordinary w -> (2 <= List.length (v_release w))%nat -> final w ->
  op_matches TILDE_EQUAL v w = Ok true
  <-> op_matches GREATER_OR_EQUAL v w = Ok true
      /\ op_matches WILDCARD_DOUBLE_EQUAL v (bare (v_epoch w) (removelast (v_release w) ++ [0])) = Ok true.
Proof. exact (compatible_release w v). Qed.
Print Assumptions C106_compatible.

(** What is greater than an accepted version is accepted by [>] and [>=], *)
Theorem C106_up t w u v : t = GREATER \/ t = GREATER_OR_EQUAL -> v_le u v = true ->
  op_matches t u w = Ok true -> op_matches t v w = Ok true.
Proof. exact (op_up t w u v). Qed.
Print Assumptions C106_up.

(** what is less by [<] and [<=], *)
Theorem C106_down t w u v : t = LESS \/ t = LESS_OR_EQUAL -> v_le u v = true ->
  op_matches t v w = Ok true -> op_matches t u w = Ok true.
Proof. exact (op_down t w u v). Qed.
Print Assumptions C106_down.

(** what is between two accepted versions by all but the negated operators, *)
Theorem C106_convex t w : op_made t w -> t <> NOT_EQUAL -> t <> WILDCARD_NOT_EQUAL ->
  convex (fun v => op_matches t v w = Ok true).
Proof. exact (op_convex t w). Qed.
Print Assumptions C106_convex.

(** which reject what is between two rejected versions. *)
Theorem C106_gap t w : op_made t w -> t = NOT_EQUAL \/ t = WILDCARD_NOT_EQUAL ->
  convex (fun v => op_matches t v w = Ok false).
Proof. exact (op_gap t w). Qed.
Print Assumptions C106_gap.

(** So do conjunctions of them, however nested. *)
Theorem C106_all s : spec_made s -> no_any s ->
  each_op (fun t _ => t <> NOT_EQUAL /\ t <> WILDCARD_NOT_EQUAL) s ->
  convex (fun v => accepts s v = Ok true).
Proof. exact (accepts_convex s). Qed.
Print Assumptions C106_all.

(** Examples. *)

Definition r3 (a b c : Z) : version := bare 0 [a; b; c].

(** [~= 0.1.2] and [~ 0.1.2] and [^ 0.1.2] are the same; for [1.1.2] the last
    is wider, for [0.0.2] narrower. *)
Example C106_nested_ex :
  ordinary (r3 0 1 2) /\ breaks (r3 0 1 2) CARET (Increased 1) /\ breaks (r3 0 1 2) TILDE (Increased 1)
  /\ breaks (r3 0 1 2) TILDE_EQUAL (Increased 1) /\ breaks (r3 1 1 2) CARET (Increased 0) /\ breaks (r3 0 0 2) CARET (Increased 2)
  /\ breaks (r3 0 0 2) TILDE (Increased 1)
  /\ op_matches TILDE (r3 0 0 3) (r3 0 0 2) = Ok true /\ op_matches CARET (r3 0 0 3) (r3 0 0 2) = Ok false
  /\ op_matches TILDE (r3 1 2 3) (r3 1 1 2) = Ok false /\ op_matches CARET (r3 1 2 3) (r3 1 1 2) = Ok true.
Proof.
  repeat (match goal with |- _ /\ _ => split end).
  1: repeat constructor; lia.
  1: exact (caret_final (r3 0 1 2) (conj eq_refl eq_refl)).
  1: exact (tilde_final (r3 0 1 2) (conj eq_refl eq_refl)).
  1: exact (tilde_equal (r3 0 1 2) 1 eq_refl).
  1: exact (caret_final (r3 1 1 2) (conj eq_refl eq_refl)).
  1: exact (caret_final (r3 0 0 2) (conj eq_refl eq_refl)).
  1: exact (tilde_final (r3 0 0 2) (conj eq_refl eq_refl)).
  all: vm_compute; reflexivity.
Qed.

Example C106_places_ex : op_made TILDE_EQUAL (r3 1 2 3) /\ bounded TILDE_EQUAL /\ ~ wildcard_any (r3 1 2 3).
Proof. split; [split; [reflexivity | cbn; lia] | split; [exact I | intros (_ & _ & H); discriminate H]]. Qed.

Example C106_compatible_ex : ordinary (r3 1 2 3) /\ final (r3 1 2 3)
  /\ op_matches TILDE_EQUAL (r3 1 2 4) (r3 1 2 3) = Ok true /\ op_matches WILDCARD_DOUBLE_EQUAL (r3 1 2 4) (r3 1 2 0) = Ok true
  /\ op_matches TILDE_EQUAL (r3 1 3 0) (r3 1 2 3) = Ok false /\ op_matches WILDCARD_DOUBLE_EQUAL (r3 1 3 0) (r3 1 2 0) = Ok false.
Proof.
  repeat (match goal with |- _ /\ _ => split end); try (vm_compute; reflexivity).
  all: repeat constructor; lia.
Qed.

Example C106_up_ex : v_le (r3 1 2 4) (r3 2 0 0) = true /\ op_matches GREATER (r3 1 2 4) (r3 1 2 3) = Ok true
  /\ op_matches LESS (r3 2 0 0) (r3 3 0 0) = Ok true.
Proof. vm_compute. repeat split. Qed.

(** The two negated operators do have gaps. *)
Example C106_gap_ex : op_made NOT_EQUAL (r3 1 2 3)
  /\ op_matches NOT_EQUAL (r3 1 2 2) (r3 1 2 3) = Ok true /\ op_matches NOT_EQUAL (r3 1 2 3) (r3 1 2 3) = Ok false
  /\ op_matches NOT_EQUAL (r3 1 2 4) (r3 1 2 3) = Ok true.
Proof. split; [split; [reflexivity | discriminate] | vm_compute; repeat split]. Qed.

Example C106_all_ex :
  let s := AllOf [One GREATER (r3 1 2 3); AllOf [One LESS (r3 3 0 0); One CARET (r3 1 0 0)]] in
  spec_made s /\ no_any s /\ each_op (fun t _ => t <> NOT_EQUAL /\ t <> WILDCARD_NOT_EQUAL) s
  /\ accepts s (r3 1 3 0) = Ok true /\ accepts s (r3 2 0 0) = Ok false.
Proof.
  cbv zeta. split; [| split; [| split; [| split; vm_compute; reflexivity]]].
  - cbn. repeat split; try discriminate; auto.
  - cbn. auto.
  - cbn. repeat split; discriminate.
Qed.
