(** Property theorems about which specifiers strings stand for. *)

From Coq Require Import List ZArith NArith String Bool Lia.
From Verif Require Import Py Segments Version VersionSets Operators Specifiers Parsers Spec ParseTheorems SpecifierFacts Normal ShapeSpec ShapeFacts.
Import ListNotations.
Open Scope Z_scope.

(** ** C122 *)

(** Exactly the alternatives of conjunctions whose versions can be written. *)
Theorem C122_image : forall q, (exists s, parse_specifier s = Ok q) <-> disjunction q /\ each_op writes q.
Proof. exact parser_image. Qed.
Print Assumptions C122_image.

(** Trees of parsed specifiers are at most two groups deep. *)
Theorem C122_height : forall s q, parse_specifier s = Ok q -> (height q <= 2)%nat.
Proof. exact (fun s q H => disjunction_height q (proj1 (proj1 (parser_image q) (ex_intro _ s H)))). Qed.
Print Assumptions C122_height.

(** So are those made from version sets. *)
Theorem C122_sets : forall a q, canonical a -> version_set_to_specifier a = Ok q ->
  q = Never /\ is_empty a = true \/ q = Always /\ is_universal a = true \/ disjunction q.
Proof. exact set_shape. Qed.
Print Assumptions C122_sets.

(** Simplified specifiers have a string of their own unless nothing or
    everything is accepted, or a range ends at a local version. *)
Theorem C122_simplify : forall x s q, parse_specifier x = Ok s -> simplify s = Ok q ->
  (q = Never \/ q = Always \/ disjunction q)
  /\ ((exists y, parse_specifier y = Ok q) <->
      q <> Never /\ q <> Always /\ forall t v, leaf t v q -> v_local v <> None -> t = DOUBLE_EQUAL \/ t = NOT_EQUAL).
Proof. exact simplified_shape. Qed.
Print Assumptions C122_simplify.

Definition ver (r : list Z) : version := Version 0 r None None None None.

Example C122_case :
  let q := AnyOf [AllOf [One GREATER_OR_EQUAL (ver [1; 2]); One LESS (ver [2; 0])]; One WILDCARD_DOUBLE_EQUAL (ver [3; 0])] in
  parse_specifier (lit ">=1.2,<2.0||==3.*") = Ok q /\ disjunction q /\ each_op writes q /\ height q = 2%nat.
Proof.
  set (q := AnyOf _). assert (E : parse_specifier (lit ">=1.2,<2.0||==3.*") = Ok q) by (vm_compute; reflexivity).
  split; [exact E|]. destruct (proj1 (parser_image q) (ex_intro _ _ E)). split; [assumption|]. split; [assumption|reflexivity].
Qed.

(** "^1.2" has a simplified form with a string, "==1.0+a, ==1.0" simplifies to
    nothing, and "!=1+a, !=2" to ranges ending at a local version. *)
Example C122_case_simplify :
  (exists s, parse_specifier (lit "^1.2") = Ok s /\ simplify s = Ok (AllOf [One GREATER_OR_EQUAL (ver [1; 2]); One LESS (ver [2; 0])])
    /\ parse_specifier (lit ">=1.2,<2.0") = Ok (AllOf [One GREATER_OR_EQUAL (ver [1; 2]); One LESS (ver [2; 0])]))
  /\ (exists s, parse_specifier (lit "==1.0+a, ==1.0") = Ok s /\ simplify s = Ok Never)
  /\ (exists s q, parse_specifier (lit "!=1+a, !=2") = Ok s /\ simplify s = Ok q
       /\ leaf LESS (Version 0 [1] None None None (Some [LStr (lit "a")])) q /\ forall y, parse_specifier y <> Ok q).
Proof.
  split; [eexists; split; [vm_compute; reflexivity|split; [vm_compute; reflexivity|vm_compute; reflexivity]]|].
  split; [eexists; split; [vm_compute; reflexivity|vm_compute; reflexivity]|].
  assert (A : exists s q, parse_specifier (lit "!=1+a, !=2") = Ok s /\ simplify s = Ok q
    /\ leaf LESS (Version 0 [1] None None None (Some [LStr (lit "a")])) q).
  { do 2 eexists. split; [vm_compute; reflexivity|]. split; [vm_compute; reflexivity|]. eapply leaf_any; [left; reflexivity|]. constructor. }
  destruct A as (s & q & S & Q & L). exists s, q. split; [exact S|]. split; [exact Q|]. split; [exact L|].
  intros y Y. destruct (simplified_shape _ s q S Q) as [_ [H _]]. destruct (H (ex_intro _ y Y)) as (_ & _ & K).
  destruct (K _ _ L ltac:(discriminate)); discriminate.
Qed.
