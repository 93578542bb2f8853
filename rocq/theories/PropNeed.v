(** C114: simplified specifiers mention only versions that any specifier of the same meaning must mention. *)

From Coq Require Import List ZArith NArith String Bool Lia.
From Verif Require Import Py Segments Version VersionSets Operators Specifiers Parsers Spec SizeSpec NeedSpec Normal NeedFacts.
Import ListNotations.
Local Open Scope nat_scope.
Local Opaque depth.

(** Of a canonical set, every bound is needed. *)
Theorem C114_bounds a s : canonical a -> Forall worded (bounds a) -> spec_made s -> each_op plain_op s -> each_op (fun _ w => worded w) s ->
  (forall v, worded v -> accepts s v = Ok (contains a v)) ->
  forall u, In u (bounds a) -> exists t w x, leaf t w s /\ op_bound t w x /\ v_eq u x = true.
Proof. exact (needed a s). Qed.
Print Assumptions C114_bounds.

Theorem C114_simplify s s' u : spec_made s -> each_op plain_op s -> each_op (fun _ w => worded w) s ->
  spec_made u -> each_op plain_op u -> each_op (fun _ w => worded w) u ->
  simplify s = Ok s' -> (forall v, worded v -> accepts s v = accepts u v) ->
  clauses s' <= turns u /\ forall t w, leaf t w s' -> exists t' w' x, leaf t' w' u /\ op_bound t' w' x /\ v_eq w x = true.
Proof. exact (simplify_needed s s' u). Qed.
Print Assumptions C114_simplify.

Theorem C114_parsed x y s s' u : parse_specifier x = Ok s -> parse_specifier y = Ok u -> simplify s = Ok s' -> (forall v, worded v -> accepts s v = accepts u v) ->
  clauses s' <= turns u /\ forall t w, leaf t w s' -> exists t' w' z, leaf t' w' u /\ op_bound t' w' z /\ v_eq w z = true.
Proof. exact (parsed_needed x y s s' u). Qed.
Print Assumptions C114_parsed.

(** No specifier made of [<], [<=], [>] and [>=] is shorter, and none without shorthand
    names fewer versions. *)
Theorem C114_shortest x y s s' u : parse_specifier x = Ok s -> parse_specifier y = Ok u -> simplify s = Ok s' -> (forall v, worded v -> accepts s v = accepts u v) ->
  ((forall t w, leaf t w u -> In t [LESS; LESS_OR_EQUAL; GREATER; GREATER_OR_EQUAL]) -> clauses s' <= clauses u)
  /\ ((forall t w, leaf t w u -> compares t) -> forall t w, leaf t w s' -> exists t' w', leaf t' w' u /\ v_eq w w' = true).
Proof. exact (parsed_shortest x y s s' u). Qed.
Print Assumptions C114_shortest.

(** The second specifier is longer than it has to be; with [!=] a specifier can be half
    as long as the simplified one, which is the least that [turns] allows. *)
Example C114_case : (exists s u s', parse_specifier (lit "^1.2") = Ok s /\ parse_specifier (lit ">=1.2, <1.9 || >=1.9, <2.0.0") = Ok u /\ simplify s = Ok s'
    /\ (forall v, worded v -> accepts s v = accepts u v) /\ clauses s' = 2 /\ turns s = 2 /\ turns u = 4 /\ clauses u = 4)
  /\ exists s s', parse_specifier (lit "!=1, !=2") = Ok s /\ simplify s = Ok s' /\ clauses s = 2 /\ turns s = 4 /\ clauses s' = 4.
Proof.
  split.
  - do 3 eexists. split; [vm_compute; reflexivity|]. split; [vm_compute; reflexivity|]. split; [vm_compute; reflexivity|]. split; [|now vm_compute].
    apply (proj1 (parsed_normal_form (lit "^1.2") (lit ">=1.2, <1.9 || >=1.9, <2.0.0") _ _ _ _ ltac:(vm_compute; reflexivity) ltac:(vm_compute; reflexivity) ltac:(vm_compute; reflexivity) ltac:(vm_compute; reflexivity))).
    vm_compute. reflexivity.
  - do 2 eexists. split; [vm_compute; reflexivity|]. split; [vm_compute; reflexivity|]. now vm_compute.
Qed.
