(** Property theorems about the strings of specifiers without their parentheses. *)

From Coq Require Import List ZArith NArith String Bool.
From Verif Require Import Py Segments Version Operators Specifiers Parsers Spec SpecifierFacts ParenSpec ParenFacts.
Import ListNotations.
Open Scope Z_scope.

(** ** C121 *)

(** Parentheses are all that keeps short strings from parsing back. *)
Theorem C121_short : forall s p, parse_specifier s = Ok p -> parse_specifier (unparenthesised (spec_to_short_string p)) = Ok p.
Proof. exact short_unparenthesised. Qed.
Print Assumptions C121_short.

(** For long strings, it is parentheses and the word "candidate". *)
Theorem C121_long : forall s p, parse_specifier s = Ok p ->
  parse_specifier (unparenthesised (spec_to_string p)) = Ok p <-> each_op (fun _ => no_candidate) p.
Proof. exact long_unparenthesised. Qed.
Print Assumptions C121_long.

(** The parentheses tell nothing the rest does not. *)
Theorem C121_inj : forall s t p q, parse_specifier s = Ok p -> parse_specifier t = Ok q ->
  unparenthesised (spec_to_short_string p) = unparenthesised (spec_to_short_string q) -> p = q.
Proof. exact short_inj. Qed.
Print Assumptions C121_inj.

Example C121_case :
  let p := AnyOf [AllOf [One GREATER_OR_EQUAL (Version 0 [1; 0; 0] None None None None); One LESS (Version 0 [2; 0; 0] None None None None)]; One WILDCARD_DOUBLE_EQUAL (Version 0 [3; 1; 0] None None None None)] in
  parse_specifier (lit ">=1.0.0, <2.0.0 | ==3.1.*") = Ok p
  /\ spec_to_string p = lit "((>= 1.0.0, < 2.0.0) || == 3.1.*)"
  /\ unparenthesised (spec_to_string p) = lit ">= 1.0.0, < 2.0.0 || == 3.1.*"
  /\ parse_specifier (unparenthesised (spec_to_string p)) = Ok p
  /\ unparenthesised (spec_to_short_string p) = lit ">=1.0.0,<2.0.0||==3.1.*"
  /\ each_op (fun _ => no_candidate) p.
Proof. repeat split; try (vm_compute; reflexivity). all: intros u U; discriminate U. Qed.
