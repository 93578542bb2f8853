(** Theorems about the work of matching: C96. *)

From Coq Require Import List ZArith NArith String Bool Arith.
From Verif Require Import Py Regex Patterns Parsers Steps StepFacts.
Import ListNotations.
Local Open Scope nat_scope.

(** ** C96 *)

Theorem C96_same_answer r s : fst (fullmatch_steps r s) = true <-> fullmatch r s <> None.
Proof. exact (fullmatch_found r s). Qed.
Print Assumptions C96_same_answer.

Theorem C96_patterns : exists K, forall r s,
  In r [TAG; PUBLIC_VERSION; VERSION; WILDCARD_VERSION; WILDCARD_SPECIFICATION; ORDER_SPECIFICATION; CARET_SPECIFICATION; TILDE_SPECIFICATION; EQUAL_SPECIFICATION] ->
  matching r s <= K * (List.length s + 1).
Proof. exact matching_linear. Qed.
Print Assumptions C96_patterns.

Theorem C96_version : exists K, forall s, version_matching s <= K * (List.length s + 1).
Proof. exact version_linear. Qed.
Print Assumptions C96_version.

Theorem C96_clause : exists K, forall s, single_matching s <= K * (List.length s + 1).
Proof. exact single_linear. Qed.
Print Assumptions C96_clause.

Theorem C96_specification : exists K, forall s, specifier_matching s <= K * (List.length s + 1).
Proof. exact specifier_linear. Qed.
Print Assumptions C96_specification.

(** The count is one that tells patterns apart: [(a+)+] is not linear. *)
Theorem C96_not_all : forall n, 2 ^ n <= matching nested (repeat 97%N n ++ [98%N]).
Proof. exact nested_exponential. Qed.
Print Assumptions C96_not_all.

(** Nothing matches the second and the third string, so that every way of
    reading them is tried; the third is twice as long. *)
Example C96_case :
  matching VERSION (lit "1!1.2.3-rc.1.post2.dev3+ab.12") = 142
  /\ matching VERSION (lit "1.2.3.4.5.6.7.8.9?") = 914
  /\ matching VERSION (lit "1.2.3.4.5.6.7.8.9.1.2.3.4.5.6.7.8.9?") = 1850
  /\ specifier_matching (lit "^1.2.3 || >= 2.0, < 3.x") = 656
  /\ fullmatch VERSION (lit "1.2.3.4.5.6.7.8.9?") = None.
Proof. vm_compute. repeat (split; [reflexivity|]). reflexivity. Qed.
