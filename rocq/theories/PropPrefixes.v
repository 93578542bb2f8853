(** Property theorems about which wildcards accept a version. *)

From Coq Require Import List ZArith NArith String Bool Lia.
From Verif Require Import Py Segments Version VersionSets Operators Specifiers Parsers Spec OrderFacts PrefixSpec PrefixFacts.
Import ListNotations.
Open Scope Z_scope.

(** ** C123 *)

(** The one with the first parts of the release, or the one before it. *)
Theorem C123_which e p v : stem p -> ordinary v ->
  selects e p v <-> v_epoch v = e /\ (~ opening v (List.length p) /\ starts_with (v_release v) p
                                      \/ opening v (List.length p) /\ after (v_release v) p).
Proof. exact (selects_which e p v). Qed.
Print Assumptions C123_which.

(** At most one of each length. *)
Theorem C123_unique e e' p q v : stem p -> stem q -> ordinary v -> List.length p = List.length q ->
  selects e p v -> selects e' q v -> e = e' /\ p = q.
Proof. exact (selects_unique e e' p q v). Qed.
Print Assumptions C123_unique.

(** With a wildcard, all shorter ones. *)
Theorem C123_shorter e p v k : stem p -> ordinary v -> (0 < k)%nat -> selects e p v -> selects e (firstn k p) v.
Proof. exact (selects_shorter e p v k). Qed.
Print Assumptions C123_shorter.

(** Versions that no wildcard of a length accepts. *)
Theorem C123_covered v k : ordinary v -> (0 < k)%nat ->
  (exists e p, stem p /\ List.length p = k /\ selects e p v) <-> ~ (opening v k /\ part (v_release v) (k - 1) = 0).
Proof. exact (selects_covered v k). Qed.
Print Assumptions C123_covered.

(** The other ways to write them. *)
Theorem C123_operators e p v : p <> [] ->
  (op_matches TILDE_EQUAL v (bare e (p ++ [0])) = Ok true <-> selects e p v)
  /\ ((List.length p <= 2)%nat -> op_matches TILDE v (bare e p) = Ok true <-> selects e p v)
  /\ (breaking_index p = (List.length p - 1)%nat -> op_matches CARET v (bare e p) = Ok true <-> selects e p v).
Proof. exact (same_operators e p v). Qed.
Print Assumptions C123_operators.

(** 1.4.0-alpha.1 belongs to 1.3.*, 1.4.1-alpha.1 to 1.4.*, and 2.0.0-alpha.1 to
    1.* but to none of two parts. *)
Definition first (r : list Z) : version := Version 0 r (Some (Tag (lit "alpha") 1)) None None None.

Example C123_case :
  parse_specifier (lit "==1.3.*") = Ok (One WILDCARD_DOUBLE_EQUAL (bare 0 ([1; 3] ++ [0])))
  /\ stem [1; 3] /\ ordinary (first [1; 4; 0]) /\ opening (first [1; 4; 0]) 2 /\ after [1; 4; 0] [1; 3] /\ selects 0 [1; 3] (first [1; 4; 0])
  /\ ~ opening (first [1; 4; 1]) 2 /\ selects 0 [1; 4] (first [1; 4; 1]) /\ selects 0 (firstn 1 [1; 4]) (first [1; 4; 1])
  /\ ordinary (first [2; 0; 0]) /\ selects 0 [1] (first [2; 0; 0]) /\ opening (first [2; 0; 0]) 2 /\ part [2; 0; 0] 1 = 0.
Proof.
  split; [vm_compute; reflexivity |]. split; [split; [discriminate | repeat constructor; lia] |].
  assert (Z : forall a n, (2 <= n)%nat -> part [a; 4; 0] n = 0) by (intros a [| [| [| [| n]]]] H; try lia; reflexivity).
  assert (Y : forall n, (2 <= n)%nat -> part [2; 0; 0] n = 0) by (intros [| [| [| [| n]]]] H; try lia; reflexivity).
  split; [split; [vm_compute; reflexivity | repeat constructor; lia] |]. split; [split; [vm_compute; reflexivity | apply Z] |].
  split; [split; [intros [| [| n]] H; cbn in H |- *; try lia; reflexivity | reflexivity] |]. split; [vm_compute; reflexivity |].
  split; [intros [_ H]; specialize (H 2%nat (le_n 2)); discriminate H |]. split; [vm_compute; reflexivity |]. split; [vm_compute; reflexivity |].
  split; [split; [vm_compute; reflexivity | repeat constructor; lia] |]. split; [vm_compute; reflexivity |].
  split; [split; [vm_compute; reflexivity | apply Y] | reflexivity].
Qed.

(** ~1.3 and ~=1.3.0 are 1.3.*, ^1 is 1.* and ^0.3 is 0.3.*. *)
Example C123_operators_case :
  (List.length [1; 3] <= 2)%nat /\ breaking_index [1] = 0%nat /\ breaking_index [0; 3] = 1%nat
  /\ op_matches TILDE (bare 0 [1; 3; 7]) (bare 0 [1; 3]) = Ok true /\ op_matches CARET (bare 0 [0; 3; 7]) (bare 0 [0; 3]) = Ok true
  /\ op_matches CARET (bare 0 [1; 4]) (bare 0 [1; 3]) = Ok true /\ ~ selects 0 [1; 3] (bare 0 [1; 4]).
Proof.
  split; [cbn; lia |]. split; [reflexivity |]. split; [reflexivity |]. split; [vm_compute; reflexivity |]. split; [vm_compute; reflexivity |].
  split; [vm_compute; reflexivity |]. intros H. vm_compute in H. discriminate H.
Qed.
