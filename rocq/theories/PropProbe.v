(** C126: how many versions tell two specifiers apart. *)

From Coq Require Import List ZArith NArith String Bool Lia.
From Verif Require Import Py Segments Version VersionSets Operators Specifiers Parsers Spec NeedSpec ProbeSpec ProbeFacts.
Import ListNotations.
Local Open Scope nat_scope.

(** Two versions on the same sides of all bounds are treated alike. *)
Theorem C126_local x s u v : parse_specifier x = Ok s -> (forall t w b, leaf t w s -> op_bound t w b -> same_side b u v) -> accepts s u = accepts s v.
Proof. exact (parsed_local x s u v). Qed.
Print Assumptions C126_local.

Theorem C126_contains a u v : (forall b, In b (bounds a) -> same_side b u v) -> contains a u = contains a v.
Proof. exact (set_sides a u v). Qed.
Print Assumptions C126_contains.

(** So specifiers that agree on finitely many versions agree on all. *)
Theorem C126_probes x y s u : parse_specifier x = Ok s -> parse_specifier y = Ok u ->
  exists zs, List.length zs <= 2 * (turns s + turns u) + 1 /\ (forall z, In z zs -> exists v, parse_version z = Ok v)
    /\ ((forall z v, In z zs -> parse_version z = Ok v -> accepts s v = accepts u v) -> forall z v, parse_version z = Ok v -> accepts s v = accepts u v).
Proof. exact (parsed_probes x y s u). Qed.
Print Assumptions C126_probes.

(** These versions depend on the specifiers: none do for all. *)
Theorem C126_none zs : exists x y s u, parse_specifier x = Ok s /\ parse_specifier y = Ok u
  /\ (forall z v, In z zs -> parse_version z = Ok v -> accepts s v = accepts u v) /\ exists z v, parse_version z = Ok v /\ accepts s v <> accepts u v.
Proof. exact (no_probes zs). Qed.
Print Assumptions C126_none.

Theorem C126_sets a b : canonical a -> canonical b -> Forall worded (bounds a) -> Forall worded (bounds b) ->
  exists vs, List.length vs <= 2 * (List.length (bounds a) + List.length (bounds b)) + 1 /\ Forall worded vs
    /\ (set_eqb a b = true <-> forall v, In v vs -> contains a v = contains b v)
    /\ (includes a b = true <-> forall v, In v vs -> contains b v = true -> contains a v = true)
    /\ (intersects a b = true <-> exists v, In v vs /\ contains a v = true /\ contains b v = true).
Proof. exact (set_probes a b). Qed.
Print Assumptions C126_sets.

(** 1.3 and 1.9a1 lie on the same sides of 1.2 and 2.0, the bounds of ^1.2; 2.0a1 is on the same sides too, and accepted. *)
Example C126_case : exists s u v w, parse_specifier (lit "^1.2") = Ok s /\ turns s = 2
  /\ parse_version (lit "1.3") = Ok u /\ parse_version (lit "1.9a1") = Ok v /\ parse_version (lit "2.0a1") = Ok w
  /\ (forall b, In b [bare 0 [1; 2]%Z; bare 0 [2; 0]%Z] -> same_side b u v /\ same_side b u w)
  /\ accepts s u = Ok true /\ accepts s v = Ok true /\ accepts s w = Ok true.
Proof.
  do 4 eexists. split; [vm_compute; reflexivity|]. split; [reflexivity|]. do 3 (split; [vm_compute; reflexivity|]).
  split; [intros b [<- | [<- | []]]; repeat split; vm_compute; reflexivity|]. repeat split; vm_compute; reflexivity.
Qed.

(** Agreeing below 1.2, at 1.2 and above 2.0 is not enough. *)
Example C126_apart : exists s u a b c d, parse_specifier (lit "^1.2") = Ok s /\ parse_specifier (lit ">=1.2, <2") = Ok u
  /\ parse_specifier (lit "==1.2") = Ok d /\ turns s + turns d = 4
  /\ parse_version (lit "1.1") = Ok a /\ parse_version (lit "1.2") = Ok b /\ parse_version (lit "1.5") = Ok c
  /\ accepts s a = accepts d a /\ accepts s b = accepts d b /\ accepts s c <> accepts d c /\ accepts s c = accepts u c.
Proof.
  do 6 eexists. do 3 (split; [vm_compute; reflexivity|]). split; [reflexivity|]. do 3 (split; [vm_compute; reflexivity|]).
  do 2 (split; [vm_compute; reflexivity|]). split; [vm_compute; discriminate|vm_compute; reflexivity].
Qed.

Example C126_sets_case : let a := Item (Range (Some (bare 0 [1]%Z)) (Some (bare 0 [2]%Z)) true false) in let b := Item (Point (bare 0 [1]%Z)) in
  canonical a /\ canonical b /\ Forall worded (bounds a) /\ Forall worded (bounds b) /\ includes a b = true /\ includes b a = false /\ intersects a b = true.
Proof.
  cbv zeta. split; [repeat split; try discriminate; vm_compute; auto|]. split; [vm_compute; auto|].
  split; [repeat constructor|]. split; [repeat constructor|]. repeat split; vm_compute; reflexivity.
Qed.
