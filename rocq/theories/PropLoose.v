(** Theorems about the operations on all ranges that the constructor accepts:
    C107. *)

From Coq Require Import List ZArith NArith String Bool.
From Verif Require Import Py Segments Version VersionSets Spec LooseSpec LooseFacts.
Import ListNotations.
Open Scope Z_scope.

(** ** C107 Empty ranges and ranges of one version *)

(** The intersection is right for all of them. *)
Theorem C107_intersection s o : made s -> made o ->
  exists r, intersection (Item s) (Item o) = Ok r /\ (forall i, r = Item i -> made i) /\ (forall l, r <> Union l)
    /\ forall v, contains r v = true <-> in_item s v /\ in_item o v.
Proof. exact (loose_intersection s o). Qed.
Print Assumptions C107_intersection.

(** The union is right except that it loses the one version of a point beside
    an empty range at it, and recurses for ever in the clash of C23. *)
Theorem C107_union s o : made s -> made o ->
  (union_clash (Item s) (Item o) -> union (Item s) (Item o) = Err RecursionError)
  /\ (union_lost s o -> exists r, union (Item s) (Item o) = Ok r /\ forall v, contains r v = false)
  /\ (~ union_clash (Item s) (Item o) -> ~ union_lost s o ->
      exists r, union (Item s) (Item o) = Ok r /\ forall v, contains r v = true <-> in_item s v \/ in_item o v).
Proof. exact (loose_union s o). Qed.
Print Assumptions C107_union.

(** The difference is right except that it recurses for ever when an empty
    range closed above is taken from a range at its included minimum. *)
Theorem C107_difference s o : made s -> made o ->
  (difference_clash s o -> difference (Item s) (Item o) = Err RecursionError)
  /\ (~ difference_clash s o ->
      exists r, difference (Item s) (Item o) = Ok r /\ forall v, contains r v = true <-> in_item s v /\ ~ in_item o v).
Proof. exact (loose_difference s o). Qed.
Print Assumptions C107_difference.

(** The complement is right for all of them. *)
Theorem C107_complement i : made i ->
  exists r, complement (Item i) = Ok r /\ forall v, contains r v = true <-> ~ in_item i v.
Proof. exact (loose_complement i). Qed.
Print Assumptions C107_complement.

(** What is said to be included is, *)
Theorem C107_includes_sound s o : made s -> made o -> includes (Item s) (Item o) = true ->
  forall v, in_item o v -> in_item s v.
Proof. exact (loose_includes s o). Qed.
Print Assumptions C107_includes_sound.

(** and what is, is said to be, but for the two blind cases. *)
Theorem C107_includes s o : made s -> made o -> Forall worded (item_bounds s) -> Forall worded (item_bounds o) ->
  ~ includes_blind s o ->
  includes (Item s) (Item o) = true <-> forall v, worded v -> in_item o v -> in_item s v.
Proof. exact (loose_includes_exact s o). Qed.
Print Assumptions C107_includes.

(** Items with a common version are said to intersect, *)
Theorem C107_intersects_complete s o v : made s -> made o -> in_item s v -> in_item o v ->
  intersects (Item s) (Item o) = true.
Proof. exact (loose_intersects s o v). Qed.
Print Assumptions C107_intersects_complete.

(** and, unless one is empty, only those. *)
Theorem C107_intersects s o : made s -> made o -> Forall worded (item_bounds s) -> Forall worded (item_bounds o) ->
  item_is_empty s = false -> item_is_empty o = false ->
  intersects (Item s) (Item o) = true <-> exists v, worded v /\ in_item s v /\ in_item o v.
Proof. exact (loose_intersects_exact s o). Qed.
Print Assumptions C107_intersects.

(** [is_empty] recognises all items without versions. *)
Theorem C107_empty i : made i -> Forall worded (item_bounds i) ->
  item_is_empty i = true <-> forall v, worded v -> ~ in_item i v.
Proof. exact (loose_empty i). Qed.
Print Assumptions C107_empty.

Definition n1 : version := bare 0 [1].
Definition n2 : version := bare 0 [2].
(** [(1, 1)], [(1, 1]], [[1, 1)], [[1, 1]], [[1, 2]] and [(0, 2)]. *)
Definition open_1 : item := Range (Some n1) (Some n1) false false.
Definition above_1 : item := Range (Some n1) (Some n1) false true.
Definition below_1 : item := Range (Some n1) (Some n1) true false.
Definition only_1 : item := Range (Some n1) (Some n1) true true.
Definition one_two : item := Range (Some n1) (Some n2) true true.
Definition around_1 : item := Range (Some (bare 0 [0])) (Some n2) false false.

Example C107_case :
  made open_1 /\ made above_1 /\ made below_1 /\ made only_1 /\ made one_two /\ made around_1
  /\ intersection (Item only_1) (Item around_1) = Ok (Item (Point n1))
  /\ union (Item only_1) (Item (Point n1)) = Ok (Item only_1)
  /\ difference (Item one_two) (Item only_1) = Ok (Item (Range (Some n1) (Some n2) false true))
  /\ complement (Item open_1) = Ok (Item UNIVERSAL)
  /\ complement (Item only_1) = Ok (Union [Range None (Some n1) false false; Range (Some n1) None false false]).
Proof. now vm_compute. Qed.

(** The union that loses its version and the two that recurse for ever. *)
Example C107_case_lost :
  union_lost below_1 (Point n1) /\ union (Item below_1) (Item (Point n1)) = Ok (Item below_1)
  /\ union_lost (Point n1) below_1 /\ union (Item (Point n1)) (Item below_1) = Ok (Item below_1)
  /\ union_clash (Item (Point n1)) (Item above_1)
  /\ difference_clash one_two above_1 /\ difference (Item one_two) (Item above_1) = Err RecursionError.
Proof. now vm_compute. Qed.

(** The blind cases, and an empty range said to intersect. *)
Example C107_case_tests :
  includes_blind (Point n1) only_1 /\ includes (Item (Point n1)) (Item only_1) = false
  /\ includes_blind one_two open_1 /\ includes (Item one_two) (Item below_1) = true /\ includes (Item one_two) (Item (Range (Some (bare 0 [3])) (Some (bare 0 [3])) false false)) = false
  /\ ~ includes_blind only_1 (Point n1) /\ includes (Item only_1) (Item (Point n1)) = true
  /\ item_is_empty open_1 = true /\ intersects (Item open_1) (Item around_1) = true
  /\ item_is_empty only_1 = false /\ item_is_empty one_two = false /\ intersects (Item only_1) (Item one_two) = true
  /\ Forall worded (item_bounds one_two) /\ Forall worded (item_bounds only_1).
Proof.
  repeat match goal with |- _ /\ _ => split end; try (now vm_compute); try (intros []); repeat constructor.
Qed.
