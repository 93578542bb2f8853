(** Theorems about unions made without checks: C108. *)

From Coq Require Import List ZArith NArith String Bool.
From Verif Require Import Py Segments Version VersionSets Spec SetMerge SetVersions LooseSpec LooseFacts RawFacts.
Import ListNotations.
Open Scope Z_scope.

(** ** C108 Unions made without checks

    [VersionUnion(items)], [of_unchecked] and [of_iterable_unchecked] take any
    two or more items: in any order, overlapping, also empty. *)

(** [contains] looks at every item. *)
Theorem C108_contains items v : contains (Union items) v = true <-> Exists (fun i => in_item i v) items.
Proof. exact (in_set_contains (Union items) v). Qed.
Print Assumptions C108_contains.

(** [VersionUnion.of] and so [union] of such unions: right if no item is
    empty, but for the clash of C23. *)
Theorem C108_merge sets :
  Forall (fun a => Forall made (extract a) /\ Forall (fun i => item_is_empty i = false) (extract a)) sets ->
  (~ clash (flat_map extract sets) ->
     exists r, merge sets = Ok r /\ forall v, contains r v = true <-> Exists (fun a => in_set a v) sets)
  /\ (clash (flat_map extract sets) -> merge sets = Err RecursionError).
Proof. exact (raw_merge sets). Qed.
Print Assumptions C108_merge.

(** With empty items it still invents no version, and what it returns is made
    of items that the constructors accept. *)
Theorem C108_merge_sound sets r v : Forall (fun a => Forall made (extract a)) sets ->
  merge sets = Ok r -> in_set r v -> Exists (fun a => in_set a v) sets.
Proof. exact (raw_merge_sound sets r v). Qed.
Print Assumptions C108_merge_sound.

Theorem C108_merge_made sets r : Forall (fun a => Forall made (extract a)) sets ->
  merge sets = Ok r -> Forall made (extract r).
Proof. exact (raw_merge_made sets r). Qed.
Print Assumptions C108_merge_made.

(** [includes], [intersects] and [intersection] may miss something, but are
    not wrong about what they find. *)
Theorem C108_includes_sound a b v : Forall made (extract a) -> Forall made (extract b) ->
  includes a b = true -> in_set b v -> in_set a v.
Proof. exact (raw_includes_sound a b v). Qed.
Print Assumptions C108_includes_sound.

Theorem C108_intersects_sound a b :
  Forall made (extract a) -> Forall made (extract b) -> Forall worded (bounds a) -> Forall worded (bounds b) ->
  Forall (fun i => item_is_empty i = false) (extract a) -> Forall (fun i => item_is_empty i = false) (extract b) ->
  intersects a b = true -> exists v, worded v /\ in_set a v /\ in_set b v.
Proof. exact (raw_intersects_sound a b). Qed.
Print Assumptions C108_intersects_sound.

Theorem C108_intersection_sound a b r v : Forall made (extract a) -> Forall made (extract b) ->
  intersection a b = Ok r -> in_set r v -> in_set a v /\ in_set b v.
Proof. exact (raw_intersection_sound a b r v). Qed.
Print Assumptions C108_intersection_sound.

(** Points and ranges asked about such a union miss nothing. *)
Theorem C108_item_intersects s b v : made s -> Forall made (extract b) -> in_item s v -> in_set b v ->
  intersects (Item s) b = true.
Proof. exact (raw_item_intersects s b v). Qed.
Print Assumptions C108_item_intersects.

Theorem C108_range_includes s b :
  is_range s -> made s -> Forall made (extract b) -> Forall worded (item_bounds s) -> Forall worded (bounds b) ->
  Forall (fun i => item_is_empty i = false) (extract b) ->
  includes (Item s) b = true <-> forall v, worded v -> in_set b v -> in_item s v.
Proof. exact (raw_range_includes s b). Qed.
Print Assumptions C108_range_includes.

Definition n (z : Z) : version := bare 0 [z].
Definition between (a b : Z) : item := Range (Some (n a)) (Some (n b)) true true.

(** [[3, 4] | [1, 2]] and [[1, 2] | [2, 3] | [2, 2]], as they are. *)
Definition unsorted : vset := Union [between 3 4; between 1 2].
Definition overlapping : vset := Union [between 1 2; between 2 3; between 2 2].

Example C108_case :
  merge [unsorted] = Ok (Union [between 1 2; between 3 4])
  /\ merge [overlapping; unsorted] = Ok (Item (between 1 4))
  /\ union unsorted (Item (Point (n 2))) = Ok (Union [between 1 2; between 3 4])
  /\ includes unsorted (Item (between 1 2)) = true
  /\ intersects (Item (between 0 1)) unsorted = true
  /\ includes (Item (between 1 4)) unsorted = true
  /\ intersection overlapping (Item (between 0 1)) = Ok (Item (Point (n 1))).
Proof. now vm_compute. Qed.

Example C108_case_hypotheses :
  Forall (fun a => Forall made (extract a) /\ Forall (fun i => item_is_empty i = false) (extract a)) [overlapping; unsorted]
  /\ Forall worded (bounds unsorted) /\ ~ clash (flat_map extract [overlapping; unsorted]).
Proof.
  split; [repeat constructor |]. split; [repeat constructor |].
  intros (v & r & I1 & _). cbn in I1. repeat destruct I1 as [I1|I1]; try discriminate; exact I1.
Qed.

(** What is missed when the items are not sorted. *)
Example C108_case_missed :
  includes unsorted (Union [between 1 2; between 3 4]) = false
  /\ intersects unsorted (Item (between 1 2)) = false
  /\ intersection unsorted (Item (between 1 2)) = Ok Empty
  /\ difference (Item (between 0 5)) unsorted
     = Ok (Union [Range (Some (n 0)) (Some (n 3)) true false; Range (Some (n 4)) (Some (n 5)) false true]).
Proof. now vm_compute. Qed.
