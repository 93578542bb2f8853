(** Theorems about how operations on sets may fail: C111. *)

From Coq Require Import List ZArith NArith String Bool.
From Verif Require Import Py Segments Version VersionSets Operators Specifiers Spec RawFailures.
Import ListNotations.
Open Scope Z_scope.

(** ** C111 How operations on sets may fail

    For sets of items that the constructors accept, also unions made without
    checks: in any order, overlapping, with empty items. *)

(** [VersionUnion.of] *)
Theorem C111_merge sets : Forall (fun a => Forall made (extract a)) sets ->
  (exists r, merge sets = Ok r /\ Forall made (extract r)) \/ merge sets = Err RecursionError.
Proof. exact (raw_merge_fair sets). Qed.
Print Assumptions C111_merge.

Theorem C111_union a b : Forall made (extract a) -> Forall made (extract b) ->
  (exists r, union a b = Ok r /\ Forall made (extract r)) \/ union a b = Err RecursionError.
Proof. exact (raw_union_fair a b). Qed.
Print Assumptions C111_union.

Theorem C111_intersection a b : Forall made (extract a) -> Forall made (extract b) ->
  (exists r, intersection a b = Ok r /\ Forall made (extract r)) \/ intersection a b = Err RecursionError.
Proof. exact (raw_intersection_fair a b). Qed.
Print Assumptions C111_intersection.

Theorem C111_difference a b : Forall made (extract a) -> Forall made (extract b) ->
  (exists r, difference a b = Ok r /\ Forall made (extract r)) \/ difference a b = Err RecursionError.
Proof. exact (raw_difference_fair a b). Qed.
Print Assumptions C111_difference.

Theorem C111_complement a : Forall made (extract a) ->
  (exists r, complement a = Ok r /\ Forall made (extract r)) \/ complement a = Err RecursionError.
Proof. exact (raw_complement_fair a). Qed.
Print Assumptions C111_complement.

(** Unions have no such method. *)
Theorem C111_symmetric_difference a b : Forall made (extract a) -> Forall made (extract b) ->
  match a with
  | Union _ => symmetric_difference a b = Err AttributeError
  | _ => (exists r, symmetric_difference a b = Ok r /\ Forall made (extract r))
         \/ symmetric_difference a b = Err RecursionError
  end.
Proof. exact (raw_symmetric_fair a b). Qed.
Print Assumptions C111_symmetric_difference.

(** Converting to specifiers: the checks of [try_range_unwrap] and of
    [VersionRange.version] are never reached with something they refuse. *)
Theorem C111_specifier a : Forall made (extract a) ->
  (exists s, version_set_to_specifier a = Ok s)
  \/ ((exists l, a = Union l) /\ version_set_to_specifier a = Err RecursionError).
Proof. exact (raw_specifier a). Qed.
Print Assumptions C111_specifier.

(** Unless one of its items is empty, a union has a complement, in canonical
    form even if the union is not, and can be converted. *)
Theorem C111_nonempty_complement l : Forall made l -> Forall (fun i => item_is_empty i = false) l ->
  exists r, complement (Union l) = Ok r /\ canonical r.
Proof. exact (solid_complement l). Qed.
Print Assumptions C111_nonempty_complement.

Theorem C111_nonempty_specifier l : Forall made l -> Forall (fun i => item_is_empty i = false) l ->
  exists s, version_set_to_specifier (Union l) = Ok s.
Proof. exact (solid_specifier l). Qed.
Print Assumptions C111_nonempty_specifier.

Definition n (z : Z) : version := bare 0 [z].
Definition between (a b : Z) : item := Range (Some (n a)) (Some (n b)) true true.
Definition after (a b : Z) : item := Range (Some (n a)) (Some (n b)) false true.

(** [[3, 4] | [1, 1] | [1, 2]], as it is. *)
Definition jumble : list item := [between 3 4; between 1 1; between 1 2].

Example C111_case :
  Forall made jumble /\ Forall (fun i => item_is_empty i = false) jumble
  /\ merge [Union jumble] = Ok (Union [between 1 2; between 3 4])
  /\ union (Union jumble) (Item (between 2 3)) = Ok (Item (between 1 4))
  /\ complement (Union jumble)
     = Ok (Union [Range None (Some (n 3)) false false; Range (Some (n 4)) None false false])
  /\ version_set_to_specifier (Union jumble)
     = Ok (AnyOf [AllOf [One GREATER_OR_EQUAL (n 3); One LESS_OR_EQUAL (n 4)];
                    One DOUBLE_EQUAL (n 1);
                    AllOf [One GREATER_OR_EQUAL (n 1); One LESS_OR_EQUAL (n 2)]])
  /\ symmetric_difference (Item (between 1 2)) (Item (between 2 3))
     = Ok (Union [Range (Some (n 1)) (Some (n 2)) true false; after 2 3])
  /\ symmetric_difference (Union jumble) Empty = Err AttributeError.
Proof. split; [repeat constructor|]. split; [repeat constructor|]. now vm_compute. Qed.

(** The exception does occur: with two items that touch but for the clash of
    C23, and with an empty item. *)
Definition touching : vset := Union [Point (n 1); after 1 2].
Definition hollow : vset := Union [Range (Some (n 0)) (Some (n 1)) true false; after 1 1].

Example C111_case_fails :
  Forall made (extract touching) /\ Forall made (extract hollow)
  /\ intersection touching UNIVERSAL_SET = Err RecursionError
  /\ merge [touching] = Err RecursionError
  /\ (exists r, complement touching = Ok r)
  /\ complement hollow = Err RecursionError
  /\ difference UNIVERSAL_SET hollow = Err RecursionError
  /\ version_set_to_specifier hollow = Err RecursionError.
Proof. split; [repeat constructor|]. split; [repeat constructor|]. vm_compute. eauto 10. Qed.
