(** Theorems about the methods of sets on any objects: C105. *)

From Coq Require Import List ZArith NArith String Bool.
From Verif Require Import Py Segments Version VersionSets Operators Specifiers Spec Rich Classes Compare Dispatch
  Typed TypedSpec Foreign ForeignFacts.
Import ListNotations.
Open Scope Z_scope.

(** ** C105 Arguments that are not sets or versions *)

(** On sets and versions these are the methods all other theorems are about. *)
Theorem C105_sets a b :
  obj_includes a (OSet b) = Ok (includes a b) /\ obj_intersects a (OSet b) = Ok (intersects a b)
  /\ obj_intersection a (OSet b) = rmap OSet (intersection a b) /\ obj_union a (OSet b) = rmap OSet (union a b)
  /\ obj_difference a (OSet b) = rmap OSet (difference a b)
  /\ obj_symmetric_difference a (OSet b) = rmap OSet (symmetric_difference a b).
Proof. exact (on_sets a b). Qed.
Print Assumptions C105_sets.

Theorem C105_versions a v : obj_contains a (OVersion v) = Ok (contains a v).
Proof. exact (on_versions a v). Qed.
Print Assumptions C105_versions.

(** On anything else the empty set gives it back or ignores it, *)
Theorem C105_empty x : no_set x ->
  obj_includes Empty x = Err AttributeError /\ obj_intersects Empty x = Ok false
  /\ obj_intersection Empty x = Ok (OSet Empty) /\ obj_union Empty x = Ok x
  /\ obj_difference Empty x = Ok (OSet Empty) /\ obj_symmetric_difference Empty x = Ok x.
Proof. exact (empty_foreign x). Qed.
Print Assumptions C105_empty.

(** points ask it for methods it does not have, *)
Theorem C105_point v x : no_set x -> let a := Item (Point v) in
  obj_includes a x = Err AttributeError /\ obj_intersects a x = Err AttributeError
  /\ obj_intersection a x = Err AttributeError /\ obj_union a x = Err AttributeError
  /\ obj_difference a x = Err AttributeError /\ obj_symmetric_difference a x = Err AttributeError.
Proof. exact (point_foreign v x). Qed.
Print Assumptions C105_point.

(** ranges refuse it, *)
Theorem C105_range min max imin imax x : no_set x -> let a := Item (Range min max imin imax) in
  obj_includes a x = Err TypeError /\ obj_intersects a x = Err TypeError
  /\ obj_intersection a x = Err TypeError /\ obj_union a x = Err TypeError
  /\ obj_difference a x = Err TypeError /\ obj_symmetric_difference a x = Err TypeError.
Proof. exact (range_foreign min max imin imax x). Qed.
Print Assumptions C105_range.

(** and unions take it for the empty set. *)
Theorem C105_union items x : canonical (Union items) -> no_set x -> let a := Union items in
  obj_includes a x = Ok true /\ obj_intersects a x = Ok false
  /\ obj_intersection a x = Ok (OSet Empty) /\ obj_union a x = Ok (OSet a)
  /\ obj_difference a x = Ok (OSet Empty) /\ obj_symmetric_difference a x = Err AttributeError.
Proof. exact (union_foreign items x). Qed.
Print Assumptions C105_union.

Theorem C105_of xs ys x sets :
  (no_set x -> obj_of (xs ++ x :: ys) = obj_of (xs ++ ys)) /\ obj_of (map OSet sets) = merge sets.
Proof. exact (conj (of_foreign xs ys x) (of_sets sets)). Qed.
Print Assumptions C105_of.

(** What [contains] says of objects that are no versions. *)
Theorem C105_contains a x : canonical a -> no_version x ->
  (obj_contains a x = Ok false <-> Forall a_point (extract a))
  /\ (obj_contains a x = Ok true <-> a = UNIVERSAL_SET /\ ~ an_item x)
  /\ (obj_contains a x = Err AttributeError <-> ~ Forall a_point (extract a) /\ an_item x)
  /\ (obj_contains a x = Err TypeError <-> ~ Forall a_point (extract a) /\ a <> UNIVERSAL_SET /\ ~ an_item x)
  /\ (obj_contains a x = Ok false \/ obj_contains a x = Ok true \/ obj_contains a x = Err AttributeError \/ obj_contains a x = Err TypeError).
Proof. exact (contains_other a x). Qed.
Print Assumptions C105_contains.

(** The operators are those methods; unions have none. *)
Theorem C105_operators a x :
  ((forall items, a <> Union items) -> obj_and a x = obj_intersection a x /\ obj_or a x = obj_union a x
     /\ obj_sub a x = obj_difference a x /\ obj_xor a x = obj_symmetric_difference a x)
  /\ (forall items, a = Union items -> obj_and a x = Err TypeError /\ obj_or a x = Err TypeError
     /\ obj_sub a x = Err TypeError /\ obj_xor a x = Err TypeError).
Proof. exact (operators_any a x). Qed.
Print Assumptions C105_operators.

(** The conversions refuse all that is not a specifier or a set. *)
Theorem C105_convert x :
  (forall s, x = OSpec s -> obj_to_version_set x = specifier_to_version_set s /\ obj_simplify x = simplify s)
  /\ ((forall s, x <> OSpec s) -> obj_to_version_set x = Err TypeError /\ obj_simplify x = Err TypeError)
  /\ (forall a, x = OSet a -> obj_to_specifier x = version_set_to_specifier a)
  /\ (no_set x -> obj_to_specifier x = Err TypeError).
Proof. exact (convert_any x). Qed.
Print Assumptions C105_convert.

(** ** C105 Specifiers asked about any object *)

Theorem C105_accepts_version s v : obj_accepts s (OVersion v) = accepts s v.
Proof. exact (accepts_version s v). Qed.
Print Assumptions C105_accepts_version.

(** One operator: which answer it gives does not depend on the object, only which error. *)
Theorem C105_matches t v x : valid_version v = true -> no_version x ->
  (obj_matches t x v = Ok true <-> passes t v) /\ (obj_matches t x v = Ok false <-> fails t v)
  /\ (obj_matches t x v = Err (complaint x) <-> orders t v).
Proof. exact (matches_any t v x). Qed.
Print Assumptions C105_matches.

(** Groups: as for any version [w] of another class, apart from the error. *)
Theorem C105_accepts s x w : spec_made s -> no_version x ->
  obj_accepts s x = match t_accepts (retype_spec 0%nat s) (Typed 1%nat w) with Ok b => Ok b | Err _ => Err (complaint x) end.
Proof. exact (accepts_any s x w). Qed.
Print Assumptions C105_accepts.

Definition one : version := Version 0 [1] None None None None.
Definition two : version := Version 0 [2] None None None None.
Definition not_one : vset := Union [Range None (Some one) false false; Range (Some one) None false false].

(** A specifier instead of its set. *)
Example C105_case : let x := OSpec (One GREATER two) in
  no_set x /\ no_version x /\ canonical not_one
  /\ obj_includes not_one x = Ok true /\ obj_difference not_one x = Ok (OSet Empty)
  /\ obj_union not_one x = Ok (OSet not_one) /\ obj_union Empty x = Ok x
  /\ obj_union (Item (Point one)) x = Err AttributeError /\ obj_union UNIVERSAL_SET x = Err TypeError
  /\ obj_contains UNIVERSAL_SET x = Ok true /\ obj_contains not_one x = Err TypeError /\ obj_contains (Item (Point one)) x = Ok false
  /\ obj_contains UNIVERSAL_SET (OSet (Item (Point one))) = Err AttributeError
  /\ obj_contains UNIVERSAL_SET (OSet not_one) = Ok true
  /\ obj_to_version_set (OOperator GREATER two) = Err TypeError.
Proof. repeat (split; [first [discriminate | vm_compute; auto 10] |]). reflexivity. Qed.

Example C105_accepts_case :
  spec_made (AnyOf [One DOUBLE_EQUAL one; One CARET two])
  /\ obj_accepts (AnyOf [One DOUBLE_EQUAL one; One NOT_EQUAL two]) (OSet not_one) = Ok true
  /\ obj_accepts (AllOf [One DOUBLE_EQUAL one; One CARET two]) (OSet not_one) = Ok false
  /\ obj_accepts (AnyOf [One DOUBLE_EQUAL one; One CARET two]) (OSet not_one) = Err TypeError
  /\ obj_accepts (AnyOf [One DOUBLE_EQUAL one; One CARET two]) (OSet (Item (Point one))) = Err AttributeError.
Proof.
  split; [repeat split; try discriminate; cbn; auto |]. repeat (split; [vm_compute; auto 10 |]). reflexivity.
Qed.
