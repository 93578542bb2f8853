(** What is said of versions of different types. *)

From Coq Require Import List ZArith NArith String Bool.
From Verif Require Import Py Segments Version VersionSets Operators Specifiers Spec Grammar Clauses.
Import ListNotations.

(** Operators that every version of another type passes, and those it fails:
    the others order versions. *)
Definition passes (t : op_type) (w : version) : Prop :=
  t = NOT_EQUAL \/ ((t = WILDCARD_EQUAL \/ t = WILDCARD_DOUBLE_EQUAL) /\ wildcard_any w).
Definition fails (t : op_type) (w : version) : Prop :=
  t = EQUAL \/ t = DOUBLE_EQUAL \/ (t = WILDCARD_NOT_EQUAL /\ wildcard_any w).
Definition orders (t : op_type) (w : version) : Prop := ~ passes t w /\ ~ fails t w.

(** The same of the clauses of a specification and of alternatives: the first
    clause that is not passed decides. *)
Definition on_clause (P : op_type -> version -> Prop) (x : op_type * gversion) : Prop := P (fst x) (reading (snd x)).
Definition first_to {A} (before at_it : A -> Prop) (xs : list A) : Prop :=
  exists pre x post, xs = pre ++ x :: post /\ Forall before pre /\ at_it x.
Definition alt_passes : list (op_type * gversion) -> Prop := Forall (on_clause passes).
Definition alt_fails : list (op_type * gversion) -> Prop := first_to (on_clause passes) (on_clause fails).
Definition alt_orders : list (op_type * gversion) -> Prop := first_to (on_clause passes) (on_clause orders).

(** The points and ranges of a set. *)
Definition members (a : vset) : list item := match a with Empty => [] | Item i => [i] | Union items => items end.
Definition is_a_point (i : item) : Prop := exists v, i = Point v.
Definition unlimited (i : item) : Prop := exists imin imax, i = Range None None imin imax.
Definition limited_range (i : item) : Prop := exists min max imin imax, i = Range min max imin imax /\ (min <> None \/ max <> None).
