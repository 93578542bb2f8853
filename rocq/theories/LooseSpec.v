(** What C107 says: where the operations on two items that the constructors
    accept depart from set theory. *)

From Coq Require Import List ZArith.
From Verif Require Import Py Segments Version VersionSets Spec.
Import ListNotations.
Open Scope Z_scope.

(** The union of a point with an empty range at it, open above, is empty
    again. *)
Definition union_lost (s o : item) : Prop :=
  match s, o with
  | Range (Some m) (Some M) _ false, Point w => v_eq w m = true /\ v_eq w M = true
  | Point v, Range (Some m) (Some M) true false => v_eq v m = true /\ v_eq v M = true
  | _, _ => False
  end.

(** A range minus an empty one, open below and closed above, at its included
    minimum: recurses for ever. *)
Definition difference_clash (s o : item) : Prop :=
  match s, o with
  | Range (Some m) smax true _, Range (Some n) (Some N) false true =>
      v_eq m n = true /\ v_eq n N = true /\ match smax with None => True | Some M => v_lt N M = true end
  | _, _ => False
  end.

(** The two cases in which [includes] may say no although all versions of [o]
    are in [s]: a point asked about a closed range of one version, and a range
    asked about an empty one. *)
Definition includes_blind (s o : item) : Prop :=
  match s, o with
  | Point _, Range _ _ _ _ => item_is_point o = true
  | Range _ _ _ _, Range _ _ _ _ => item_is_empty o = true
  | _, _ => False
  end.
