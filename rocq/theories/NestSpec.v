(** What C106 says: where the bound of an operator lies. *)

From Coq Require Import List ZArith.
From Verif Require Import Py Segments Version Operators Spec.
Import ListNotations.
Open Scope Z_scope.

(** The bound increases part [i] of the release and zeroes the later ones, or
    is the release itself. *)
Inductive place := Increased (i : nat) | Itself.

Inductive breaks (w : version) : op_type -> place -> Prop :=
| caret_final : final w -> breaks w CARET (Increased (breaking_index (v_release w)))
| caret_zero : ~ final w -> part (v_release w) 0 = 0 -> breaks w CARET Itself
| caret_major : ~ final w -> part (v_release w) 0 <> 0 -> breaks w CARET (Increased 0)
| tilde_final : final w -> breaks w TILDE (Increased (Nat.min 1 (List.length (v_release w) - 1)))
| tilde_early : ~ final w -> breaks w TILDE Itself
| tilde_equal n : List.length (v_release w) = S (S n) -> breaks w TILDE_EQUAL (Increased n)
| wildcard_release t n : t = WILDCARD_EQUAL \/ t = WILDCARD_DOUBLE_EQUAL -> final w -> v_post w = None ->
    List.length (v_release w) = S (S n) -> breaks w t (Increased n)
| wildcard_post t n : t = WILDCARD_EQUAL \/ t = WILDCARD_DOUBLE_EQUAL -> final w -> v_post w <> None ->
    List.length (v_release w) = S n -> breaks w t (Increased n)
| wildcard_early t : t = WILDCARD_EQUAL \/ t = WILDCARD_DOUBLE_EQUAL -> ~ final w -> breaks w t Itself.

(** Operators that stand for a version and those above it, up to a bound. *)
Definition bounded (t : op_type) : Prop :=
  match t with CARET | TILDE | TILDE_EQUAL | WILDCARD_EQUAL | WILDCARD_DOUBLE_EQUAL => True | _ => False end.

(** The bound at [p] is the one at [q] or above. *)
Definition at_or_above (p q : place) : Prop :=
  match p, q with
  | Increased i, Increased j => (i <= j)%nat
  | Increased _, Itself => True
  | Itself, Increased _ => False
  | Itself, Itself => True
  end.

(** Every version between two of [P] is in [P]. *)
Definition convex (P : version -> Prop) : Prop :=
  forall u v w, P u -> P w -> v_le u v = true -> v_le v w = true -> P v.
