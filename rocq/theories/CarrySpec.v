(** What C118 says: what an accepted version tells about later ones. *)

From Coq Require Import List ZArith.
From Verif Require Import Py Segments Version Operators Spec NestSpec.
Import ListNotations.
Open Scope Z_scope.

(** [t v] accepts all that [u w] accepts. *)
Definition covers (t : op_type) (v : version) (u : op_type) (w : version) : Prop :=
  forall x, op_matches u x w = Ok true -> op_matches t x v = Ok true.

(** The part of the release that the bound increases has not changed from [v] to [w]. *)
Definition unchanged (p : place) (v w : version) : Prop :=
  match p with
  | Increased i => part (v_release w) i = part (v_release v) i
  | Itself => True
  end.

Definition parts (v : version) : nat := List.length (v_release v).

(** If some version is accepted by both, one of them accepts all that the other accepts. *)
Definition grouped (t : op_type) (v w : version) : Prop :=
  forall x, op_matches t x v = Ok true -> op_matches t x w = Ok true -> covers t v t w \/ covers t w t v.
