(** What the answers of version sets say about the specifiers they were made from. *)

From Verif Require Import Py Version VersionSets Specifiers.

(** [a] was made from [s] and [b] from [u]; only the versions in [P] are looked at. *)
Definition decided (P : version -> Prop) (s u : spec) (a b : vset) : Prop :=
  (includes b a = true <-> forall v, P v -> accepts s v = Ok true -> accepts u v = Ok true)
  /\ (intersects a b = true <-> exists v, P v /\ accepts s v = Ok true /\ accepts u v = Ok true)
  /\ (set_eqb a b = true <-> forall v, P v -> accepts s v = accepts u v)
  /\ (is_empty a = true <-> forall v, P v -> accepts s v = Ok false)
  /\ (is_universal a = true <-> forall v, P v -> accepts s v = Ok true).
