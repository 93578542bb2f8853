(** What C123 says: which wildcards accept a version. *)

From Coq Require Import List ZArith.
From Verif Require Import Py Segments Version Operators Spec.
Import ListNotations.
Open Scope Z_scope.

(** "== e!p.*" accepts [v]. *)
Definition selects (e : Z) (p : list Z) (v : version) : Prop :=
  op_matches WILDCARD_DOUBLE_EQUAL v (bare e (p ++ [0])) = Ok true.

(** What may be written before ".*". *)
Definition stem (p : list Z) : Prop := p <> [] /\ Forall (fun x => 0 <= x) p.

(** Before a release that has only zeros from part [k] on, such as 1.4.0-alpha.1
    with [k] at most 2. *)
Definition opening (v : version) (k : nat) : Prop :=
  early v /\ forall n, (k <= n)%nat -> part (v_release v) n = 0.

(** The release has the parts of [p], but for the last, which is one more. *)
Definition after (r p : list Z) : Prop :=
  (forall n, (S n < List.length p)%nat -> part r n = part p n)
  /\ part r (List.length p - 1) = part p (List.length p - 1) + 1.
