(** What a bump must not skip. *)

From Coq Require Import List ZArith NArith Bool.
From Verif Require Import Py Segments Version Spec.
Open Scope Z_scope.

(** Only epoch and release, and nothing but zeros after part [i]. *)
Definition round_at (i : nat) (w : version) : Prop :=
  w = bare (v_epoch w) (v_release w) /\ forall n, (i < n)%nat -> part (v_release w) n = 0.

(** No development tag and no local part. *)
Definition settled (w : version) : Prop := v_dev w = None /\ v_local w = None.
