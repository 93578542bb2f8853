(** Replacing the major numbers of versions by others in the same order. *)

From Coq Require Import List ZArith.
From Verif Require Import Segments Version Operators Specifiers Spec.
Import ListNotations.
Local Open Scope Z_scope.

Definition remajor (g : Z -> Z) (v : version) : version :=
  Version (v_epoch v) (match v_release v with [] => [] | a :: r => g a :: r end) (v_pre v) (v_post v) (v_dev v) (v_local v).

(** What the operators ask of the replacement: those with a bound may have to
    count one up, and ^ looks for a zero. *)
Definition counts (g : Z -> Z) (t : op_type) (w : version) : Prop :=
  let a := part (v_release w) 0 in
  match t with
  | TILDE | TILDE_EQUAL | WILDCARD_EQUAL | WILDCARD_DOUBLE_EQUAL | WILDCARD_NOT_EQUAL => g (a + 1) = g a + 1
  | CARET => g (a + 1) = g a + 1 /\ (g a = 0 <-> a = 0)
  | _ => True
  end.
