(** Specifiers that name no local versions. *)

From Coq Require Import List.
From Verif Require Import Segments Version Operators Specifiers Spec.
Import ListNotations.

(** The operators that tell a version from its local versions. *)
Definition names_public (t : op_type) : Prop := In t [EQUAL; DOUBLE_EQUAL; NOT_EQUAL; LESS_OR_EQUAL; GREATER].

(** No version in the specifier has a local part. *)
Definition no_locals (s : spec) : Prop := forall t w, leaf t w s -> v_local w = None.
