(** Replacing the epochs of versions by others in the same order. *)

From Coq Require Import List ZArith.
From Verif Require Import Segments Version Operators Specifiers.
Import ListNotations.
Local Open Scope Z_scope.

Definition increasing (g : Z -> Z) : Prop := forall a b, a < b -> g a < g b.
Definition reepoch (g : Z -> Z) (v : version) : version :=
  Version (g (v_epoch v)) (v_release v) (v_pre v) (v_post v) (v_dev v) (v_local v).

(** Every version of a specifier replaced. *)
Fixpoint rename_spec (f : version -> version) (s : spec) : spec :=
  match s with
  | Never => Never
  | Always => Always
  | One t v => One t (f v)
  | AnyOf ss => AnyOf (map (rename_spec f) ss)
  | AllOf ss => AllOf (map (rename_spec f) ss)
  end.
