(** Sizes of sets and specifiers. *)

From Coq Require Import List.
From Verif Require Import VersionSets Specifiers.
Import ListNotations.

(** Points and ranges of a set. *)
Definition count (a : vset) : nat :=
  match a with Empty => 0 | Item _ => 1 | Union items => length items end.

(** Comparisons with a version in a specifier. *)
Fixpoint clauses (s : spec) : nat :=
  match s with
  | Never | Always => 0
  | One _ _ => 1
  | AnyOf ss | AllOf ss => fold_right (fun s n => clauses s + n) 0 ss
  end.
