(** How often the answer of a specifier can change as versions go up. *)

From Coq Require Import List.
From Verif Require Import Operators Specifiers.
Import ListNotations.

(** Once for an operator that bounds on one side, twice for any other. *)
Fixpoint turns (s : spec) : nat :=
  match s with
  | Never | Always => 0
  | One LESS _ | One LESS_OR_EQUAL _ | One GREATER _ | One GREATER_OR_EQUAL _ => 1
  | One _ _ => 2
  | AnyOf ss | AllOf ss => fold_right (fun s n => turns s + n) 0 ss
  end.
