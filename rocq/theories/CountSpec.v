(** What the bounds on the numbers of comparisons are stated with. *)

From Coq Require Import List.
From Verif Require Import VersionSets Specifiers.
Import ListNotations.

(** [w n] is how often sorting [n] items calls [<], at most: once for two items, and not
    less for more items. *)
Definition sorting (w : nat -> nat) : Prop := w 2 <= 1 /\ forall m n, m <= n -> w m <= w n.

(** Members of a specifier that are not groups. *)
Fixpoint members (s : spec) : nat :=
  match s with
  | Never | Always | One _ _ => 1
  | AnyOf [] | AllOf [] => 1
  | AnyOf ss | AllOf ss => fold_right (fun s n => members s + n) 0 ss
  end.

(** One comparison if it settles the question, two otherwise. *)
Definition first_settles (b : bool) : nat := if b then 1 else 2.
