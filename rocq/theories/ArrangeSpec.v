(** Specification strings with the same clauses, arranged differently. *)

From Coq Require Import List.
From Verif Require Import Py.
Import ListNotations.

(** [widened css css']: every alternative of [css] has all the clauses of some
    alternative of [css'].  So alternatives may be added, clauses dropped, and
    both put in another order or repeated. *)
Definition widened (css css' : list (list pstr)) : Prop :=
  forall cs, In cs css -> exists cs', In cs' css' /\ forall c, In c cs' -> In c cs.

(** The same clauses occur, anywhere. *)
Definition same_clauses (css css' : list (list pstr)) : Prop :=
  forall c, (exists cs, In cs css /\ In c cs) <-> exists cs, In cs css' /\ In c cs.
