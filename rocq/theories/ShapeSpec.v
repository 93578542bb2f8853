(** What the specifier parser can return (C122). *)

From Coq Require Import List ZArith NArith String Bool.
From Verif Require Import Py Segments Version Operators Specifiers Spec Clauses.
Import ListNotations.
Open Scope Z_scope.

(** A clause; a clause or several joined by ','; one of these or several joined by '||'. *)
Definition single (s : spec) : Prop := exists t v, s = One t v.
Definition conjunction (s : spec) : Prop := single s \/ exists ss, s = AllOf ss /\ (2 <= List.length ss)%nat /\ Forall single ss.
Definition disjunction (s : spec) : Prop := conjunction s \/ exists ss, s = AnyOf ss /\ (2 <= List.length ss)%nat /\ Forall conjunction ss.

(** Which versions can be written after an operator.  A wildcard stands for the last number, which is read as 0. *)
Definition writes (t : op_type) (v : version) : Prop :=
  wf v
  /\ (v_local v <> None -> In t [EQUAL; DOUBLE_EQUAL; NOT_EQUAL])
  /\ (t = TILDE_EQUAL -> (2 <= List.length (v_release v))%nat)
  /\ (In t [WILDCARD_EQUAL; WILDCARD_DOUBLE_EQUAL; WILDCARD_NOT_EQUAL] -> last_number v = 0).

(** How deep calls on members go. *)
Fixpoint height (s : spec) : nat :=
  match s with
  | AnyOf ss | AllOf ss => S (fold_right (fun s n => Nat.max (height s) n) 0%nat ss)
  | _ => 0%nat
  end.
