(** [ItemsDifference] (version_sets.py:1199-1326) as an object: [VersionSets.v]
    models what [compute] does; here are the separate methods, in whatever
    order they are called.  Simplification: the state in which an exception
    leaves the object is not kept. *)

From Coq Require Import List ZArith NArith String Bool.
From Verif Require Import Py Segments Version VersionSets.
Import ListNotations.

(** version_sets.py:1203-1213; before [prepare] both current items are [None]. *)
Record stepper := Stepper { st_state : dstate; st_prepared : bool }.

Definition stepper_new (items others : list item) : stepper :=
  Stepper (DState items others None None []) false.

(** version_sets.py:1213, 1326 *)
Definition st_result (s : stepper) : list item := d_result (st_state s).

(** version_sets.py:1215-1219 *)
Definition is_prepared (s : stepper) : bool := st_prepared s.
Definition is_not_prepared (s : stepper) : bool := negb (st_prepared s).

(** version_sets.py:1221-1227 *)
Definition check_prepared (s : stepper) : result unit :=
  if is_not_prepared s then Err ValueError else Ok tt.
Definition check_not_prepared (s : stepper) : result unit :=
  if is_prepared s then Err ValueError else Ok tt.

(** version_sets.py:1263-1269 *)
Definition st_prepare (s : stepper) : result stepper :=
  let* _u := check_not_prepared s in
  let d := st_state s in
  let '(cur, items) := next_or_none (d_items d) in
  let '(other, others) := next_or_none (d_others d) in
  Ok (Stepper (DState items others cur other (d_result d)) true).

(** version_sets.py:1271-1310 *)
Definition st_step (s : stepper) : result (stepper * bool) :=
  let* _u := check_prepared s in
  let* p := d_step (st_state s) in
  Ok (Stepper (fst p) (st_prepared s), snd p).

(** version_sets.py:1312-1319; [fuel] bounds the number of iterations *)
Fixpoint st_loop (fuel : nat) (s : stepper) : result stepper :=
  match fuel with
  | O => Err RecursionError
  | S fuel' =>
      let* p := st_step s in
      if snd p then st_loop fuel' (fst p) else Ok (fst p)
  end.

(** Every item and every other item is consumed at most once. *)
Definition st_fuel (s : stepper) : nat :=
  S (List.length (d_items (st_state s)) + List.length (d_others (st_state s))).

(** version_sets.py:1321-1326 *)
Definition st_compute (s : stepper) : result (stepper * list item) :=
  let* p := st_prepare s in
  let* q := st_loop (st_fuel s) p in
  Ok (q, st_result q).
