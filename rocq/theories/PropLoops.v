(** Theorems about the loops as they are written: C97. *)

From Coq Require Import List ZArith NArith String Bool Permutation Sorted.
From Verif Require Import Py Segments Version VersionSets Parsers Rich Loops LoopFacts.
Import ListNotations.
Open Scope Z_scope.

Definition ver (s : string) : version := match parse_version (lit s) with Ok v => v | Err _ => Version 0 [0] None None None None end.

Definition pt (s : string) : item := Point (ver s).

(** ** C97 *)

(** Whatever stable algorithm [list.sort] uses, the result is the same. *)
Theorem C97_sort xs ys :
  (Permutation ys xs /\ StronglySorted (fun a b => item_lt b a = false) ys /\
   forall x, filter (fun y => negb (item_lt x y) && negb (item_lt y x)) ys = filter (fun y => negb (item_lt x y) && negb (item_lt y x)) xs)
  <-> ys = sort xs.
Proof. exact (sort_unique xs ys). Qed.
Print Assumptions C97_sort.

(** The merging loop, appending to a list and assigning to its last element. *)
Theorem C97_merge sorting u sets :
  (forall xs, Permutation (sorting xs) xs /\ StronglySorted (fun a b => item_lt b a = false) (sorting xs) /\
    forall x, filter (fun y => negb (item_lt x y) && negb (item_lt y x)) (sorting xs) = filter (fun y => negb (item_lt x y) && negb (item_lt y x)) xs) ->
  merge_as_written sorting u sets = merge_with u sets.
Proof. exact (merge_same sorting u sets). Qed.
Print Assumptions C97_merge.

(** The loops over two iterators end after at most as many turns as there are
    items. *)
Theorem C97_includes selfs items fuel : (List.length selfs + List.length items <= fuel)%nat ->
  while fuel includes_body (start selfs items) = Some (includes_loop selfs items).
Proof. exact (includes_same selfs items fuel). Qed.
Print Assumptions C97_includes.

Theorem C97_intersects selfs items fuel : (List.length selfs + List.length items <= fuel)%nat ->
  while fuel intersects_body (start selfs items) = Some (intersects_loop selfs items).
Proof. exact (intersects_same selfs items fuel). Qed.
Print Assumptions C97_intersects.

Theorem C97_intersection selfs items fuel : (List.length selfs + List.length items <= fuel)%nat ->
  while fuel intersection_body (start selfs items, []) = Some (intersection_loop selfs items).
Proof. exact (intersection_same selfs items fuel). Qed.
Print Assumptions C97_intersection.

(** The helpers of utils.py. *)
Theorem C97_ends (xs : list item) :
  (xs = [] -> first xs = Err IndexError /\ last xs = Err IndexError /\ forall y, set_last xs y = Err IndexError)
  /\ (forall x, first (x :: xs) = Ok x) /\ (forall x, last (xs ++ [x]) = Ok x) /\ (forall x y, set_last (xs ++ [x]) y = Ok (xs ++ [y]))
  /\ (contains_only_item xs = true <-> exists x, xs = [x]).
Proof. exact (ends xs). Qed.
Print Assumptions C97_ends.

Theorem C97_flatten sets : flatten (map extract sets) = flat_map extract sets.
Proof. exact (flatten_map extract sets). Qed.
Print Assumptions C97_flatten.

Theorem C97_padding n p xs : fix_to_length n p xs = Segments.fix_to_length n p xs.
Proof. exact (fix_as_written n p xs). Qed.
Print Assumptions C97_padding.

Theorem C97_counting xs : count_leading_zeros xs = Segments.count_leading_zeros xs.
Proof. exact (count_as_written xs). Qed.
Print Assumptions C97_counting.

(** Splitting at several characters by translating them to one: the pieces have
    none of them and are what lies between them. *)
Theorem C97_split main rest s : between (fun c => existsb (N.eqb c) (main :: rest)) s (split_multiple main rest s).
Proof. exact (split_between main rest s). Qed.
Print Assumptions C97_split.

Theorem C97_separators s : split_separators s = Segments.split_separators s.
Proof. exact (split_as_written s). Qed.
Print Assumptions C97_separators.

(** Every way to make a segment or a union checks that it is not too small, and
    otherwise keeps what it is given. *)
Theorem C97_releases r ps :
  (ps <> [] -> release_create (Some ps) = Ok ps /\ release_from_iterable ps = Ok ps /\ release_from_parts ps = Ok ps /\ release_set_parts r ps = Ok ps)
  /\ (ps = [] -> release_create (Some ps) = Err ValueError /\ release_from_iterable ps = Err ValueError /\ release_from_parts ps = Err ValueError /\ release_set_parts r ps = Err ValueError)
  /\ release_create None = Ok [0; 0; 0] /\ release_into_parts r = r.
Proof. exact (release_constructors r ps). Qed.
Print Assumptions C97_releases.

Theorem C97_locals l ps :
  (ps <> [] -> local_create ps = Ok ps /\ local_from_iterable ps = Ok ps /\ local_from_parts ps = Ok ps /\ local_set_parts l ps = Ok ps)
  /\ (ps = [] -> local_create ps = Err ValueError /\ local_from_iterable ps = Err ValueError /\ local_from_parts ps = Err ValueError /\ local_set_parts l ps = Err ValueError)
  /\ local_into_parts l = l.
Proof. exact (local_constructors l ps). Qed.
Print Assumptions C97_locals.

Theorem C97_unions items :
  of_unchecked items = of_iterable_unchecked items
  /\ ((2 <= List.length items)%nat -> of_unchecked items = Ok (Union items))
  /\ ((List.length items < 2)%nat -> of_unchecked items = Err ValueError).
Proof. exact (unions_constructed items). Qed.
Print Assumptions C97_unions.

(** Negation reverses the order of integers and infinities, and undoes itself. *)
Theorem C97_negation x y o :
  (is_any_infinity x = true \/ exists z, x = VInt z) -> (is_any_infinity y = true \/ exists z, y = VInt z) ->
  exists x' y', negated x = Ok x' /\ negated y = Ok y'
  /\ (is_any_infinity x' = true \/ exists z, x' = VInt z) /\ (is_any_infinity y' = true \/ exists z, y' = VInt z)
  /\ negated x' = Ok x /\ negated y' = Ok y /\ rich o x' y' = rich o y x.
Proof. exact (negation_reverses x y o). Qed.
Print Assumptions C97_negation.

(** Unsorted, overlapping and equal items; stability decides whether [1.0] or
    [1.0.0] is kept. *)
Example C97_case :
  merge_as_written sort (item_union depth) [Item (pt "3.0"); Item (pt "1.0.0"); Item (pt "1.0"); Item (Range (Some (ver "2.0")) (Some (ver "3.0")) true false)]
  = Ok (Union [pt "1.0.0"; Range (Some (ver "2.0")) (Some (ver "3.0")) true true])
  /\ sort [pt "2.0"; pt "1.0.0"; pt "1.0"] = [pt "1.0.0"; pt "1.0"; pt "2.0"]
  /\ while 3 intersects_body (start [pt "1.0"; pt "3.0"] [pt "3.0"]) = Some true
  /\ while 0 intersects_body (start [pt "1.0"; pt "3.0"] [pt "3.0"]) = None
  /\ split_multiple 46 [45%N; 95%N] (lit "a-b_1.c") = [lit "a"; lit "b"; lit "1"; lit "c"]
  /\ fix_to_length 3 0 [1; 2] = [1; 2; 0].
Proof. vm_compute. repeat (split; [reflexivity|]). reflexivity. Qed.
