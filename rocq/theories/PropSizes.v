(** Theorems about the sizes of results: C83, C84, C85. *)

From Coq Require Import List ZArith NArith String Bool.
From Verif Require Import Py Segments Version VersionSets Operators Specifiers Parsers Spec SpecMeaning SetVersions SetTheorems SizeSpec SizeFacts EdgeFacts.
Import ListNotations.
Local Open Scope nat_scope.

Definition ver (n : Z) : version := Version 0 [n] None None None None.
(** [[2n, 2n + 1)] *)
Definition block (n : Z) : item := Range (Some (ver (2 * n)%Z)) (Some (ver (2 * n + 1)%Z)) true false.
Definition blocks : vset := Union [block 1; block 2; block 3].

(** ** C83 Results of set operations stay small *)

(** Whatever the arguments. *)
Theorem C83_union a b r : union a b = Ok r -> count r <= count a + count b.
Proof. exact (union_count a b r). Qed.
Print Assumptions C83_union.

Theorem C83_merge sets r : merge sets = Ok r -> count r <= list_sum (map count sets).
Proof.
  intros H. apply merge_count in H. enough (E : total sets = list_sum (map count sets)) by now rewrite <- E.
  clear. induction sets as [|a sets IH]; [reflexivity|]. change (count a + total sets = count a + list_sum (map count sets)). now rewrite IH.
Qed.
Print Assumptions C83_merge.

Theorem C83_intersection a b r : intersection a b = Ok r -> count r <= count a + count b - 1.
Proof. exact (intersection_count a b r). Qed.
Print Assumptions C83_intersection.

Theorem C83_difference a b r : difference a b = Ok r -> count r <= count a + count b.
Proof. exact (difference_count a b r). Qed.
Print Assumptions C83_difference.

Theorem C83_complement a r : complement a = Ok r -> count r <= S (count a).
Proof. exact (complement_count a r). Qed.
Print Assumptions C83_complement.

(** The bounds are reached. *)
Example C83_case :
  rmap count (union blocks (Union [block 7; block 8])) = Ok 5
  /\ rmap count (intersection (Union [block 1; Range (Some (ver 4)) (Some (ver 8)) true true]) (Union [Range (Some (ver 1)) (Some (ver 5)) true true; Range (Some (ver 6)) None false false])) = Ok 3
  /\ rmap count (difference (Union [Range (Some (ver 1)) (Some (ver 10)) true true; block 6]) blocks) = Ok 5
  /\ rmap count (complement blocks) = Ok 4.
Proof. now vm_compute. Qed.

(** ** C84 Canonical sets are the shortest *)

Theorem C84_shortest a items : canonical a -> Forall good_item items -> Forall worded (bounds a) -> Forall worded (flat_map item_bounds items) ->
  (forall v, worded v -> (in_set a v <-> Exists (fun i => in_item i v) items)) -> count a <= List.length items.
Proof. exact (shortest_worded a items). Qed.
Print Assumptions C84_shortest.

(** [[2, 4]] in three pieces, and in one. *)
Example C84_case : let items := [Range (Some (ver 2)) (Some (ver 3)) true true; Range (Some (ver 3)) (Some (ver 4)) true false; Point (ver 4)] in
  merge (map Item items) = Ok (Item (Range (Some (ver 2)) (Some (ver 4)) true true)) /\ Forall good_item items.
Proof.
  split; [vm_compute; reflexivity|].
  constructor; [split; [discriminate|split; [discriminate|reflexivity]]|]. constructor; [split; [discriminate|split; [discriminate|reflexivity]]|].
  constructor; [exact I|constructor].
Qed.

(** ** C85 Conversion and simplification do not blow up *)

Theorem C85_count s a : spec_made s -> each_op plain_op s -> specifier_to_version_set s = Ok a -> count a <= S (clauses s).
Proof. exact (convert_count s a). Qed.
Print Assumptions C85_count.

Theorem C85_simplify s u : spec_made s -> each_op plain_op s -> simplify s = Ok u -> clauses u <= 2 * clauses s.
Proof. exact (simplify_clauses s u). Qed.
Print Assumptions C85_simplify.

(** In particular what is parsed. *)
Theorem C85_parsed x p : parse_specifier x = Ok p ->
  (forall a, specifier_to_version_set p = Ok a -> count a <= S (clauses p)) /\ (forall u, simplify p = Ok u -> clauses u <= 2 * clauses p).
Proof. intros H. split; [intros a; exact (parsed_count x p a H)|intros u; exact (parsed_clauses x p u H)]. Qed.
Print Assumptions C85_parsed.

(** The bounds are reached. *)
Example C85_case : exists p u q w, parse_specifier (lit "!=1, !=2, !=3") = Ok p /\ rmap count (specifier_to_version_set p) = Ok 4 /\ clauses p = 3
  /\ simplify p = Ok u /\ clauses u = 6
  /\ parse_specifier (lit "^1.2 || ^3.4") = Ok q /\ simplify q = Ok w /\ clauses q = 2 /\ clauses w = 4.
Proof.
  do 4 eexists. split; [vm_compute; reflexivity|]. split; [vm_compute; reflexivity|]. split; [reflexivity|]. split; [vm_compute; reflexivity|].
  split; [reflexivity|]. split; [vm_compute; reflexivity|]. split; [vm_compute; reflexivity|]. split; reflexivity.
Qed.
