(** C113: how often the operations on sets compare versions. *)

From Coq Require Import List ZArith NArith String Bool Lia.
From Verif Require Import Py Segments Version VersionSets Operators Specifiers SizeSpec Counts ConvertCounts CountSpec CountFacts MergeCounts ConvertCountFacts AcceptCounts AcceptCountFacts Spec.
Import ListNotations.
Local Open Scope nat_scope.
Local Opaque depth.

(** Questions: linear in the number of items. *)
Theorem C113_contains a v : fst (contains_c a v) = contains a v /\ snd (contains_c a v) <= 4 * count a.
Proof. exact (contains_cost a v). Qed.
Print Assumptions C113_contains.

Theorem C113_equal a b : fst (set_eqb_c a b) = set_eqb a b /\ snd (set_eqb_c a b) <= 2 * min (count a) (count b).
Proof. exact (set_eqb_cost a b). Qed.
Print Assumptions C113_equal.

Theorem C113_includes a b : fst (includes_c a b) = includes a b /\ snd (includes_c a b) <= 4 * (count a + count b).
Proof. exact (includes_cost a b). Qed.
Print Assumptions C113_includes.

Theorem C113_intersects a b : fst (intersects_c a b) = intersects a b /\ snd (intersects_c a b) <= 6 * (count a + count b).
Proof. exact (intersects_cost a b). Qed.
Print Assumptions C113_intersects.

(** What [list.sort] is charged for. *)
Theorem C113_compare s o : fst (item_compare_c s o) = item_compare s o /\ snd (item_compare_c s o) <= 4.
Proof. exact (item_compare_cost s o). Qed.
Print Assumptions C113_compare.

(** For two items, and for a range and a version, exactly. *)
Theorem C113_items s o :
  snd (is_lower_c s o) = first_settles (is_lt (b_cmp (comparable_min s) (comparable_min o)))
  /\ snd (is_higher_c s o) = first_settles (is_lt (b_cmp (comparable_max s) (comparable_max o)))
  /\ snd (is_strictly_lower_c s o) = first_settles (is_lt (b_cmp (comparable_max s) (comparable_min o)))
  /\ snd (is_strictly_higher_c s o) = first_settles (is_gt (b_cmp (comparable_min s) (comparable_max o)))
  /\ snd (is_adjacent_c s o) = first_settles (is_left_adjacent s o)
  /\ snd (item_eqb_c s o) = first_settles (negb (o_eq (i_min s) (i_min o)))
  /\ snd (item_compare_c s o)
     = first_settles (is_gt (b_cmp (comparable_min s) (comparable_min o)))
       + (if is_eq (b_cmp (comparable_min s) (comparable_min o)) && negb (Bool.eqb (i_include_min s) (i_exclude_min o))
          then first_settles (is_gt (b_cmp (comparable_max s) (comparable_max o))) else 0).
Proof. exact (exact_counts s o). Qed.
Print Assumptions C113_items.

Theorem C113_range min max imin imax v : let i := Range min max imin imax in
  snd (item_contains_c i v)
  = if is_lt (b_cmp (Fin v) (comparable_min i)) then 1
    else (if imin then 1 else 2)
         + (if negb imin && is_eq (b_cmp (Fin v) (comparable_min i)) then 0
            else if is_gt (b_cmp (Fin v) (comparable_max i)) then 1
            else if imax then 1 else 2).
Proof. exact (exact_contains min max imin imax v). Qed.
Print Assumptions C113_range.

(** Operations: linear besides sorting, unless the recursion does not end. *)
Theorem C113_merge w sets : sorting w ->
  let n := list_sum (map count sets) in
  fst (merge_c w sets) = merge sets /\ (merge sets <> Err RecursionError -> snd (merge_c w sets) <= 4 * w n + 38 * n).
Proof.
  intros [W _] n. destruct (merge_cost w W sets) as [E L]. split; [exact E|]. intros N. specialize (L N).
  assert (T : SizeFacts.total sets = n).
  { unfold n. clear. induction sets as [|a sets IH]; [reflexivity|]. change (count a + SizeFacts.total sets = count a + list_sum (map count sets)). now rewrite IH. }
  rewrite T in L. lia.
Qed.
Print Assumptions C113_merge.

Theorem C113_union w a b : sorting w -> let n := count a + count b in
  fst (union_c w a b) = union a b /\ (union a b <> Err RecursionError -> snd (union_c w a b) <= 4 * w n + 42 * n).
Proof. intros [W _]. exact (union_cost w W a b). Qed.
Print Assumptions C113_union.

Theorem C113_intersection w a b : sorting w -> let n := count a + count b in
  fst (intersection_c w a b) = intersection a b /\ (intersection a b <> Err RecursionError -> snd (intersection_c w a b) <= 4 * w n + 50 * n).
Proof. intros [W M]. exact (intersection_cost w W M a b). Qed.
Print Assumptions C113_intersection.

Theorem C113_difference w a b : sorting w -> let n := count a + count b in
  fst (difference_c w a b) = difference a b /\ (difference a b <> Err RecursionError -> snd (difference_c w a b) <= 4 * w n + 100 * S n).
Proof. intros [W M]. exact (difference_cost w W M a b). Qed.
Print Assumptions C113_difference.

Theorem C113_complement w a : sorting w -> let n := S (count a) in
  fst (complement_c w a) = complement a /\ (complement a <> Err RecursionError -> snd (complement_c w a) <= 4 * w n + 100 * S n).
Proof. intros [W M]. exact (complement_cost w W M a). Qed.
Print Assumptions C113_complement.

Theorem C113_symmetric_difference w a b : sorting w -> let n := count a + count b in
  fst (symmetric_difference_c w a b) = symmetric_difference a b
  /\ (symmetric_difference a b <> Err RecursionError -> snd (symmetric_difference_c w a b) <= 12 * w (2 * n) + 300 * S n).
Proof. intros [W M]. exact (symmetric_difference_cost w W M a b). Qed.
Print Assumptions C113_symmetric_difference.

(** Conversions: a set is converted in linear time, a specifier in quadratic time, besides sorting. *)
Theorem C113_specifier w a : sorting w ->
  fst (to_specifier_c w a) = version_set_to_specifier a
  /\ (version_set_to_specifier a <> Err RecursionError -> snd (to_specifier_c w a) <= 4 * w (S (count a)) + 103 * (2 + count a)).
Proof. intros W. exact (to_specifier_cost w W a). Qed.
Print Assumptions C113_specifier.

Theorem C113_version_set w s : sorting w -> let n := members s in
  fst (to_version_set_c w s) = specifier_to_version_set s
  /\ (specifier_to_version_set s <> Err RecursionError -> snd (to_version_set_c w s) <= (2 * n - 1) * (4 * w (2 * n) + 160 * n)).
Proof. intros W. exact (proj2 (to_version_set_bounded w W s)). Qed.
Print Assumptions C113_version_set.

Theorem C113_simplify w s : sorting w -> let n := members s in
  fst (simplify_c w s) = simplify s
  /\ (simplify s <> Err RecursionError -> snd (simplify_c w s) <= 8 * n * w (S (2 * n)) + 320 * (n * n) + 206 * n + 206).
Proof. intros W. exact (simplify_cost w W s). Qed.
Print Assumptions C113_simplify.

(** Answers of operators, exactly, and of specifiers. *)
Theorem C113_matches t v w :
  fst (op_matches_c t v w) = op_matches t v w
  /\ (op_made t w -> snd (op_matches_c t v w) = match t with
        | CARET | TILDE | TILDE_EQUAL => first_settles (v_lt v w)
        | WILDCARD_EQUAL | WILDCARD_DOUBLE_EQUAL | WILDCARD_NOT_EQUAL =>
            if is_stable w && negb (is_post_release w) && (List.length (v_release w) =? 1) then 0 else first_settles (v_lt v w)
        | _ => 1
        end).
Proof. exact (conj (proj1 (op_matches_cost t v w)) (op_matches_exact t v w)). Qed.
Print Assumptions C113_matches.

Theorem C113_accepts s v : fst (accepts_c s v) = accepts s v /\ snd (accepts_c s v) <= 2 * members s.
Proof. exact (accepts_cost s v). Qed.
Print Assumptions C113_accepts.

Theorem C113_first s ss v :
  (accepts s v = Ok true -> accepts_c (AnyOf (s :: ss)) v = accepts_c s v) /\ (accepts s v = Ok false -> accepts_c (AllOf (s :: ss)) v = accepts_c s v).
Proof. exact (first_asked s ss v). Qed.
Print Assumptions C113_first.

(** Sorting by insertion, for instance, and some counts. *)
Definition pairs (n : nat) : nat := n * (n - 1) / 2.
Definition upto (n : Z) : version := Version 0 [n] None None None None.
Definition span (n : Z) : item := Range (Some (upto n)) (Some (upto (n + 1))) true true.

Example C113_case : sorting pairs
  /\ union_c pairs (Union [span 1; span 4]) (Union [span 2; span 7]) = (Ok (Union [Range (Some (upto 1)) (Some (upto 3)) true true; span 4; span 7]), 47)
  /\ snd (difference_c pairs (Union [span 1; span 4]) (Union [span 2; span 7])) = 26
  /\ snd (includes_c (Union [span 1; span 4]) (Union [span 1; span 7])) = 12
  /\ snd (to_version_set_c pairs (AllOf [One NOT_EQUAL (upto 1); One NOT_EQUAL (upto 2); One NOT_EQUAL (upto 3)])) = 186
  /\ accepts_c (AllOf [One CARET (upto 2); One NOT_EQUAL (upto 2); One LESS (upto 1)]) (upto 2) = (Ok false, 3)
  /\ accepts_c (AllOf [One CARET (upto 2); One NOT_EQUAL (upto 2); One LESS (upto 1)]) (upto 1) = (Ok false, 1).
Proof.
  split; [|repeat split; vm_compute; reflexivity]. split; [cbn; lia|]. intros m n L. unfold pairs. apply Nat.div_le_mono; [lia|]. nia.
Qed.
