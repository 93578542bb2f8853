(** Theorems about version sets: C21-C33, C46, C51-C54. *)

From Coq Require Import List ZArith NArith String Bool Permutation.
From Verif Require Import Py Segments Version VersionSets Spec SetVersions SetTheorems SetAlgebra SetCounter Provenance DepthFacts.
Import ListNotations.
Open Scope Z_scope.

(** ** C21 *)

Theorem C21_contains a v : contains a v = true <-> in_set a v.
Proof. exact (in_set_contains a v). Qed.
Print Assumptions C21_contains.

Theorem C21_constructor min max imin imax :
  (range_new min max imin imax = Err ValueError <->
     (min = None /\ imin = true) \/ (max = None /\ imax = true)
     \/ exists m M, min = Some m /\ max = Some M /\ v_lt M m = true)
  /\ (range_new min max imin imax <> Err ValueError ->
      range_new min max imin imax = Ok (Range min max imin imax)).
Proof. exact (range_new_cases min max imin imax). Qed.
Print Assumptions C21_constructor.

Example C21_case : contains u1234 v1 = true /\ contains u1234 v2 = false /\ contains u1234 v4 = true
  /\ range_new (Some v2) (Some v1) true true = Err ValueError
  /\ range_new None (Some v1) false true = Ok (Range None (Some v1) false true).
Proof. now vm_compute. Qed.

(** ** C22 *)

Theorem C22_intersection a b : canonical a -> canonical b ->
  exists r, intersection a b = Ok r /\ canonical r
    /\ forall v, contains r v = true <-> in_set a v /\ in_set b v.
Proof. exact (intersection_versions a b). Qed.
Print Assumptions C22_intersection.

Example C22_case : canonical u1234 /\ canonical (Item after_1)
  /\ intersection u1234 (Item after_1) = Ok (Union [Range (Some v1) (Some v2) false false; r34]).
Proof. split; [exact canonical_u1234|]. split; [exact canonical_after_1|]. now vm_compute. Qed.

(** ** C23 *)

(** Everything except the clash: a point and a range starting just after it. *)
Theorem C23_union_partial a b : canonical a -> canonical b ->
  (~ union_clash a b -> exists r, union a b = Ok r /\ canonical r
    /\ forall v, contains r v = true <-> in_set a v \/ in_set b v)
  /\ (union_clash a b -> union a b = Err RecursionError).
Proof. exact (union_versions a b). Qed.
Print Assumptions C23_union_partial.

(** VersionUnion.of on any number of sets. *)
Theorem C23_merge_partial sets : Forall canonical sets ->
  (~ clash (flat_map extract sets) -> exists r, merge sets = Ok r /\ canonical r
     /\ forall v, contains r v = true <-> Exists (fun a => in_set a v) sets)
  /\ (clash (flat_map extract sets) -> merge sets = Err RecursionError).
Proof. exact (merge_versions sets). Qed.
Print Assumptions C23_merge_partial.

Theorem C23_union_refuted : exists a b,
  canonical a /\ canonical b /\ union a b = Err RecursionError
  /\ forall d, merge_with (item_union (S d)) [a; b] = Err RecursionError.
Proof. exact union_refuted. Qed.
Print Assumptions C23_union_refuted.

(** Canonical form is needed too: the constructor accepts [[1.0, 1.0)]. *)
Theorem C23_noncanonical_refuted : exists i j r v, made i /\ made j
  /\ union (Item i) (Item j) = Ok r /\ in_set (Item j) v /\ contains r v = false.
Proof. exact noncanonical_union. Qed.
Print Assumptions C23_noncanonical_refuted.

Example C23_case : ~ union_clash (Item r12) (Item (Point v2))
  /\ union (Item r12) (Item (Point v2)) = Ok (Item (Range (Some v1) (Some v2) true true))
  /\ union_clash (Item (Point v1)) (Item after_1).
Proof. split; [intros []|]. now vm_compute. Qed.

(** ** C24 *)

Theorem C24_difference_partial a b : canonical a -> canonical b ->
  (~ difference_unchanged a b -> ~ difference_lost a b -> exists r, difference a b = Ok r /\ canonical r
    /\ forall v, contains r v = true <-> in_set a v /\ ~ in_set b v)
  /\ (difference_unchanged a b -> difference a b = Ok a)
  /\ (difference_lost a b -> difference a b = Ok Empty).
Proof. exact (difference_versions a b). Qed.
Print Assumptions C24_difference_partial.

Theorem C24_difference_refuted : exists a b r v,
  canonical a /\ canonical b /\ difference a b = Ok r
  /\ in_set a v /\ ~ in_set b v /\ contains r v = false.
Proof. exact difference_refuted. Qed.
Print Assumptions C24_difference_refuted.

Theorem C24_difference_range_refuted : exists a b r v,
  canonical a /\ canonical b /\ difference a b = Ok r
  /\ in_set b v /\ contains r v = true.
Proof. exact difference_refuted_range. Qed.
Print Assumptions C24_difference_range_refuted.

Example C24_case : ~ difference_unchanged u1234 (Item (Point v1)) /\ ~ difference_lost u1234 (Item (Point v1))
  /\ difference u1234 (Item (Point v1)) = Ok (Union [Range (Some v1) (Some v2) false false; r34])
  /\ difference_unchanged (Item r12) u1234 /\ difference_lost u1234 Empty.
Proof.
  split; [intros []|]. split; [intros []|]. split; [now vm_compute|]. split; [|exact I].
  left. split; right; split; auto.
Qed.

(** ** C25 *)

Theorem C25_complement a : canonical a ->
  exists r, complement a = Ok r /\ canonical r
    /\ (forall v, contains r v = true <-> ~ in_set a v)
    /\ exists b, complement r = Ok b /\ set_eqb b a = true.
Proof. exact (complement_versions a). Qed.
Print Assumptions C25_complement.

Example C25_case : canonical u1234 /\ complement u1234 =
  Ok (Union [Range None (Some v1) false false; Range (Some v2) (Some v3) true true; Range (Some v4) None false false]).
Proof. split; [exact canonical_u1234|]. now vm_compute. Qed.

(** ** C26 *)

Theorem C26_symmetric_difference_partial a b : canonical a -> canonical b ->
  match a with
  | Empty => symmetric_difference a b = Ok b
  | Union _ => symmetric_difference a b = Err AttributeError
  | Item _ =>
      ~ union_clash a b ->
      exists u n, union a b = Ok u /\ intersection a b = Ok n
        /\ (~ (n = Empty /\ exists items, u = Union items) ->
              exists r, symmetric_difference a b = Ok r /\ canonical r
                /\ forall v, contains r v = true <-> in_set a v /\ ~ in_set b v \/ ~ in_set a v /\ in_set b v)
        /\ (n = Empty -> (exists items, u = Union items) -> symmetric_difference a b = Ok Empty)
  end.
Proof. exact (symmetric_difference_versions a b). Qed.
Print Assumptions C26_symmetric_difference_partial.

Theorem C26_symmetric_difference_refuted : exists a b r v,
  canonical a /\ canonical b /\ symmetric_difference a b = Ok r
  /\ in_set a v /\ ~ in_set b v /\ contains r v = false.
Proof. exact symmetric_difference_refuted. Qed.
Print Assumptions C26_symmetric_difference_refuted.

Theorem C26_union_refuted : exists a b,
  canonical a /\ canonical b /\ symmetric_difference a b = Err AttributeError.
Proof. exact symmetric_difference_refuted_union. Qed.
Print Assumptions C26_union_refuted.

Example C26_case : ~ union_clash (Item r12) (Item after_1)
  /\ symmetric_difference (Item r12) (Item after_1) = Ok (Union [Point v1; Range (Some v2) None true false]).
Proof. split; [intros []|]. now vm_compute. Qed.

(** ** C27 *)

(** Over all versions whose local words are words, and over all versions that
    can be written down. *)
Theorem C27_includes a b :
  canonical a -> canonical b -> Forall worded (bounds a) -> Forall worded (bounds b) ->
  includes a b = true <-> forall v, worded v -> in_set b v -> in_set a v.
Proof. exact (includes_worded a b). Qed.
Print Assumptions C27_includes.

Theorem C27_includes_written a b :
  canonical a -> canonical b -> Forall written (bounds a) -> Forall written (bounds b) ->
  includes a b = true <-> forall v, wf v -> in_set b v -> in_set a v.
Proof. exact (includes_written a b). Qed.
Print Assumptions C27_includes_written.

Theorem C27_includes_sound a b : canonical a -> canonical b -> includes a b = true ->
  forall v, in_set b v -> in_set a v.
Proof. exact (includes_sound a b). Qed.
Print Assumptions C27_includes_sound.

(** The restriction on words is needed. *)
Theorem C27_any_word_refuted : exists a b, canonical a /\ canonical b /\ includes a b = false
  /\ forall v, valid_version v = true -> in_set b v -> in_set a v.
Proof. exact includes_refuted. Qed.
Print Assumptions C27_any_word_refuted.

Lemma bounds_u1234 : Forall worded (bounds u1234) /\ Forall written (bounds u1234).
Proof.
  split; repeat constructor; try discriminate; repeat split; try reflexivity; try discriminate;
    repeat constructor; discriminate.
Qed.

Example C27_case : includes u1234 (Item r12) = true /\ includes (Item r12) u1234 = false
  /\ Forall worded (bounds u1234) /\ Forall written (bounds u1234).
Proof. split; [now vm_compute|]. split; [now vm_compute|]. exact bounds_u1234. Qed.

(** ** C28 *)

Theorem C28_intersects_intersection a b : canonical a -> canonical b ->
  intersects a b = true <-> exists r, intersection a b = Ok r /\ is_empty r = false.
Proof. exact (intersects_intersection a b). Qed.
Print Assumptions C28_intersects_intersection.

Theorem C28_intersects a b :
  canonical a -> canonical b -> Forall worded (bounds a) -> Forall worded (bounds b) ->
  intersects a b = true <-> exists v, worded v /\ in_set a v /\ in_set b v.
Proof. exact (intersects_worded a b). Qed.
Print Assumptions C28_intersects.

Theorem C28_intersects_written a b :
  canonical a -> canonical b -> Forall written (bounds a) -> Forall written (bounds b) ->
  intersects a b = true <-> exists v, wf v /\ in_set a v /\ in_set b v.
Proof. exact (intersects_written a b). Qed.
Print Assumptions C28_intersects_written.

Theorem C28_intersects_complete a b v :
  canonical a -> canonical b -> in_set a v -> in_set b v -> intersects a b = true.
Proof. exact (intersects_complete a b v). Qed.
Print Assumptions C28_intersects_complete.

Theorem C28_any_word_refuted : exists a b, canonical a /\ canonical b /\ intersects a b = true
  /\ forall v, valid_version v = true -> ~ (in_set a v /\ in_set b v).
Proof. exact intersects_refuted. Qed.
Print Assumptions C28_any_word_refuted.

Example C28_case : intersects u1234 (Item after_1) = true
  /\ intersects u1234 (Item (Range (Some v2) (Some v3) true true)) = false.
Proof. now vm_compute. Qed.

(** ** C29 *)

Theorem C29_closed env e r : (forall n, canonical (env n)) -> eval env e = Ok r -> canonical r.
Proof. exact (eval_canonical env e r). Qed.
Print Assumptions C29_closed.

Theorem C29_members env e r : (forall n, canonical (env n)) -> eval env e = Ok r ->
  forall v, contains r v = truth (fun n => contains (env n) v) e.
Proof. exact (eval_members env e r). Qed.
Print Assumptions C29_members.

Theorem C29_total env e : (forall n, canonical (env n)) -> no_or e = true -> exists r, eval env e = Ok r.
Proof. exact (eval_total env e). Qed.
Print Assumptions C29_total.

Theorem C29_difference a b r : canonical a -> canonical b -> difference a b = Ok r -> canonical r.
Proof. exact (difference_canonical a b r). Qed.
Print Assumptions C29_difference.

Theorem C29_merge sets r : Forall canonical sets -> merge sets = Ok r -> canonical r.
Proof. exact (merge_canonical sets r). Qed.
Print Assumptions C29_merge.

(** A union never has a universal item. *)
Theorem C29_no_universal_item items : canonical (Union items) ->
  Forall (fun i => item_is_universal i = false) items.
Proof. exact (canonical_no_universal items). Qed.
Print Assumptions C29_no_universal_item.

Example C29_case :
  eval (fun n => match n with O => u1234 | _ => Item after_1 end) (SAnd (SNot (SVar 0)) (SOr (SVar 1) (SVar 0)))
  = Ok (Union [Range (Some v2) (Some v3) true true; Range (Some v4) None false false]).
Proof. now vm_compute. Qed.

(** ** C30 *)

Theorem C30_extensional a b :
  canonical a -> canonical b -> Forall worded (bounds a) -> Forall worded (bounds b) ->
  set_eqb a b = true <-> forall v, worded v -> (in_set a v <-> in_set b v).
Proof. exact (equal_worded a b). Qed.
Print Assumptions C30_extensional.

Theorem C30_extensional_written a b :
  canonical a -> canonical b -> Forall written (bounds a) -> Forall written (bounds b) ->
  set_eqb a b = true <-> forall v, wf v -> (in_set a v <-> in_set b v).
Proof. exact (equal_written a b). Qed.
Print Assumptions C30_extensional_written.

Theorem C30_equal_sound a b : canonical a -> canonical b -> set_eqb a b = true ->
  forall v, in_set a v <-> in_set b v.
Proof. exact (equal_sound a b). Qed.
Print Assumptions C30_equal_sound.

Theorem C30_any_word_refuted : exists a b, canonical a /\ canonical b /\ set_eqb a b = false
  /\ forall v, valid_version v = true -> (in_set a v <-> in_set b v).
Proof. exact equal_refuted. Qed.
Print Assumptions C30_any_word_refuted.

(** Every law of boolean algebra holds with [==] whenever both sides return. *)
Theorem C30_boolean_algebra env e f r s :
  (forall n, canonical (env n)) -> (forall rho, truth rho e = truth rho f) ->
  eval env e = Ok r -> eval env f = Ok s -> set_eqb r s = true.
Proof. exact (boolean_algebra env e f r s). Qed.
Print Assumptions C30_boolean_algebra.

(** De Morgan and distributivity are instances. *)
Example C30_case :
  (forall rho, truth rho (SNot (SAnd (SVar 0) (SVar 1))) = truth rho (SOr (SNot (SVar 0)) (SNot (SVar 1))))
  /\ (forall rho, truth rho (SAnd (SVar 0) (SOr (SVar 1) (SVar 2)))
               = truth rho (SOr (SAnd (SVar 0) (SVar 1)) (SAnd (SVar 0) (SVar 2))))
  /\ let env n := match n with O => u1234 | _ => Item after_1 end in
     exists r s, eval env (SNot (SAnd (SVar 0) (SVar 1))) = Ok r
       /\ eval env (SOr (SNot (SVar 0)) (SNot (SVar 1))) = Ok s /\ set_eqb r s = true.
Proof.
  split; [intros rho; cbn; destruct (rho 0%nat), (rho 1%nat); reflexivity|].
  split; [intros rho; cbn; destruct (rho 0%nat), (rho 1%nat), (rho 2%nat); reflexivity|].
  eexists. eexists. split; [vm_compute; reflexivity|]. split; [vm_compute; reflexivity|]. now vm_compute.
Qed.

(** ** C31 *)

Theorem C31_any_order xs ys r : Forall canonical xs -> Permutation xs ys -> merge xs = Ok r ->
  exists s, merge ys = Ok s /\ set_eqb r s = true.
Proof. exact (merge_permutation xs ys r). Qed.
Print Assumptions C31_any_order.

Theorem C31_any_grouping groups xs r :
  Forall2 (fun g x => Forall canonical g /\ merge g = Ok x) groups xs -> merge (List.concat groups) = Ok r ->
  exists s, merge xs = Ok s /\ set_eqb r s = true.
Proof. exact (merge_groups groups xs r). Qed.
Print Assumptions C31_any_grouping.

Example C31_case :
  exists r, merge [Item after_1; u1234; Item (Point v1)] = Ok r
    /\ merge [Item (Point v1); Item after_1; u1234] = Ok r
    /\ exists s, merge [u1234; Item (Point v1)] = Ok s /\ merge [Item after_1; s] = Ok r.
Proof.
  eexists. split; [vm_compute; reflexivity|]. split; [vm_compute; reflexivity|].
  eexists. split; [vm_compute; reflexivity|]. vm_compute. reflexivity.
Qed.

(** ** C32 *)

Theorem C32_is_empty a : canonical a -> Forall worded (bounds a) ->
  is_empty a = true <-> forall v, worded v -> ~ in_set a v.
Proof. exact (empty_worded a). Qed.
Print Assumptions C32_is_empty.

Theorem C32_is_universal a : canonical a -> Forall worded (bounds a) ->
  is_universal a = true <-> forall v, worded v -> in_set a v.
Proof. exact (universal_worded a). Qed.
Print Assumptions C32_is_universal.

Theorem C32_is_empty_written a : canonical a -> Forall written (bounds a) ->
  is_empty a = true <-> forall v, wf v -> ~ in_set a v.
Proof. exact (empty_written a). Qed.
Print Assumptions C32_is_empty_written.

Theorem C32_is_universal_written a : canonical a -> Forall written (bounds a) ->
  is_universal a = true <-> forall v, wf v -> in_set a v.
Proof. exact (universal_written a). Qed.
Print Assumptions C32_is_universal_written.

Theorem C32_any_word_refuted : exists a, canonical a /\ is_empty a = false
  /\ forall v, valid_version v = true -> ~ in_set a v.
Proof. exact empty_refuted. Qed.
Print Assumptions C32_any_word_refuted.

Theorem C32_below_lowest_refuted : exists a, canonical a /\ Forall wf (bounds a) /\ is_empty a = false
  /\ forall v, wf v -> ~ in_set a v.
Proof. exact below_lowest_refuted. Qed.
Print Assumptions C32_below_lowest_refuted.

Example C32_case : is_empty u1234 = false /\ is_universal u1234 = false /\ in_set u1234 v1 /\ ~ in_set u1234 v2.
Proof.
  repeat split; [apply C21_contains; reflexivity|]. rewrite <- C21_contains. now vm_compute.
Qed.

(** ** C33 *)

Theorem C33_total_order :
  (forall s o, made s -> made o ->
     (item_lt s o = true /\ item_eqb s o = false /\ item_gt s o = false)
     \/ (item_lt s o = false /\ item_eqb s o = true /\ item_gt s o = false)
     \/ (item_lt s o = false /\ item_eqb s o = false /\ item_gt s o = true))
  /\ (forall s o, made s -> made o -> item_le s o = item_lt s o || item_eqb s o)
  /\ (forall s o, made s -> made o -> item_ge s o = item_gt s o || item_eqb s o)
  /\ (forall s o, made s -> made o -> item_gt s o = item_lt o s)
  /\ (forall s o, made s -> made o -> item_eqb s o = item_eqb o s)
  /\ (forall s o t, made s -> made o -> made t -> item_lt s o = true -> item_lt o t = true -> item_lt s t = true)
  /\ (forall s o t, made s -> made o -> made t -> item_eqb s o = true -> item_eqb o t = true -> item_eqb s t = true)
  /\ (forall s, made s -> item_lt s s = false /\ item_eqb s s = true).
Proof. exact item_order. Qed.
Print Assumptions C33_total_order.

(** The lower minimum first. *)
Theorem C33_minimum_first m n M N b c d e :
  v_lt m n = true -> item_lt (Range (Some m) M b d) (Range (Some n) N c e) = true.
Proof. exact (item_lt_minimum m n M N b c d e). Qed.
Print Assumptions C33_minimum_first.

Example C33_case : made r12 /\ made (Point v1) /\ made after_1 /\ item_lt (Point v1) r12 = true
  /\ item_lt r12 after_1 = true /\ item_eqb (Point v1) (Range (Some v1) (Some v1) true true) = true.
Proof. now vm_compute. Qed.

(** ** C46 *)

(** The result does not depend on the depth of recursion allowed, so the only
    RecursionError is endless recursion. *)
Theorem C46_depth_irrelevant d sets : Forall canonical sets ->
  merge_with (item_union (S d)) sets = merge sets.
Proof. exact (merge_depth d sets). Qed.
Print Assumptions C46_depth_irrelevant.

(** From two nested calls on this holds of all items and lists of sets
    whatever, also of empty ranges and unordered unions. *)
Theorem C46_any_depth d s o sets :
  union (Item s) (Item o) = item_union (S (S d)) s o /\ merge sets = merge_with (item_union (S (S d))) sets.
Proof. exact (depth_any d s o sets). Qed.
Print Assumptions C46_any_depth.

Example C46_any_depth_case :
  item_union 2 (Point v2) (Range (Some v1) (Some v2) false false) = Ok (Item (Range (Some v1) (Some v2) false true))
  /\ item_union 1 (Point v2) (Range (Some v1) (Some v2) false false) = Err RecursionError
  /\ item_union 20 (Point v1) (Range (Some v1) (Some v1) false false) = Err RecursionError.
Proof. repeat split; vm_compute; reflexivity. Qed.

(** Every operation but union terminates on all canonical sets; union does
    unless its arguments clash. *)
Theorem C46_terminates_partial a b : canonical a -> canonical b ->
  intersection a b <> Err RecursionError /\ difference a b <> Err RecursionError
  /\ complement a <> Err RecursionError
  /\ (union a b = Err RecursionError <-> union_clash a b)
  /\ (symmetric_difference a b = Err RecursionError -> union_clash a b).
Proof. exact (operations_terminate a b). Qed.
Print Assumptions C46_terminates_partial.

Theorem C46_union_refuted : exists a b,
  canonical a /\ canonical b /\ union a b = Err RecursionError
  /\ forall d, merge_with (item_union (S d)) [a; b] = Err RecursionError.
Proof. exact union_refuted. Qed.
Print Assumptions C46_union_refuted.

Example C46_case : ~ union_clash u1234 (Item after_1) /\ exists r, union u1234 (Item after_1) = Ok r.
Proof.
  split; [|eexists; vm_compute; reflexivity].
  intros (v & r & I1 & _). cbn in I1. intuition discriminate.
Qed.

(** ** C51 *)

Theorem C51_union a b : canonical a -> canonical b ->
  (union_clash a b /\ union a b = Err RecursionError)
  \/ (~ union_clash a b /\ exists r, union a b = Ok r /\ canonical r
       /\ forall v, contains r v = true <-> in_set a v \/ in_set b v).
Proof. exact (union_exact a b). Qed.
Print Assumptions C51_union.

Theorem C51_merge sets : Forall canonical sets ->
  (clash (flat_map extract sets) /\ merge sets = Err RecursionError)
  \/ (~ clash (flat_map extract sets) /\ exists r, merge sets = Ok r /\ canonical r
       /\ forall v, contains r v = true <-> Exists (fun a => in_set a v) sets).
Proof. exact (merge_exact sets). Qed.
Print Assumptions C51_merge.

Example C51_case :
  union (Item (Point v1)) (Item after_1) = Err RecursionError
  /\ union (Item after_1) (Item (Point v1)) = Ok (Item (Range (Some v1) None true false))
  /\ merge [Item (Point v1); Item after_1] = Err RecursionError.
Proof. now vm_compute. Qed.

(** ** C52 *)

Theorem C52_difference a b : canonical a -> canonical b ->
  (difference_unchanged a b /\ difference a b = Ok a)
  \/ (difference_lost a b /\ difference a b = Ok Empty)
  \/ (~ difference_unchanged a b /\ ~ difference_lost a b
      /\ exists r, difference a b = Ok r /\ canonical r
           /\ forall v, contains r v = true <-> in_set a v /\ ~ in_set b v).
Proof. exact (difference_exact a b). Qed.
Print Assumptions C52_difference.

Example C52_case : difference (Item r12) u1234 = Ok (Item r12) /\ difference u1234 Empty = Ok Empty
  /\ difference u1234 (Item r12) = Ok (Item r34).
Proof. now vm_compute. Qed.

(** ** C53 *)

Theorem C53_symmetric_difference a b : canonical a -> canonical b ->
  match a with
  | Empty => symmetric_difference a b = Ok b
  | Union _ => symmetric_difference a b = Err AttributeError
  | Item _ =>
      ~ union_clash a b ->
      exists u n, union a b = Ok u /\ intersection a b = Ok n
        /\ (~ (n = Empty /\ exists items, u = Union items) ->
              exists r, symmetric_difference a b = Ok r /\ canonical r
                /\ forall v, contains r v = true <-> in_set a v /\ ~ in_set b v \/ ~ in_set a v /\ in_set b v)
        /\ (n = Empty -> (exists items, u = Union items) -> symmetric_difference a b = Ok Empty)
  end.
Proof. exact (symmetric_difference_versions a b). Qed.
Print Assumptions C53_symmetric_difference.

(** The remaining case: the union recurses for ever, and so does this. *)
Theorem C53_clash a b : canonical a -> canonical b -> (forall items, a <> Union items) ->
  symmetric_difference a b = Err RecursionError <-> union_clash a b.
Proof. exact (symmetric_difference_clash a b). Qed.
Print Assumptions C53_clash.

Example C53_case : symmetric_difference (Item r12) (Item r34) = Ok Empty
  /\ symmetric_difference u1234 (Item r34) = Err AttributeError
  /\ symmetric_difference (Item r12) (Item (Point v1)) = Ok (Item (Range (Some v1) (Some v2) false false))
  /\ symmetric_difference (Item (Point v1)) (Item after_1) = Err RecursionError.
Proof. now vm_compute. Qed.

(** ** C54 *)

Theorem C54_union a b r : union a b = Ok r -> incl (bounds r) (bounds a ++ bounds b).
Proof. exact (union_bounds a b r). Qed.
Print Assumptions C54_union.

Theorem C54_intersection a b r : intersection a b = Ok r -> incl (bounds r) (bounds a ++ bounds b).
Proof. exact (intersection_bounds a b r). Qed.
Print Assumptions C54_intersection.

Theorem C54_difference a b r : difference a b = Ok r -> incl (bounds r) (bounds a ++ bounds b).
Proof. exact (difference_bounds a b r). Qed.
Print Assumptions C54_difference.

Theorem C54_symmetric_difference a b r : symmetric_difference a b = Ok r -> incl (bounds r) (bounds a ++ bounds b).
Proof. exact (symmetric_difference_bounds a b r). Qed.
Print Assumptions C54_symmetric_difference.

Theorem C54_complement a r : complement a = Ok r -> incl (bounds r) (bounds a).
Proof. exact (complement_bounds a r). Qed.
Print Assumptions C54_complement.

Theorem C54_merge sets r : merge sets = Ok r -> incl (bounds r) (flat_map bounds sets).
Proof. exact (merge_bounds sets r). Qed.
Print Assumptions C54_merge.

(** Equal versions are not exchanged: the result keeps the 1.0 it was given. *)
Example C54_case : let v10 := Version 0 [1; 0] None None None None in
  intersection (Item r12) (Item (Point v10)) = Ok (Item (Point v10)) /\ v_eq v10 v1 = true
  /\ exists r, complement u1234 = Ok r /\ bounds r = bounds u1234.
Proof. cbv zeta. split; [now vm_compute|]. split; [now vm_compute|]. eexists. split; [vm_compute; reflexivity|]. now vm_compute. Qed.
