(** Theorems about operators, specifiers and conversions: C34-C39, C47-C50, C55. *)

From Coq Require Import List ZArith NArith String Bool.
From Verif Require Import Py Segments Version VersionSets Operators Specifiers Dispatch Spec OrderFacts SetVersions SetTheorems
  OperatorFacts SpecifierFacts Precision EqualFacts.
Import ListNotations.
Open Scope Z_scope.

Definition ver (r : list Z) : version := Version 0 r None None None None.
Definition alpha (r : list Z) (n : Z) : version := Version 0 r (Some (Tag (lit "alpha") n)) None None None.
Definition post_of_dev (r : list Z) : version :=
  Version 0 r None (Some (Tag (lit "post") 1)) (Some (Tag (lit "dev") 0)) None.

(** ** C34 *)

Theorem C34_operator_formulas t w v : op_made t w ->
  exists b, op_matches t v w = Ok b /\ (b = true <-> op_sat t w v).
Proof. exact (op_matches_sat t w v). Qed.
Print Assumptions C34_operator_formulas.

Theorem C34_constructor t w : valid_version w = true ->
  (op_made t w -> one_new t w = Ok (One t w)) /\ (~ op_made t w -> one_new t w = Err ValueError).
Proof. exact (one_new_outcome t w). Qed.
Print Assumptions C34_constructor.

Example C34_case : op_made TILDE_EQUAL (ver [1; 4]) /\ op_matches TILDE_EQUAL (ver [1; 9]) (ver [1; 4]) = Ok true
  /\ op_matches TILDE_EQUAL (ver [2; 0]) (ver [1; 4]) = Ok false
  /\ op_matches CARET (ver [0; 2; 9]) (ver [0; 2; 1]) = Ok true /\ op_matches CARET (ver [0; 3]) (ver [0; 2; 1]) = Ok false
  /\ one_new TILDE_EQUAL (ver [1]) = Err ValueError.
Proof. split; [split; [reflexivity|intros _; repeat constructor]|]. now vm_compute. Qed.

(** ** C35 *)

Theorem C35_translate_partial t w : ordinary w -> op_made t w -> ~ op_stuck t w ->
  exists a, op_translate t w = Ok a /\ canonical a /\ forall v, op_matches t v w = Ok (contains a v).
Proof. exact (op_translate_agrees t w). Qed.
Print Assumptions C35_translate_partial.

(** What is missing: development releases of post-releases, where the bound lies
    below the version and [translate] fails. *)
Theorem C35_stuck t w v : valid_version w = true -> op_stuck t w ->
  op_translate t w = Err ValueError /\ op_matches t v w = Ok (op_is t WILDCARD_NOT_EQUAL).
Proof. exact (op_stuck_outcome t w v). Qed.
Print Assumptions C35_stuck.

Theorem C35_refuted : exists t w v, wf w /\ op_made t w
  /\ op_translate t w = Err ValueError /\ op_matches t v w = Ok false.
Proof.
  exists TILDE, (post_of_dev [1; 0]), (ver [1; 0]). split; [|split; [split; [reflexivity|discriminate]|now vm_compute]].
  repeat split; cbn; auto; try discriminate; repeat constructor; discriminate.
Qed.
Print Assumptions C35_refuted.

Example C35_case : ordinary (ver [1; 2]) /\ op_made WILDCARD_NOT_EQUAL (ver [1; 2]) /\ ~ op_stuck WILDCARD_NOT_EQUAL (ver [1; 2])
  /\ op_translate WILDCARD_NOT_EQUAL (ver [1; 2])
     = Ok (Union [Range None (Some (ver [1; 2])) false false; Range (Some (ver [2; 0])) None true false])
  /\ op_stuck CARET (post_of_dev [0; 3]).
Proof.
  split; [split; [reflexivity|repeat constructor; discriminate]|]. split; [split; [reflexivity|discriminate]|].
  split; [intros (_ & H & _); now apply H|]. split; [now vm_compute|]. repeat split; discriminate.
Qed.

(** ** C36 *)

(** The exact meaning of "== e!r.*": releases that start with [r] except the
    pre-releases of [r] itself, and the pre-releases of the next prefix. *)
Theorem C36_exact e r b v : r <> [] -> Forall (fun x => 0 <= x) r -> bumped r (List.length r - 1) b -> ordinary v ->
  op_matches WILDCARD_DOUBLE_EQUAL v (bare e (r ++ [0])) = Ok true <->
  v_epoch v = e /\ ((starts_with (v_release v) r /\ ~ (rel_same (v_release v) r /\ early v))
                    \/ (rel_same (v_release v) b /\ early v)).
Proof. exact (wildcard_prefix_matches e r b v). Qed.
Print Assumptions C36_exact.

(** What is missing: pre-releases and development releases at the two ends. *)
Theorem C36_prefix_partial e r b v : r <> [] -> Forall (fun x => 0 <= x) r -> bumped r (List.length r - 1) b -> ordinary v ->
  ~ early v \/ ~ (rel_same (v_release v) r \/ rel_same (v_release v) b) ->
  op_matches WILDCARD_DOUBLE_EQUAL v (bare e (r ++ [0])) = Ok true <-> v_epoch v = e /\ starts_with (v_release v) r.
Proof. exact (wildcard_late_matches e r b v). Qed.
Print Assumptions C36_prefix_partial.

Theorem C36_refuted : exists w v u, op_matches WILDCARD_DOUBLE_EQUAL v w = Ok true
  /\ op_matches WILDCARD_DOUBLE_EQUAL u w = Ok false
  /\ v_release w = [1; 3; 0] /\ ~ starts_with (v_release v) [1; 3] /\ starts_with (v_release u) [1; 3].
Proof.
  exists (ver [1; 3; 0]), (alpha [1; 4; 0] 1), (alpha [1; 3; 0] 1). split; [now vm_compute|]. split; [now vm_compute|].
  split; [reflexivity|]. split.
  - intros H. specialize (H 1%nat). cbn in H. discriminate H. repeat constructor.
  - intros [|[|n]] H; cbn in *; auto. exfalso. do 2 apply le_S_n in H. inversion H.
Qed.
Print Assumptions C36_refuted.

Theorem C36_everything e n v : op_matches WILDCARD_DOUBLE_EQUAL v (bare e [n]) = Ok true
  /\ op_matches WILDCARD_EQUAL v (bare e [n]) = Ok true /\ op_matches WILDCARD_NOT_EQUAL v (bare e [n]) = Ok false.
Proof. exact (conj eq_refl (conj eq_refl eq_refl)). Qed.
Print Assumptions C36_everything.

Theorem C36_complement w v : valid_version w = true ->
  exists b, op_matches WILDCARD_DOUBLE_EQUAL v w = Ok b /\ op_matches WILDCARD_EQUAL v w = Ok b
    /\ op_matches WILDCARD_NOT_EQUAL v w = Ok (negb b).
Proof. exact (wildcard_pair w v). Qed.
Print Assumptions C36_complement.

Example C36_case : bumped [1; 3] 1 [1; 4] /\ ordinary (ver [1; 3; 7]) /\ ~ early (ver [1; 3; 7])
  /\ op_matches WILDCARD_DOUBLE_EQUAL (ver [1; 3; 7]) (ver [1; 3; 0]) = Ok true.
Proof.
  split; [split; [reflexivity|intros [|[|[|n]]]; reflexivity]|]. split; [split; [reflexivity|repeat constructor; discriminate]|].
  split; [discriminate|now vm_compute].
Qed.

(** ** C37 *)

Theorem C37_agree s a : spec_made s -> each_op plain_op s -> specifier_to_version_set s = Ok a ->
  canonical a /\ forall v, accepts s v = Ok (contains a v).
Proof. exact (convert_accepts s a). Qed.
Print Assumptions C37_agree.

(** What is missing: alternatives ("||") with an operator that is not half-open,
    where a union may recurse for ever. *)
Theorem C37_total_partial s : spec_made s -> each_op plain_op s -> each_op free_op s ->
  no_any s \/ each_op half_open_op s ->
  exists a, specifier_to_version_set s = Ok a /\ canonical a /\ forall v, accepts s v = Ok (contains a v).
Proof. exact (convert_total_accepts s). Qed.
Print Assumptions C37_total_partial.

Theorem C37_errors s e : spec_made s -> each_op plain_op s -> specifier_to_version_set s = Err e ->
  (e = ValueError /\ ~ each_op free_op s) \/ (e = RecursionError /\ ~ no_any s).
Proof. exact (fun M N => convert_errors s M N e). Qed.
Print Assumptions C37_errors.

Theorem C37_refuted : exists s, spec_made s /\ each_op plain_op s /\ each_op free_op s
  /\ specifier_to_version_set s = Err RecursionError /\ accepts s (ver [1]) = Ok true.
Proof.
  exists (AnyOf [One DOUBLE_EQUAL (ver [1]); One GREATER (ver [1])]).
  split; [|split; [|split; [|now vm_compute]]]; repeat split; cbn; auto; try discriminate; repeat (constructor; try discriminate); intros H; exact H.
Qed.
Print Assumptions C37_refuted.

Definition some_spec : spec := AnyOf [One CARET (ver [2; 7]); AllOf [One GREATER_OR_EQUAL (ver [3]); One WILDCARD_NOT_EQUAL (ver [3; 3; 0])]].
Example C37_case : spec_made some_spec /\ each_op plain_op some_spec /\ each_op free_op some_spec /\ each_op half_open_op some_spec
  /\ exists a, specifier_to_version_set some_spec = Ok a /\ contains a (ver [2; 8]) = true /\ contains a (ver [3; 3; 1]) = false.
Proof.
  split; [|split; [|split; [|split]]]; cbn.
  - repeat split; auto; discriminate.
  - repeat split; repeat (constructor; try discriminate).
  - repeat split; [intros [(_ & H & _) _]; now apply H|intros H; exact H|intros (_ & H & _); now apply H].
  - repeat split.
  - eexists. split; [vm_compute; reflexivity|]. now vm_compute.
Qed.

(** ** C38 *)

Theorem C38_set_to_specifier a : canonical a -> exists s, version_set_to_specifier a = Ok s
  /\ (forall v, accepts s v = Ok (contains a v))
  /\ exists b, specifier_to_version_set s = Ok b /\ set_eqb b a = true.
Proof. exact (set_convert_accepts a). Qed.
Print Assumptions C38_set_to_specifier.

Definition two_ranges : vset :=
  Union [Range (Some (ver [2; 7])) (Some (ver [3])) true false; Range (Some (ver [3; 7])) (Some (ver [4])) true false].
Example C38_case : canonical two_ranges /\ version_set_to_specifier two_ranges = Ok
  (AnyOf [AllOf [One GREATER_OR_EQUAL (ver [2; 7]); One LESS (ver [3])]; AllOf [One GREATER_OR_EQUAL (ver [3; 7]); One LESS (ver [4])]])
  /\ version_set_to_specifier (Union [Range None (Some (ver [1])) false false; Range (Some (ver [1])) None false false])
     = Ok (One NOT_EQUAL (ver [1])).
Proof.
  split; [|now vm_compute]. split; [repeat split; try discriminate; vm_compute; auto|repeat constructor].
Qed.

(** ** C39 *)

Theorem C39_simplify s u : spec_made s -> each_op plain_op s -> simplify s = Ok u ->
  (forall v, accepts u v = accepts s v) /\ exists u', simplify u = Ok u' /\ spec_eqb u' u = true.
Proof. exact (simplify_same s u). Qed.
Print Assumptions C39_simplify.

Theorem C39_returns s : spec_made s -> each_op plain_op s ->
  (exists a, specifier_to_version_set s = Ok a) <-> (exists u, simplify s = Ok u).
Proof. exact (simplify_total s). Qed.
Print Assumptions C39_returns.

Example C39_case : simplify (AllOf [One GREATER_OR_EQUAL (ver [1]); One CARET (ver [1; 2])])
  = Ok (AllOf [One GREATER_OR_EQUAL (ver [1; 2]); One LESS (ver [2; 0])])
  /\ exists u, simplify some_spec = Ok u /\ spec_eqb u some_spec = false.
Proof. split; [now vm_compute|]. eexists. split; [vm_compute; reflexivity|]. now vm_compute. Qed.

(** ** C47 *)

(** What is missing: unions as the left operand, and [~]. *)
Theorem C47_operators_partial a b v : (forall items, a <> Union items) ->
  py_and a b = intersection a b /\ py_or a b = union a b /\ py_sub a b = difference a b
  /\ py_xor a b = symmetric_difference a b /\ negate a = complement a
  /\ (py_in v a = Ok true <-> in_set a v) /\ (py_in v a = Ok false <-> ~ in_set a v).
Proof. exact (operators_agree a b v). Qed.
Print Assumptions C47_operators_partial.

Theorem C47_refuted : exists a, canonical a
  /\ (exists r, intersection a a = Ok r) /\ py_and a a = Err TypeError
  /\ (exists r, union a a = Ok r) /\ py_or a a = Err TypeError
  /\ (exists r, difference a a = Ok r) /\ py_sub a a = Err TypeError
  /\ py_xor a a = Err TypeError /\ symmetric_difference a a = Err AttributeError
  /\ contains a (ver [2; 8]) = true /\ py_in (ver [2; 8]) a = Err TypeError
  /\ (exists r, complement a = Ok r) /\ py_invert a = Err TypeError.
Proof.
  exists two_ranges. split; [exact (proj1 C38_case)|].
  split; [eexists; vm_compute; reflexivity|]. split; [reflexivity|]. split; [eexists; vm_compute; reflexivity|]. split; [reflexivity|].
  split; [eexists; vm_compute; reflexivity|]. split; [reflexivity|]. split; [reflexivity|]. split; [reflexivity|].
  split; [now vm_compute|]. split; [reflexivity|]. split; [eexists; vm_compute; reflexivity|reflexivity].
Qed.
Print Assumptions C47_refuted.

Theorem C47_unions items b v : py_and (Union items) b = Err TypeError /\ py_or (Union items) b = Err TypeError
  /\ py_sub (Union items) b = Err TypeError /\ py_xor (Union items) b = Err TypeError /\ py_in v (Union items) = Err TypeError
  /\ symmetric_difference (Union items) b = Err AttributeError /\ negate (Union items) = Err AttributeError.
Proof. exact (conj eq_refl (conj eq_refl (conj eq_refl (conj eq_refl (conj eq_refl (conj eq_refl eq_refl)))))). Qed.
Print Assumptions C47_unions.

Example C47_case : (forall items, Item (Point (ver [1])) <> Union items)
  /\ py_and (Item (Point (ver [1]))) UNIVERSAL_SET = Ok (Item (Point (ver [1]))).
Proof. split; [discriminate|now vm_compute]. Qed.

(** ** C48 *)

Theorem C48_specifiers v s : version_matches v (BySpec s) = accepts s v.
Proof. exact eq_refl. Qed.
Print Assumptions C48_specifiers.

Theorem C48_sets v a : version_matches v (BySet a) = Ok (contains a v).
Proof. exact eq_refl. Qed.
Print Assumptions C48_sets.

Theorem C48_membership v a : (version_matches v (BySet a) = Ok true <-> in_set a v)
  /\ (version_matches v (BySet a) = Ok false <-> ~ in_set a v).
Proof. exact (matches_in v a). Qed.
Print Assumptions C48_membership.

(** The two kinds of specification agree with each other where conversion does. *)
Theorem C48_conversions s a v : spec_made s -> each_op plain_op s -> specifier_to_version_set s = Ok a ->
  version_matches v (BySet a) = version_matches v (BySpec s).
Proof. exact (matches_converted s a v). Qed.
Print Assumptions C48_conversions.

Example C48_case : version_matches (ver [2; 8]) (BySpec some_spec) = Ok true
  /\ version_matches (ver [2; 8]) (BySet two_ranges) = Ok true /\ version_matches (ver [3; 1]) (BySet two_ranges) = Ok false.
Proof. now vm_compute. Qed.

(** ** C49 *)

Theorem C49_specifiers s v w : v_eq v w = true -> accepts s v = accepts s w.
Proof. exact (accepts_congr s v w). Qed.
Print Assumptions C49_specifiers.

Theorem C49_sets a v w : v_eq v w = true -> contains a v = contains a w.
Proof. exact (contains_congr a v w). Qed.
Print Assumptions C49_sets.

Theorem C49_matches p v w : v_eq v w = true -> version_matches v p = version_matches w p.
Proof. exact (matches_congr p v w). Qed.
Print Assumptions C49_matches.

Example C49_case : v_eq (ver [2; 8]) (ver [2; 8; 0]) = true /\ accepts some_spec (ver [2; 8; 0]) = Ok true.
Proof. now vm_compute. Qed.

(** ** C50 *)

(** Operators that compare equal match the same versions exactly if their
    versions are written precisely enough. *)
Theorem C50_operator_exact t w t' w' : op_made t w -> op_made t' w' -> nonneg_release w -> nonneg_release w' ->
  op_eqb t t' = true -> v_eq w w' = true ->
  (forall v, op_matches t v w = op_matches t' v w') <-> as_precise t w t' w'.
Proof. exact (operators_alike_iff t w t' w'). Qed.
Print Assumptions C50_operator_exact.

(** What is missing: trees with operators that are not. *)
Theorem C50_equal_specifiers_partial s u v : spec_made s -> spec_made u -> spec_eqb s u = true -> paired as_precise s u ->
  accepts s v = accepts u v.
Proof. exact (spec_eq_accepts s u v). Qed.
Print Assumptions C50_equal_specifiers_partial.

Theorem C50_equal_sets_partial s u : spec_made s -> spec_made u -> each_op plain_op s -> each_op plain_op u ->
  spec_eqb s u = true -> paired as_precise s u -> alike (specifier_to_version_set s) (specifier_to_version_set u).
Proof. exact (convert_alike s u). Qed.
Print Assumptions C50_equal_sets_partial.

Theorem C50_refuted : exists s u v, spec_made s /\ spec_made u /\ spec_eqb s u = true
  /\ accepts s v = Ok true /\ accepts u v = Ok false.
Proof.
  exists (One CARET (ver [0])), (One CARET (ver [0; 0; 0])), (ver [0; 1]).
  split; [split; [reflexivity|discriminate]|]. split; [split; [reflexivity|discriminate]|]. now vm_compute.
Qed.
Print Assumptions C50_refuted.

Example C50_case : paired as_precise (AllOf [One CARET (ver [1]); One EQUAL (ver [1; 2])]) (AllOf [One CARET (ver [1; 0]); One DOUBLE_EQUAL (ver [1; 2; 0])])
  /\ spec_eqb (AllOf [One CARET (ver [1]); One EQUAL (ver [1; 2])]) (AllOf [One CARET (ver [1; 0]); One DOUBLE_EQUAL (ver [1; 2; 0])]) = true.
Proof.
  split; [|now vm_compute]. constructor. constructor; [|constructor; [|constructor]]; constructor; left; cbn; auto. right. discriminate.
Qed.

(** "^0.1" and "^0.1.0" agree, "~1" and "~1.0" do not. *)
Example C50_precise : as_precise CARET (ver [0; 1]) CARET (ver [0; 1; 0]) /\ v_eq (ver [0; 1]) (ver [0; 1; 0]) = true
  /\ as_precise TILDE (ver [1; 0]) TILDE (ver [1; 0; 0; 0]) /\ ~ as_precise TILDE (ver [1]) TILDE (ver [1; 0]) /\ v_eq (ver [1]) (ver [1; 0]) = true.
Proof.
  split; [right; reflexivity|]. split; [now vm_compute|]. split; [right; reflexivity|]. split; [|now vm_compute].
  intros [H|H]; [apply H; split; reflexivity|discriminate H].
Qed.

(** ** C55 *)

Theorem C55_union a b a' b' : canonical a -> canonical b -> canonical a' -> canonical b' ->
  set_eqb a a' = true -> set_eqb b b' = true -> alike (union a b) (union a' b').
Proof. exact (union_alike a b a' b'). Qed.
Print Assumptions C55_union.

Theorem C55_intersection a b a' b' : canonical a -> canonical b -> canonical a' -> canonical b' ->
  set_eqb a a' = true -> set_eqb b b' = true -> alike (intersection a b) (intersection a' b').
Proof. exact (intersection_alike a b a' b'). Qed.
Print Assumptions C55_intersection.

Theorem C55_difference a b a' b' : canonical a -> canonical b -> canonical a' -> canonical b' ->
  set_eqb a a' = true -> set_eqb b b' = true -> alike (difference a b) (difference a' b').
Proof. exact (difference_alike a b a' b'). Qed.
Print Assumptions C55_difference.

Theorem C55_symmetric_difference a b a' b' : canonical a -> canonical b -> canonical a' -> canonical b' ->
  set_eqb a a' = true -> set_eqb b b' = true -> alike (symmetric_difference a b) (symmetric_difference a' b').
Proof. exact (symmetric_difference_alike a b a' b'). Qed.
Print Assumptions C55_symmetric_difference.

Theorem C55_complement a a' : canonical a -> canonical a' -> set_eqb a a' = true -> alike (complement a) (complement a').
Proof. exact (complement_alike a a'). Qed.
Print Assumptions C55_complement.

Theorem C55_contains a a' v w : canonical a -> canonical a' -> set_eqb a a' = true -> v_eq v w = true ->
  contains a v = contains a' w.
Proof. exact (contains_alike a a' v w). Qed.
Print Assumptions C55_contains.

Theorem C55_to_specifier a a' : canonical a -> canonical a' -> set_eqb a a' = true ->
  exists s u, version_set_to_specifier a = Ok s /\ version_set_to_specifier a' = Ok u /\ spec_eqb s u = true.
Proof. exact (set_to_specifier_eq a a'). Qed.
Print Assumptions C55_to_specifier.

Definition two_ranges' : vset :=
  Union [Range (Some (ver [2; 7; 0])) (Some (ver [3; 0])) true false; Range (Some (ver [3; 7])) (Some (ver [4; 0; 0])) true false].
Example C55_case : canonical two_ranges /\ canonical two_ranges' /\ set_eqb two_ranges two_ranges' = true /\ two_ranges <> two_ranges'
  /\ union two_ranges (Item (Point (ver [4]))) = Ok (Union [Range (Some (ver [2; 7])) (Some (ver [3])) true false; Range (Some (ver [3; 7])) (Some (ver [4])) true true])
  /\ union two_ranges' (Item (Point (ver [4; 0]))) = Ok (Union [Range (Some (ver [2; 7; 0])) (Some (ver [3; 0])) true false; Range (Some (ver [3; 7])) (Some (ver [4; 0; 0])) true true]).
Proof.
  split; [split; [repeat split; try discriminate; vm_compute; auto|repeat constructor]|].
  split; [split; [repeat split; try discriminate; vm_compute; auto|repeat constructor]|].
  split; [now vm_compute|]. split; [discriminate|]. now vm_compute.
Qed.
