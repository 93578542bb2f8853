(** Counterexamples about version sets, and the sets used in examples. *)

From Coq Require Import List ZArith NArith String Bool Lia.
From Verif Require Import Py Segments Version VersionSets Orders Cuts SetItems SetChains SetMerge SetOps Spec OrderFacts Density SetVersions SetTheorems SetAlgebra.
Import ListNotations.
Open Scope Z_scope.

Definition rel (parts : list Z) : version := Version 0 parts None None None None.
Definition v1 := rel [1; 0].
Definition v2 := rel [2; 0].
Definition v3 := rel [3; 0].
Definition v4 := rel [4; 0].

(** [[1.0, 2.0)] and its neighbours *)
Definition r12 := Range (Some v1) (Some v2) true false.
Definition r34 := Range (Some v3) (Some v4) false true.
Definition u1234 := Union [r12; r34].
Definition after_1 := Range (Some v1) None false false.

Lemma canonical_r12 : canonical (Item r12).
Proof. cbn. repeat split; try discriminate; reflexivity. Qed.
Lemma canonical_u1234 : canonical u1234.
Proof. cbn. repeat split; try discriminate; try (left; reflexivity); auto. Qed.
Lemma canonical_after_1 : canonical (Item after_1).
Proof. cbn. repeat split; try discriminate; reflexivity. Qed.

Lemma union_refuted : exists a b,
  canonical a /\ canonical b /\ union a b = Err RecursionError
  /\ forall d, merge_with (item_union (S d)) [a; b] = Err RecursionError.
Proof.
  exists (Item (Point v1)), (Item after_1).
  assert (X : canonical (Item (Point v1))) by exact I. pose proof canonical_after_1 as Y.
  split; [exact X|]. split; [exact Y|].
  destruct (union_versions _ _ X Y) as [_ U]. split; [apply U; reflexivity|].
  intros d. rewrite merge_depth by (repeat constructor; auto).
  destruct (merge_versions [Item (Point v1); Item after_1]) as [_ M]; [repeat constructor; auto|].
  apply M. exists v1, after_1. cbn. split; [auto|]. split; [auto|]. split; [reflexivity|].
  intros x [<-|[<-|[]]]; cbn; [tauto|]. intros [H _]. vm_compute in H. discriminate.
Qed.

Lemma difference_refuted : exists a b r v,
  canonical a /\ canonical b /\ difference a b = Ok r
  /\ in_set a v /\ ~ in_set b v /\ contains r v = false.
Proof.
  exists u1234, Empty, Empty, v1. split; [exact canonical_u1234|]. split; [exact I|].
  split; [reflexivity|]. split; [left; cbn; split; reflexivity|]. split; [intros []|reflexivity].
Qed.

Lemma difference_refuted_range : exists a b r v,
  canonical a /\ canonical b /\ difference a b = Ok r
  /\ in_set b v /\ contains r v = true.
Proof.
  exists (Item r12), u1234, (Item r12), v1. split; [exact canonical_r12|]. split; [exact canonical_u1234|].
  split; [vm_compute; reflexivity|]. split; [left; cbn; split; reflexivity|reflexivity].
Qed.

Lemma symmetric_difference_refuted : exists a b r v,
  canonical a /\ canonical b /\ symmetric_difference a b = Ok r
  /\ in_set a v /\ ~ in_set b v /\ contains r v = false.
Proof.
  exists (Item (Point v1)), (Item (Point v2)), Empty, v1. split; [exact I|]. split; [exact I|].
  split; [vm_compute; reflexivity|]. split; [reflexivity|]. split; [|reflexivity].
  cbn. intros H. vm_compute in H. discriminate.
Qed.

Lemma symmetric_difference_refuted_union : exists a b,
  canonical a /\ canonical b /\ symmetric_difference a b = Err AttributeError.
Proof.
  exists u1234, (Item (Point v1)). split; [exact canonical_u1234|]. split; [exact I|reflexivity].
Qed.

(** The open range between 1.0 and 1.0+(empty word). *)
Definition gap_set : vset :=
  Item (Range (Some v1) (Some (set_local v1 (Some [LStr []]))) false false).

Lemma canonical_gap : canonical gap_set.
Proof. cbn. repeat split; try discriminate; reflexivity. Qed.

Lemma gap_no_version v : valid_version v = true -> ~ in_set gap_set v.
Proof.
  intros V [L H]. cbn [above_min] in L. cbn [below_max] in H.
  destruct total_order as (T & _ & _ & _ & G & IR & TR & _).
  destruct (v_eq v1 (without_local v)) eqn:E.
  - apply v_eq_key in E. change v1 with (without_local v1) in E. apply key_set_local in E.
    assert (X : forall u, v_lt v u = v_lt (set_local v1 (v_local v)) u) by (intros u; unfold v_lt, v_cmp; now rewrite E).
    rewrite X in H. apply local_compare in H. unfold local_before in H.
    destruct (v_local v) as [l|] eqn:EL.
    + destruct (valid_parts _ V) as (_ & _ & _ & _ & N). rewrite EL in N.
      destruct l as [|p l]; [congruence|].
      destruct H as [(b & m & H)|(q & a & b & l' & m & H1 & H2 & H3)].
      * destruct l; discriminate.
      * destruct q as [|q0 [|q1 q]]; try discriminate. injection H2 as <- _. destruct a as [z|s]; cbn in H3; auto.
        destruct H3 as [(b & m' & H3)|(p' & x & y & l1 & m1 & _ & H3 & _)]; [destruct s; discriminate|destruct p'; discriminate].
    + assert (Y : v_lt v1 v = v_lt v1 (set_local v1 None)) by (unfold v_lt, v_cmp; now rewrite E).
      rewrite Y in L. change (set_local v1 None) with v1 in L. rewrite IR in L. discriminate.
  - pose proof (local_adjacent v1 [LStr []] v eq_refl L E) as K.
    pose proof (TR _ _ _ K H) as Z. rewrite IR in Z. discriminate.
Qed.

Lemma includes_refuted : exists a b, canonical a /\ canonical b /\ includes a b = false
  /\ forall v, valid_version v = true -> in_set b v -> in_set a v.
Proof.
  exists Empty, gap_set. split; [exact I|]. split; [exact canonical_gap|]. split; [reflexivity|].
  intros v V H. exact (gap_no_version v V H).
Qed.

Lemma intersects_refuted : exists a b, canonical a /\ canonical b /\ intersects a b = true
  /\ forall v, valid_version v = true -> ~ (in_set a v /\ in_set b v).
Proof.
  exists gap_set, gap_set. split; [exact canonical_gap|]. split; [exact canonical_gap|]. split; [reflexivity|].
  intros v V [H _]. exact (gap_no_version v V H).
Qed.

Lemma equal_refuted : exists a b, canonical a /\ canonical b /\ set_eqb a b = false
  /\ forall v, valid_version v = true -> (in_set a v <-> in_set b v).
Proof.
  exists Empty, gap_set. split; [exact I|]. split; [exact canonical_gap|]. split; [reflexivity|].
  intros v V. split; [intros []|]. intros H. exact (gap_no_version v V H).
Qed.

Lemma empty_refuted : exists a, canonical a /\ is_empty a = false
  /\ forall v, valid_version v = true -> ~ in_set a v.
Proof.
  exists gap_set. split; [exact canonical_gap|]. split; [reflexivity|]. exact gap_no_version.
Qed.

(** Nothing that can be written is below 0.dev0. *)
Lemma below_lowest_refuted : exists a, canonical a /\ Forall wf (bounds a) /\ is_empty a = false
  /\ forall v, wf v -> ~ in_set a v.
Proof.
  exists (Item (Range None (Some lowest) false false)). split; [cbn; repeat split; discriminate|].
  split; [constructor; [apply lowest_wf|constructor]|]. split; [reflexivity|].
  intros v W [_ H]. cbn [below_max] in H. destruct total_order as (_ & _ & _ & _ & _ & IR & TR & _ & _ & _ & EL).
  destruct (lowest_le v W) as [L|L].
  - pose proof (TR _ _ _ L H) as X. rewrite IR in X. discriminate.
  - destruct (EL _ _ lowest L) as [X _]. rewrite <- X, IR in H. discriminate.
Qed.

(** Sets that are not canonical: [[1.0, 1.0)] is accepted by the constructor. *)
Definition empty_range := Range (Some v1) (Some v1) true false.

Lemma noncanonical_union : exists i j r v, made i /\ made j
  /\ union (Item i) (Item j) = Ok r /\ in_set (Item j) v /\ contains r v = false.
Proof.
  exists empty_range, (Point v1), (Item empty_range), v1.
  split; [reflexivity|]. split; [exact I|]. split; [vm_compute; reflexivity|]. split; reflexivity.
Qed.
