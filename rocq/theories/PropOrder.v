(** Theorems about the order of versions: C01-C06. *)

From Coq Require Import List ZArith NArith String Bool.
From Verif Require Import Py Segments Version Orders Spec OrderFacts.
Import ListNotations.
Open Scope Z_scope.

(** Versions used in the examples: 1.0, 1.0.0, 1.0a1, 1.0.post1.dev2, 1.0+a.1 *)
Definition x_1_0 := Version 0 [1; 0] None None None None.
Definition x_1_0_0 := Version 0 [1; 0; 0] None None None None.
Definition x_1_0_a1 := Version 0 [1; 0] (Some (Tag ALPHA 1)) None None None.
Definition x_1_0_post1_dev2 := Version 0 [1; 0] None (Some (Tag POST 1)) (Some (Tag DEV 2)) None.
Definition x_1_0_local := Version 0 [1; 0] None None None (Some [LStr (lit "a"); LInt 1]).

(** C01: the six operators are one total order. *)
Theorem C01_total_order :
  (forall v w, (v_lt v w = true /\ v_eq v w = false /\ v_gt v w = false)
            \/ (v_lt v w = false /\ v_eq v w = true /\ v_gt v w = false)
            \/ (v_lt v w = false /\ v_eq v w = false /\ v_gt v w = true))
  /\ (forall v w, v_le v w = v_lt v w || v_eq v w)
  /\ (forall v w, v_ge v w = v_gt v w || v_eq v w)
  /\ (forall v w, v_ne v w = negb (v_eq v w))
  /\ (forall v w, v_gt v w = v_lt w v)
  /\ (forall v, v_lt v v = false)
  /\ (forall u v w, v_lt u v = true -> v_lt v w = true -> v_lt u w = true)
  /\ (forall v, v_eq v v = true)
  /\ (forall v w, v_eq v w = v_eq w v)
  /\ (forall u v w, v_eq u v = true -> v_eq v w = true -> v_eq u w = true)
  /\ (forall u v w, v_eq u v = true -> v_lt u w = v_lt v w /\ v_lt w u = v_lt w v).
Proof. exact total_order. Qed.
Print Assumptions C01_total_order.

Example C01_case :
  v_lt x_1_0_a1 x_1_0 = true /\ v_lt x_1_0 x_1_0_post1_dev2 = true
  /\ v_lt x_1_0_a1 x_1_0_post1_dev2 = true /\ v_eq x_1_0 x_1_0_0 = true /\ v_gt x_1_0_local x_1_0 = true.
Proof. now vm_compute. Qed.

(** C02: what equality means; no sign condition is needed. *)
Theorem C02_equality v w :
  valid_version v = true -> valid_version w = true -> v_eq v w = true <-> same v w.
Proof. exact (eq_same v w). Qed.
Print Assumptions C02_equality.

Example C02_case : valid_version x_1_0 = true /\ valid_version x_1_0_0 = true /\ v_eq x_1_0 x_1_0_0 = true
  /\ valid_version x_1_0_local = true /\ v_eq x_1_0 x_1_0_local = false.
Proof. now vm_compute. Qed.

(** C03: the order is decided by the first difference. *)
Theorem C03_order v w : ordinary v -> ordinary w -> v_lt v w = true <-> before v w.
Proof. exact (lt_before v w). Qed.
Print Assumptions C03_order.

Example C03_case : ordinary x_1_0_a1 /\ ordinary x_1_0_post1_dev2 /\ before x_1_0_a1 x_1_0_post1_dev2
  /\ ~ before x_1_0_post1_dev2 x_1_0_a1.
Proof.
  assert (A : ordinary x_1_0_a1) by (split; [reflexivity|repeat constructor; discriminate]).
  assert (B : ordinary x_1_0_post1_dev2) by (split; [reflexivity|repeat constructor; discriminate]).
  repeat split; try apply A; try apply B.
  - apply C03_order; auto.
  - rewrite <- C03_order; auto. now vm_compute.
Qed.

(** The restriction of C03 to non-negative parts is needed: 1 is above 1.-1
    as a padded sequence, but below it in the order of the library. *)
Theorem C03_negative_parts_refuted :
  exists v w, valid_version v = true /\ valid_version w = true /\ before w v /\ v_lt v w = true.
Proof. exact negative_parts. Qed.
Print Assumptions C03_negative_parts_refuted.

(** C04: phases of one release. *)
Theorem C04_phases e r r' : r <> [] -> r' <> [] -> rel_same r r' ->
  let V := Version e r in let W := Version e r' in
  (* a development release is below every pre-release *)
  (forall d l p q d' l', v_lt (V None None (Some d) l) (W (Some p) q d' l') = true)
  (* a pre-release is below the release and everything after it *)
  /\ (forall p q d l q' d' l', (q' = None -> d' = None) -> v_lt (V (Some p) q d l) (W None q' d' l') = true)
  (* the release is below its post-releases *)
  /\ (forall l q d l', v_lt (V None None None l) (W None (Some q) d l') = true)
  (* pre-releases: phase, then value *)
  /\ (forall p q d l p' q' d' l', valid_tag PreTag p = true -> valid_tag PreTag p' = true ->
        tag_before PHASE_ORDER p p' -> v_lt (V (Some p) q d l) (W (Some p') q' d' l') = true)
  (* a post-release of anything is above it *)
  /\ (forall p d l q d' l', v_lt (V p None d l) (W p (Some q) d' l') = true)
  (* post-releases: phase, then value *)
  /\ (forall p q q' d l d' l', valid_tag PostTag q = true -> valid_tag PostTag q' = true ->
        tag_before POST_ORDER q q' -> v_lt (V p (Some q) d l) (W p (Some q') d' l') = true)
  (* a development release of anything is below it *)
  /\ (forall p q d l l', v_lt (V p q (Some d) l) (W p q None l') = true)
  (* development releases: value *)
  /\ (forall p q d d' l l', valid_tag DevTag d = true -> valid_tag DevTag d' = true ->
        value d < value d' -> v_lt (V p q (Some d) l) (W p q (Some d') l') = true)
  (* a local version is above its public version *)
  /\ (forall p q d l, v_lt (V p q d None) (W p q d (Some l)) = true).
Proof. exact (phase_order e r r'). Qed.
Print Assumptions C04_phases.

(** C04: nothing fits between a public version and its local versions, except
    other local versions of it. *)
Theorem C04_local_adjacent v l w :
  v_local v = None -> v_lt v w = true -> v_eq v (without_local w) = false ->
  v_lt (set_local v (Some l)) w = true.
Proof. exact (local_adjacent v l w). Qed.
Print Assumptions C04_local_adjacent.

Example C04_case : rel_same [1; 0] [1] /\ tag_before PHASE_ORDER (Tag BETA 7) (Tag RC 1)
  /\ v_lt x_1_0 x_1_0_post1_dev2 = true /\ v_eq x_1_0 (without_local x_1_0_post1_dev2) = false.
Proof.
  repeat split.
  - intros [|[|[|n]]]; reflexivity.
  - left. now vm_compute.
Qed.

(** C05: padding. *)
Theorem C05_padding v n : valid_version v = true ->
  exists w, pad_to v n 0 = Ok w /\ Z.of_nat (List.length (v_release w)) = Z.max (len (v_release v)) n
    /\ v_eq w v = true /\ forall u, v_cmp w u = v_cmp v u /\ v_cmp u w = v_cmp u v.
Proof. exact (pad_to_same v n). Qed.
Print Assumptions C05_padding.

Theorem C05_padding_index v i : valid_version v = true ->
  exists w, pad_to_index v i 0 = Ok w /\ Z.of_nat (List.length (v_release w)) = Z.max (len (v_release v)) (i + 1)
    /\ v_eq w v = true /\ forall u, v_cmp w u = v_cmp v u /\ v_cmp u w = v_cmp u v.
Proof. exact (pad_to_same v (i + 1)). Qed.
Print Assumptions C05_padding_index.

Theorem C05_padding_next v : valid_version v = true ->
  exists w, pad_to_next v 0 = Ok w /\ Z.of_nat (List.length (v_release w)) = len (v_release v) + 1
    /\ v_eq w v = true /\ forall u, v_cmp w u = v_cmp v u /\ v_cmp u w = v_cmp u v.
Proof. exact (pad_to_next_same v). Qed.
Print Assumptions C05_padding_next.

Example C05_case : pad_to x_1_0_a1 5 0 = Ok (Version 0 [1; 0; 0; 0; 0] (Some (Tag ALPHA 1)) None None None).
Proof. now vm_compute. Qed.

(** C06: local segments. *)
Theorem C06_local v l m : v_lt (set_local v l) (set_local v m) = true <-> local_before l m.
Proof. exact (local_compare v l m). Qed.
Print Assumptions C06_local.

Example C06_case : local_before (Some [LStr (lit "z")]) (Some [LStr (lit "z"); LStr (lit "a")])
  /\ local_before (Some [LInt 1; LStr (lit "z")]) (Some [LInt 1; LInt (-5)])
  /\ v_lt (set_local x_1_0 (Some [LInt 1; LStr (lit "z")])) (set_local x_1_0 (Some [LInt 1; LInt (-5)])) = true.
Proof.
  split; [|split].
  - left. exists (LStr (lit "a")), []. reflexivity.
  - right. exists [LInt 1], (LStr (lit "z")), (LInt (-5)), [], []. repeat split.
  - now vm_compute.
Qed.
