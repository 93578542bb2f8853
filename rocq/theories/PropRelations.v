(** Theorems about hashes, relations between ranges, operator types and the
    reach of bumps: C67-C71. *)

From Coq Require Import List ZArith NArith String Bool.
From Verif Require Import Py Segments Version VersionSets Operators SetStrings Specifiers Parsers Rich Hashes Caches Spec
  OrderFacts SetVersions SetTheorems RangeSpec BumpSpec RelationFacts HashFacts OpFacts CacheFacts BumpLeast BumpFacts Remembered RememberedFacts.
Import ListNotations.
Open Scope Z_scope.

Definition ver (r : list Z) : version := bare 0 r.

Lemma ver_wf r : r <> [] -> forallb (fun x => 0 <=? x) r = true -> wf (ver r).
Proof. exact (bare_wf r). Qed.
Lemma ver_worded r : r <> [] -> worded (ver r).
Proof. intros N. split; [|exact I]. destruct r; [congruence|reflexivity]. Qed.

(** ** C67 Equal objects have equal hashes *)

(** Epochs, releases, tags, locals, versions and tuples of them. *)
Theorem C67_objects hz hs mix x y : rich OpEq x y = Ok true -> py_hash hz hs mix x = py_hash hz hs mix y.
Proof. exact (equal_hash hz hs mix x y). Qed.
Print Assumptions C67_objects.

(** Segments and versions can always be hashed; releases, locals and versions
    have one hash each. *)
Theorem C67_hashable hz hs mix v c t :
  (exists n, py_hash hz hs mix (epoch_value (v_epoch v)) = Ok n)
  /\ (exists n, py_hash hz hs mix (tag_value c t) = Ok n)
  /\ (exists n, forall w, py_hash hz hs mix (release_value (v_release w)) = Ok n)
  /\ (exists n, forall m, py_hash hz hs mix (local_value m) = Ok n)
  /\ (exists n, forall w, py_hash hz hs mix (version_value w) = Ok n).
Proof. exact (all_hashable hz hs mix v c t). Qed.
Print Assumptions C67_hashable.

(** If tuples do not collide, epochs and tags hash equally only if what they are
    made of does. *)
Theorem C67_apart hz hs mix : (forall l m, mix l = mix m -> l = m) ->
  (forall e f, py_hash hz hs mix (epoch_value e) = py_hash hz hs mix (epoch_value f) <-> hz e = hz f)
  /\ (forall c d t u, py_hash hz hs mix (tag_value c t) = py_hash hz hs mix (tag_value d u)
        <-> c = d /\ hs (phase t) = hs (phase u) /\ hz (value t) = hz (value u)).
Proof. exact (hashes_apart hz hs mix). Qed.
Print Assumptions C67_apart.

Theorem C67_sets mix a b : set_eqb a b = true -> set_hash mix a = set_hash mix b.
Proof. exact (set_hash_eq mix a b). Qed.
Print Assumptions C67_sets.

(** Whatever the hash functions are. *)
Theorem C67_specifiers h mix s u : paired (fun t _ t' _ => h t = h t') s u ->
  spec_hash h mix s = spec_hash h mix u.
Proof. exact (spec_hash_names h mix s u). Qed.
Print Assumptions C67_specifiers.

(** Exactly then, if hashes do not collide. *)
Theorem C67_specifiers_exact h mix s u : no_collisions h mix -> spec_eqb s u = true ->
  spec_hash h mix s = spec_hash h mix u <-> paired (fun t _ t' _ => t = t') s u.
Proof. exact (hashes_exact h mix s u). Qed.
Print Assumptions C67_specifiers_exact.

(** Whenever the names of the two operators and the tuples made from them hash
    differently. *)
Theorem C67_specifiers_differ h mix :
  mix [2; h EQUAL; mix []]%N <> mix [2; h DOUBLE_EQUAL; mix []]%N ->
  exists s u p q, parse_specifier s = Ok p /\ parse_specifier u = Ok q /\ spec_eqb p q = true
    /\ spec_hash h mix p <> spec_hash h mix q.
Proof. exact (spelling_hashes h mix). Qed.
Print Assumptions C67_specifiers_differ.

Example C67_case : (* an object that is equal to another one without being the same *)
  rich OpEq (version_value (ver [1])) (version_value (ver [1; 0])) = Ok true
  /\ rich OpEq (tag_value PreTag (Tag (lit "rc") 1)) (tag_value PostTag (Tag (lit "rc") 1)) = Ok false
  /\ set_eqb (Item (Point (ver [1]))) (Item (Range (Some (ver [1; 0])) (Some (ver [1])) true true)) = true
  /\ (let h t := op_index t in let mix l := nth 1 l 0%N in
      mix [2; h EQUAL; mix []]%N <> mix [2; h DOUBLE_EQUAL; mix []]%N).
Proof. repeat split. vm_compute. discriminate. Qed.

Example C67_specifiers_case : no_collisions op_index no_mix /\
  let s := AllOf [One GREATER (ver [1]); One CARET (ver [2])] in let u := AllOf [One GREATER (ver [1; 0]); One CARET (ver [2; 0])] in
  spec_eqb s u = true /\ paired (fun t _ t' _ => op_index t = op_index t') s u.
Proof. split; [exact collisions_avoided|]. split; [reflexivity|]. repeat (constructor; try reflexivity). Qed.

Example C67_apart_case : (forall l m, no_mix l = no_mix m -> l = m) /\ Z.to_N 1 <> Z.to_N 2
  /\ py_hash Z.to_N (fun s => N.of_nat (List.length s)) no_mix (epoch_value 1) <> py_hash Z.to_N (fun s => N.of_nat (List.length s)) no_mix (epoch_value 2).
Proof. split; [exact (proj2 collisions_avoided)|]. split; vm_compute; discriminate. Qed.

(** ** C68 Relations between ranges *)

Theorem C68_is_lower s o : good_item s -> good_item o -> Forall worded (item_bounds s) -> Forall worded (item_bounds o) ->
  is_lower s o = true <-> exists v, worded v /\ from_min s v /\ ~ from_min o v.
Proof. exact (lower_reaches worded worded gaps_worded ok_worded s o). Qed.
Print Assumptions C68_is_lower.

Theorem C68_is_higher s o : good_item s -> good_item o -> Forall worded (item_bounds s) -> Forall worded (item_bounds o) ->
  is_higher s o = true <-> exists v, worded v /\ to_max s v /\ ~ to_max o v.
Proof. exact (higher_reaches worded worded gaps_worded ok_worded s o). Qed.
Print Assumptions C68_is_higher.

Theorem C68_is_strictly_lower s o : good_item s -> good_item o -> Forall worded (item_bounds s) -> Forall worded (item_bounds o) ->
  is_strictly_lower s o = true <->
  forall v w, worded v -> worded w -> in_item s v -> in_item o w -> v_lt v w = true.
Proof. exact (strictly_lower_means worded worded gaps_worded ok_worded s o). Qed.
Print Assumptions C68_is_strictly_lower.

Theorem C68_is_strictly_higher s o : good_item s -> good_item o -> is_strictly_higher s o = is_strictly_lower o s.
Proof. exact (higher_lower s o). Qed.
Print Assumptions C68_is_strictly_higher.

Theorem C68_three_ways s o : good_item s -> good_item o ->
  (is_strictly_lower s o = true /\ is_strictly_lower o s = false /\ intersects_range s o = false)
  \/ (is_strictly_lower s o = false /\ is_strictly_lower o s = true /\ intersects_range s o = false)
  \/ (is_strictly_lower s o = false /\ is_strictly_lower o s = false /\ intersects_range s o = true).
Proof. exact (three_ways s o). Qed.
Print Assumptions C68_three_ways.

Theorem C68_is_left_adjacent s o : good_item s -> good_item o -> Forall worded (item_bounds s) -> Forall worded (item_bounds o) ->
  is_left_adjacent s o = true <-> forall v, worded v -> (to_max s v <-> ~ from_min o v).
Proof. exact (left_adjacent_means worded worded gaps_worded ok_worded s o). Qed.
Print Assumptions C68_is_left_adjacent.

Theorem C68_is_adjacent s o : good_item s -> good_item o -> Forall worded (item_bounds s) -> Forall worded (item_bounds o) ->
  is_adjacent s o = true <-> apart worded s o /\ gapless worded s o.
Proof. exact (adjacent_means worded worded gaps_worded ok_worded s o). Qed.
Print Assumptions C68_is_adjacent.

(** The same over versions that can be written down. *)
Theorem C68_written s o : good_item s -> good_item o -> Forall written (item_bounds s) -> Forall written (item_bounds o) ->
  (is_lower s o = true <-> exists v, wf v /\ from_min s v /\ ~ from_min o v)
  /\ (is_higher s o = true <-> exists v, wf v /\ to_max s v /\ ~ to_max o v)
  /\ (is_strictly_lower s o = true <-> forall v w, wf v -> wf w -> in_item s v -> in_item o w -> v_lt v w = true)
  /\ (is_left_adjacent s o = true <-> forall v, wf v -> (to_max s v <-> ~ from_min o v))
  /\ (is_adjacent s o = true <-> apart wf s o /\ gapless wf s o).
Proof. exact (written_relations s o). Qed.
Print Assumptions C68_written.

Example C68_case : let s := Range (Some (ver [1])) (Some (ver [2])) true false in let o := Range (Some (ver [2; 0])) None true false in
  good_item s /\ good_item o /\ Forall worded (item_bounds s) /\ Forall worded (item_bounds o)
  /\ is_lower s o = true /\ is_higher s o = false /\ is_strictly_lower s o = true /\ is_adjacent s o = true
  /\ is_adjacent s (Range (Some (ver [2])) None false false) = false.
Proof.
  cbv zeta. split; [repeat split; try discriminate; reflexivity|]. split; [repeat split; discriminate|].
  split; [repeat (constructor; [apply ver_worded; discriminate|]); constructor|]. split; [repeat (constructor; [apply ver_worded; discriminate|]); constructor|].
  now vm_compute.
Qed.

Example C68_written_case : Forall written (item_bounds (Range (Some (ver [1])) (Some (ver [2])) true false)).
Proof. repeat (constructor; [split; [apply ver_wf; [discriminate|reflexivity]|reflexivity]|]). constructor. Qed.

(** ** C69 Single ranges and single holes *)

(** A set is one point or range exactly if it is not empty and has no gaps. *)
Theorem C69_single a : canonical a -> Forall worded (bounds a) ->
  (exists i, a = Item i) <-> (exists v, worded v /\ in_set a v) /\ contiguous worded a.
Proof. exact (single_contiguous worded worded gaps_worded ok_worded a). Qed.
Print Assumptions C69_single.

(** A union of two is one range exactly if nothing lies between them, that is
    if they intersect or are adjacent. *)
Theorem C69_union s o r : good_item s -> good_item o -> Forall worded (item_bounds s) -> Forall worded (item_bounds o) ->
  union (Item s) (Item o) = Ok r -> (exists i, r = Item i) <-> gapless worded s o.
Proof. exact (union_single worded worded gaps_worded ok_worded s o r). Qed.
Print Assumptions C69_union.

Theorem C69_gapless s o : good_item s -> good_item o -> Forall worded (item_bounds s) -> Forall worded (item_bounds o) ->
  gapless worded s o <-> intersects (Item s) (Item o) = true \/ is_adjacent s o = true.
Proof. exact (gapless_iff worded worded gaps_worded ok_worded s o). Qed.
Print Assumptions C69_gapless.

(** [exclude_version] finds a version exactly if the union is everything else. *)
Theorem C69_exclude_version items : canonical (Union items) ->
  exists r, exclude_version items = Ok r
    /\ (forall u, r = Some u -> forall v, in_set (Union items) v <-> v_eq u v = false)
    /\ (Forall worded (bounds (Union items)) ->
        (exists u, worded u /\ forall v, worded v -> (in_set (Union items) v <-> v_eq u v = false)) -> r <> None).
Proof. exact (excludes items). Qed.
Print Assumptions C69_exclude_version.

Example C69_case :
  let s := Range (Some (ver [1])) (Some (ver [3])) true false in let o := Range (Some (ver [2])) (Some (ver [4])) false true in
  let far := Range (Some (ver [5])) None false false in
  union (Item s) (Item o) = Ok (Item (Range (Some (ver [1])) (Some (ver [4])) true true))
  /\ union (Item s) (Item far) = Ok (Union [s; far])
  /\ exclude_version [Range None (Some (ver [1])) false false; Range (Some (ver [1; 0])) None false false] = Ok (Some (ver [1]))
  /\ exclude_version [s; far] = Ok None.
Proof. now vm_compute. Qed.

Example C69_good_case : let s := Range (Some (ver [1])) (Some (ver [3])) true false in
  canonical (Item s) /\ Forall worded (bounds (Item s))
  /\ canonical (Union [Range None (Some (ver [1])) false false; Range (Some (ver [1; 0])) None false false]).
Proof.
  cbv zeta. split; [repeat split; discriminate|]. split; [repeat (constructor; [apply ver_worded; discriminate|]); constructor|].
  split; [|cbn; auto]. split; [repeat split; discriminate|]. split; [right; repeat split|repeat split; discriminate].
Qed.

(** ** C70 Operator types *)

Theorem C70_equal_operators t u :
  op_eqb t u = true <-> forall v w, wf v -> wf w -> op_valid t w = true -> op_valid u w = true -> op_matches t v w = op_matches u v w.
Proof. exact (op_eqb_means t u). Qed.
Print Assumptions C70_equal_operators.

Theorem C70_translate t u : op_eqb t u = true ->
  op_matches t = op_matches u /\ op_translate t = op_translate u /\ forall w, op_valid t w = op_valid u w.
Proof. exact (op_same t u). Qed.
Print Assumptions C70_translate.

Theorem C70_equivalence t u w : op_eqb t t = true /\ (op_eqb t u = true -> op_eqb u t = true)
  /\ (op_eqb t u = true -> op_eqb u w = true -> op_eqb t w = true).
Proof. exact (conj (op_eqb_refl t) (conj (op_eqb_sym t u) (op_eqb_trans t u w))). Qed.
Print Assumptions C70_equivalence.

Example C70_case : op_eqb EQUAL DOUBLE_EQUAL = true /\ op_eqb CARET TILDE = false
  /\ op_valid CARET (ver [1; 2]) = true /\ op_valid TILDE (ver [1; 2]) = true
  /\ op_matches CARET (ver [1; 5]) (ver [1; 2]) = Ok true /\ op_matches TILDE (ver [1; 5]) (ver [1; 2]) = Ok false.
Proof. now vm_compute. Qed.

(** ** C71 Bumps skip nothing *)

(** No version consisting of a release with zeros after part [i] lies between a
    version and its bump. *)
Theorem C71_next_at v i w w' : ordinary v -> 0 <= i -> ordinary w -> round_at (Z.to_nat i) w ->
  v_lt v w = true -> next_at v i = Ok w' -> v_le w' w = true.
Proof. exact (next_at_least v i w w'). Qed.
Print Assumptions C71_next_at.

(** The bump is such a version, unless a pre-release or development release is
    only finalised. *)
Theorem C71_round v i w : valid_version v = true -> 0 <= i -> next_at v i = Ok w ->
  round_at (Z.to_nat i) w <-> (is_stable v = true \/ forall n, (Z.to_nat i < n)%nat -> part (v_release v) n = 0).
Proof. exact (next_at_round v i w). Qed.
Print Assumptions C71_round.

(** Exactly when bumping keeps the order: it does not if the upper version is
    only finalised and has the parts that the lower one is bumped at. *)
Theorem C71_monotone v w i v' w' : ordinary v -> ordinary w -> 0 <= i -> v_le v w = true -> next_at v i = Ok v' -> next_at w i = Ok w' ->
  v_le v' w' = true <-> is_stable v = false \/ is_stable w = true \/ v_epoch v <> v_epoch w
    \/ exists n, (n <= Z.to_nat i)%nat /\ part (v_release v) n <> part (v_release w) n.
Proof. exact (next_at_mono_iff v w i v' w'). Qed.
Print Assumptions C71_monotone.

(** 1.5 goes to 2.0, but 1.6-alpha.1 to 1.6. *)
Theorem C71_order_lost : exists v w v' w', wf v /\ wf w /\ v_lt v w = true
  /\ next_major v = Ok v' /\ next_major w = Ok w' /\ v_lt w' v' = true.
Proof. exact major_not_monotone. Qed.
Print Assumptions C71_order_lost.

(** The next development release is the next version without a local part. *)
Theorem C71_next_dev v w w' : ordinary v -> v_dev v <> None -> ordinary w -> v_local w = None -> v_lt v w = true ->
  next_dev v = Ok w' -> v_le w' w = true.
Proof. exact (next_dev_least v w w'). Qed.
Print Assumptions C71_next_dev.

(** The next post-release is the next version without development tag and local part. *)
Theorem C71_next_post v w w' : ordinary v -> v_dev v = None -> ordinary w -> wf_otag PostTag (v_post w) -> settled w ->
  v_lt v w = true -> next_post v = Ok w' -> v_le w' w = true.
Proof. exact (next_post_least v w w'). Qed.
Print Assumptions C71_next_post.

(** The next pre-release is the next version that has no further tags. *)
Theorem C71_next_pre v w w' : ordinary v -> v_pre v <> None -> v_dev v = None -> ordinary w -> v_post w = None -> settled w ->
  v_lt v w = true -> next_pre v = Ok w' -> v_le w' w = true.
Proof. exact (next_pre_least v w w'). Qed.
Print Assumptions C71_next_pre.

Example C71_case : ordinary (ver [1; 2; 3]) /\ round_at 1 (ver [1; 7]) /\ v_lt (ver [1; 2; 3]) (ver [1; 7]) = true
  /\ next_at (ver [1; 2; 3]) 1 = Ok (ver [1; 3; 0]) /\ v_le (ver [1; 3; 0]) (ver [1; 7]) = true.
Proof.
  split; [split; [reflexivity|repeat constructor; discriminate]|].
  split; [split; [reflexivity|]|now vm_compute]. intros [|[|n]] H; try (inversion H; fail); [inversion H; inversion H1|]. now destruct n.
Qed.

Definition a1 : version := Version 0 [1] (Some (Tag (lit "alpha") 1)) None None None.
Definition d1 : version := Version 0 [1] (Some (Tag (lit "alpha") 1)) None (Some (Tag (lit "dev") 1)) None.
Example C71_tags_case : ordinary a1 /\ ordinary d1 /\ ordinary (ver [1]) /\ v_lt a1 (ver [1]) = true /\ v_lt d1 (ver [1]) = true
  /\ settled (ver [1]) /\ v_dev a1 = None /\ v_pre a1 <> None /\ v_dev d1 <> None
  /\ next_dev d1 = Ok (Version 0 [1] (Some (Tag (lit "alpha") 1)) None (Some (Tag (lit "dev") 2)) None)
  /\ next_pre a1 = Ok (Version 0 [1] (Some (Tag (lit "alpha") 2)) None None None)
  /\ next_post a1 = Ok (Version 0 [1] (Some (Tag (lit "alpha") 1)) (Some (Tag (lit "post") 0)) None None).
Proof.
  do 3 (split; [split; [reflexivity|repeat constructor; discriminate]|]). split; [reflexivity|]. split; [reflexivity|].
  split; [now split|]. split; [reflexivity|]. split; [discriminate|]. split; [discriminate|]. now vm_compute.
Qed.
