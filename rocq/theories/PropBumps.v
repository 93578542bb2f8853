(** Theorems about updates and bumps: C14-C20. *)

From Coq Require Import List ZArith NArith String Bool.
From Verif Require Import Py Segments Version Operators Spec OrderFacts BumpFacts.
Import ListNotations.
Open Scope Z_scope.

(** [ordinary v] (OrderFacts): [v] satisfies the constructors' checks and has
    no negative release part. *)

Definition w123 := bare 0 [1; 2; 3].
Definition w_post_dev := Version 0 [0; 1] None (Some (Tag (lit "post") 1)) (Some (Tag (lit "dev") 0)) None.

Lemma w123_ordinary : ordinary w123.
Proof. split; [reflexivity|]. repeat constructor; discriminate. Qed.
Lemma w_post_dev_ordinary : ordinary w_post_dev.
Proof. split; [reflexivity|]. repeat constructor; discriminate. Qed.
Lemma w_post_dev_is : post_dev w_post_dev.
Proof. repeat split; discriminate. Qed.

(** ** C14 *)

(** Strictly greater exactly when the version is not a development release of
    a post-release. *)
Theorem C14_next_at_partial v i : ordinary v -> 0 <= i ->
  exists w, next_at v i = Ok w /\ (v_lt v w = true <-> ~ post_dev v).
Proof. exact (next_at_lt v i). Qed.
Print Assumptions C14_next_at_partial.

Theorem C14_next_parts_partial v : ordinary v ->
  (exists w, next_major v = Ok w /\ (v_lt v w = true <-> ~ post_dev v))
  /\ (exists w, next_minor v = Ok w /\ (v_lt v w = true <-> ~ post_dev v))
  /\ (exists w, next_micro v = Ok w /\ (v_lt v w = true <-> ~ post_dev v)).
Proof. exact (next_parts_lt v). Qed.
Print Assumptions C14_next_parts_partial.

Theorem C14_post_dev_refuted : exists v w, ordinary v /\ next_major v = Ok w /\ v_lt w v = true.
Proof. exact post_dev_next_major. Qed.
Print Assumptions C14_post_dev_refuted.

Example C14_case : ordinary w123 /\ ~ post_dev w123
  /\ next_minor w123 = Ok (bare 0 [1; 3; 0]) /\ v_lt w123 (bare 0 [1; 3; 0]) = true.
Proof. split; [exact w123_ordinary|]. split; [intros (_ & H & _); now apply H|]. now vm_compute. Qed.

(** ** C15 *)

Theorem C15_next_at v i : valid_version v = true -> 0 <= i ->
  exists r, next_at v i = Ok (bare (v_epoch v) r)
    /\ if is_stable v then bumped (v_release v) (Z.to_nat i) r else r = v_release v.
Proof. exact (next_at_shape v i). Qed.
Print Assumptions C15_next_at.

(** [bumped] leaves no freedom. *)
Theorem C15_determined r i s t : bumped r i s -> bumped r i t -> s = t.
Proof. exact (bumped_unique r i s t). Qed.
Print Assumptions C15_determined.

Theorem C15_negative_index v : valid_version v = true -> is_stable v = true ->
  next_at v (-1) = Err ValueError.
Proof. exact (next_at_negative v). Qed.
Print Assumptions C15_negative_index.

Example C15_case :
  next_at (Version 2 [1; 2; 3] None (Some (Tag (lit "post") 1)) None (Some [LInt 5])) 1 = Ok (bare 2 [1; 3; 0])
  /\ next_at w123 4 = Ok (bare 0 [1; 2; 3; 0; 1])
  /\ next_at (Version 2 [1; 2; 3] (Some (Tag (lit "rc") 1)) None None None) 0 = Ok (bare 2 [1; 2; 3])
  /\ bumped [1; 2; 3] 1 [1; 3; 0].
Proof.
  repeat split; try now vm_compute. intros [|[|[|[|n]]]]; reflexivity.
Qed.

(** ** C16 *)

Theorem C16_next_post v : valid_version v = true ->
  exists w, next_post v = Ok w /\ v_lt v w = true.
Proof. exact (next_post_lt v). Qed.
Print Assumptions C16_next_post.

Theorem C16_next_epoch v : v_lt v (next_epoch v) = true.
Proof. exact (next_epoch_lt v). Qed.
Print Assumptions C16_next_epoch.

Theorem C16_next_pre v : valid_version v = true -> exists w, next_pre v = Ok w
  /\ (v_lt v w = true <-> v_pre v <> None \/ (v_post v = None /\ v_dev v <> None))
  /\ v_eq v w = false.
Proof. exact (next_pre_lt v). Qed.
Print Assumptions C16_next_pre.

Theorem C16_next_dev v : valid_version v = true -> exists w, next_dev v = Ok w
  /\ (v_dev v <> None -> v_lt v w = true) /\ (v_dev v = None -> v_lt w v = true).
Proof. exact (next_dev_lt v). Qed.
Print Assumptions C16_next_dev.

Theorem C16_next_pre_phase v : valid_version v = true -> v_pre v <> None ->
  (exists w, next_pre_phase v = Ok (Some w) /\ v_lt v w = true
     /\ exists t, v_pre v = Some t /\ In (phase t) [lit "alpha"; lit "beta"])
  \/ (next_pre_phase v = Ok None
     /\ exists t, v_pre v = Some t /\ In (phase t) [lit "candidate"; lit "preview"; lit "rc"]).
Proof. exact (next_pre_phase_lt v). Qed.
Print Assumptions C16_next_pre_phase.

(** What the results are. *)
Theorem C16_shapes v : valid_version v = true ->
  (exists t, next_post v = Ok (Version (v_epoch v) (v_release v) (v_pre v) (Some t) None None)
     /\ match v_post v with None => t = Tag (lit "post") 0 | Some u => t = Tag (phase u) (value u + 1) end)
  /\ (exists t, next_pre v = Ok (Version (v_epoch v) (v_release v) (Some t) None None None)
     /\ match v_pre v with None => t = Tag (lit "alpha") 0 | Some u => t = Tag (phase u) (value u + 1) end)
  /\ (exists t, next_dev v = Ok (Version (v_epoch v) (v_release v) (v_pre v) (v_post v) (Some t) None)
     /\ match v_dev v with None => t = Tag (lit "dev") 0 | Some u => t = Tag (phase u) (value u + 1) end)
  /\ match v_pre v with
     | None => next_pre_phase v = Ok (Some (Version (v_epoch v) (v_release v) (Some (Tag (lit "alpha") 0)) None None None))
     | Some t =>
         (phase t = lit "alpha" /\ next_pre_phase v = Ok (Some (Version (v_epoch v) (v_release v) (Some (Tag (lit "beta") 0)) None None None)))
         \/ (phase t = lit "beta" /\ next_pre_phase v = Ok (Some (Version (v_epoch v) (v_release v) (Some (Tag (lit "rc") 0)) None None None)))
         \/ (In (phase t) [lit "candidate"; lit "preview"; lit "rc"] /\ next_pre_phase v = Ok None)
     end.
Proof. exact (tag_bump_shapes v). Qed.
Print Assumptions C16_shapes.

Example C16_case :
  let v := Version 0 [1] (Some (Tag (lit "beta") 3)) None (Some (Tag (lit "dev") 2)) None in
  valid_version v = true
  /\ next_pre v = Ok (Version 0 [1] (Some (Tag (lit "beta") 4)) None None None)
  /\ next_pre_phase v = Ok (Some (Version 0 [1] (Some (Tag (lit "rc") 0)) None None None))
  /\ next_dev v = Ok (Version 0 [1] (Some (Tag (lit "beta") 3)) None (Some (Tag (lit "dev") 3)) None)
  /\ next_post v = Ok (Version 0 [1] (Some (Tag (lit "beta") 3)) (Some (Tag (lit "post") 0)) None None).
Proof. now vm_compute. Qed.

(** ** C17 *)

Theorem C17_next_breaking v : valid_version v = true ->
  exists r, next_breaking v = Ok (bare (v_epoch v) r)
    /\ if is_stable v then bumped (v_release v) (breaking_index (v_release v)) r
       else if part (v_release v) 0 =? 0 then r = v_release v else bumped (v_release v) 0 r.
Proof. exact (next_breaking_shape v). Qed.
Print Assumptions C17_next_breaking.

(** [breaking_index]: everything before it is zero; it is not zero, or it is
    the last of major, minor and micro present. *)
Theorem C17_breaking_index r : r <> [] ->
  (breaking_index r < Nat.min 3 (List.length r))%nat
  /\ (forall n, (n < breaking_index r)%nat -> part r n = 0)
  /\ (part r (breaking_index r) <> 0 \/ S (breaking_index r) = Nat.min 3 (List.length r)).
Proof. exact (breaking_index_spec r). Qed.
Print Assumptions C17_breaking_index.

(** The table in version.py:843-852, up to trailing zeros. *)
Example C17_case :
  map (fun r => next_breaking (bare 0 r)) [[1; 2; 3]; [1; 2; 0]; [1; 0; 0]; [0; 2; 3]; [0; 0; 3]; [0; 0; 0]; [0; 0]; [0]]
  = map (fun r => Ok (bare 0 r)) [[2; 0; 0]; [2; 0; 0]; [2; 0; 0]; [0; 3; 0]; [0; 0; 4]; [0; 0; 1]; [0; 1]; [1]].
Proof. now vm_compute. Qed.

(** ** C18 *)

Theorem C18_caret_partial v : ordinary v ->
  exists w, next_caret_breaking v = Ok w
    /\ (v_lt v w = true <-> ~ (post_dev v /\ part (v_release v) 0 = 0)).
Proof. exact (next_breaking_lt v). Qed.
Print Assumptions C18_caret_partial.

Theorem C18_tilde_partial v : ordinary v ->
  exists w, next_tilde_breaking v = Ok w /\ (v_lt v w = true <-> ~ post_dev v).
Proof. exact (next_tilde_lt v). Qed.
Print Assumptions C18_tilde_partial.

Theorem C18_tilde_equal v : ordinary v -> (2 <= List.length (v_release v))%nat ->
  exists w, next_tilde_equal_breaking v = Ok w /\ v_lt v w = true.
Proof. exact (next_tilde_equal_lt v). Qed.
Print Assumptions C18_tilde_equal.

Theorem C18_wildcard_partial v : ordinary v -> exists o, next_wildcard_breaking v = Ok o
  /\ match o with
     | None => is_stable v = true /\ v_post v = None /\ (List.length (v_release v) = 1)%nat
     | Some w => v_lt v w = true <-> ~ post_dev v
     end.
Proof. exact (next_wildcard_lt v). Qed.
Print Assumptions C18_wildcard_partial.

(** Which versions they are. *)
Theorem C18_tilde_shape v : valid_version v = true ->
  exists r, next_tilde_breaking v = Ok (bare (v_epoch v) r)
    /\ if is_stable v then bumped (v_release v) (Nat.min 1 (List.length (v_release v) - 1)) r
       else r = v_release v.
Proof. exact (next_tilde_shape v). Qed.
Print Assumptions C18_tilde_shape.

Theorem C18_tilde_equal_shape v : valid_version v = true ->
  ((List.length (v_release v) = 1)%nat /\ next_tilde_equal_breaking v = Err ValueError)
  \/ ((2 <= List.length (v_release v))%nat
     /\ exists r, next_tilde_equal_breaking v = Ok (bare (v_epoch v) r)
          /\ bumped (v_release v) (List.length (v_release v) - 2) r).
Proof. exact (next_tilde_equal_shape v). Qed.
Print Assumptions C18_tilde_equal_shape.

Theorem C18_wildcard_shape v : valid_version v = true ->
  (is_stable v = true /\ v_post v = None /\ (List.length (v_release v) = 1)%nat /\ next_wildcard_breaking v = Ok None)
  \/ (is_stable v = true /\ v_post v = None /\ (2 <= List.length (v_release v))%nat
     /\ exists r, next_wildcard_breaking v = Ok (Some (bare (v_epoch v) r))
          /\ bumped (v_release v) (List.length (v_release v) - 2) r)
  \/ (is_stable v = true /\ v_post v <> None
     /\ exists r, next_wildcard_breaking v = Ok (Some (bare (v_epoch v) r))
          /\ bumped (v_release v) (List.length (v_release v) - 1) r)
  \/ (is_stable v = false /\ next_wildcard_breaking v = Ok (Some (bare (v_epoch v) (v_release v)))).
Proof. exact (next_wildcard_shape v). Qed.
Print Assumptions C18_wildcard_shape.

Theorem C18_post_dev_refuted : exists v, ordinary v
  /\ (exists w, next_caret_breaking v = Ok w /\ v_lt w v = true)
  /\ (exists w, next_tilde_breaking v = Ok w /\ v_lt w v = true)
  /\ (exists w, next_wildcard_breaking v = Ok (Some w) /\ v_lt w v = true).
Proof. exact post_dev_breaking. Qed.
Print Assumptions C18_post_dev_refuted.

Example C18_case : ordinary w_post_dev /\ post_dev w_post_dev
  /\ next_tilde_breaking w123 = Ok (bare 0 [1; 3; 0])
  /\ next_tilde_equal_breaking w123 = Ok (bare 0 [1; 3; 0])
  /\ next_wildcard_breaking w123 = Ok (Some (bare 0 [1; 3; 0]))
  /\ next_wildcard_breaking (bare 0 [1]) = Ok None.
Proof. split; [exact w_post_dev_ordinary|]. split; [exact w_post_dev_is|]. now vm_compute. Qed.

(** ** C19 *)

Theorem C19_to_semantic v : ordinary v -> exists w, to_semantic v = Ok w
  /\ is_semantic w = true /\ v_le v w = true
  /\ ((List.length (v_release v) <= 3)%nat -> v_eq v w = true)
  /\ ((3 < List.length (v_release v))%nat -> v_lt v w = true)
  /\ to_semantic w = Ok w.
Proof. exact (to_semantic_spec v). Qed.
Print Assumptions C19_to_semantic.

Theorem C19_to_semantic_parts v : valid_version v = true ->
  exists r, to_semantic v = Ok (set_release v r) /\ List.length r = 3%nat
    /\ if (3 <? List.length (v_release v))%nat
       then (forall n, part r n = if (n <? 2)%nat then part (v_release v) n
                                  else if (n =? 2)%nat then part (v_release v) 2 + 1 else 0)
       else rel_same r (v_release v).
Proof. exact (to_semantic_shape v). Qed.
Print Assumptions C19_to_semantic_parts.

Theorem C19_to_stable v :
  is_stable (to_stable v) = true /\ (is_stable v = true -> to_stable v = v)
  /\ (is_stable v = false -> to_stable v = bare (v_epoch v) (v_release v))
  /\ to_stable (to_stable v) = to_stable v.
Proof. exact (to_stable_spec v). Qed.
Print Assumptions C19_to_stable.

Example C19_case : to_semantic (bare 0 [1; 2; 3; 4]) = Ok (bare 0 [1; 2; 4])
  /\ to_semantic (bare 0 [1]) = Ok (bare 0 [1; 0; 0]) /\ to_stable w_post_dev = bare 0 [0; 1].
Proof. now vm_compute. Qed.

(** ** C20 *)

Theorem C20_set_at v i x : valid_version v = true -> 0 <= i ->
  exists r, set_at v i x = Ok (set_release v r)
    /\ List.length r = Nat.max (List.length (v_release v)) (S (Z.to_nat i))
    /\ (forall n, part r n = if (n =? Z.to_nat i)%nat then x else part (v_release v) n)
    /\ get_at (set_release v r) i 0 = Ok x
    /\ (forall j, 0 <= j -> j <> i -> get_at (set_release v r) j 0 = get_at v j 0).
Proof. exact (set_at_frame v i x). Qed.
Print Assumptions C20_set_at.

Theorem C20_get_at v i d : 0 <= i ->
  get_at v i d = Ok (if i <? len (v_release v) then part (v_release v) (Z.to_nat i) else d).
Proof. exact (get_at_spec (v_release v) i d). Qed.
Print Assumptions C20_get_at.

(** The named segments change, the others do not. *)
Theorem C20_frame e r p q d l :
  let v := Version e r p q d l in
  (forall x, set_epoch v x = Version x r p q d l) /\ (forall x, set_epoch_value v x = Version x r p q d l)
  /\ (forall x, set_release v x = Version e x p q d l)
  /\ (forall t, with_pre v t = Version e r (Some t) q d l) /\ without_pre v = Version e r None q d l
  /\ (forall t, with_post v t = Version e r p (Some t) d l) /\ without_post v = Version e r p None d l
  /\ (forall t, with_dev v t = Version e r p q (Some t) l) /\ without_dev v = Version e r p q None l
  /\ (forall m, with_local v m = Version e r p q d (Some m)) /\ without_local v = Version e r p q d None
  /\ (forall a b c, with_tags v a b c = Version e r (Some a) (Some b) (Some c) l)
  /\ without_tags v = Version e r None None None l
  /\ (forall a m, with_dev_and_local v a m = Version e r p q (Some a) (Some m))
  /\ without_dev_and_local v = Version e r p q None None
  /\ (forall a b c m, with_tags_and_local v a b c m = Version e r (Some a) (Some b) (Some c) (Some m))
  /\ without_tags_and_local v = Version e r None None None None
  /\ (forall x xs, set_release_parts v (x :: xs) = Ok (Version e (x :: xs) p q d l))
  /\ set_release_parts v [] = Err ValueError
  /\ (forall x xs, set_local_parts v (x :: xs) = Ok (Version e r p q d (Some (x :: xs))))
  /\ set_local_parts v [] = Err ValueError.
Proof. exact (update_frame e r p q d l). Qed.
Print Assumptions C20_frame.

Theorem C20_set_parts v x : valid_version v = true ->
  (exists r, set_major v x = Ok (set_release v r) /\ part r 0 = x /\ forall n, n <> 0%nat -> part r n = part (v_release v) n)
  /\ (exists r, set_minor v x = Ok (set_release v r) /\ part r 1 = x /\ forall n, n <> 1%nat -> part r n = part (v_release v) n)
  /\ (exists r, set_micro v x = Ok (set_release v r) /\ part r 2 = x /\ forall n, n <> 2%nat -> part r n = part (v_release v) n).
Proof. exact (set_parts_frame v x). Qed.
Print Assumptions C20_set_parts.

Example C20_case : set_at w123 4 7 = Ok (bare 0 [1; 2; 3; 0; 7]) /\ set_minor w123 9 = Ok (bare 0 [1; 9; 3])
  /\ get_at w123 1 0 = Ok 2 /\ get_at w123 8 5 = Ok 5.
Proof. now vm_compute. Qed.
