(** Lemmas for C120. *)

From Coq Require Import List ZArith NArith String Bool Lia.
From Verif Require Import Py Segments Version Parsers Grammar Spec Orders OrderFacts ParseFacts.
Import ListNotations.

Lemma rel_same_refl r : rel_same r r.
Proof. intros n. reflexivity. Qed.

Lemma present {A} (o : option A) : (match o with None => false | _ => true end) = true <-> o <> None.
Proof. destruct o; split; congruence. Qed.

(** Compare a version with one that differs in its tags or its local segment only. *)
Ltac tagged v N := destruct v as [e r pre post dev l]; cbn [v_release] in N; unfold v_lt;
  unfold without_pre, without_post, without_dev, without_local, without_tags_and_local, set_pre, set_post, set_dev, set_local;
  cbn [v_release v_pre v_post v_dev v_local v_epoch];
  rewrite (key_cmp_tags e r r _ _ _ _ _ _ _ _ N N (rel_same_refl r));
  pose proof (cmp_refl lawful_tag) as RT; rewrite ?(cmp_refl (lawful_ext _ (lawful_lex _ lawful_local_part_key)));
  unfold is_stable, is_unstable, is_pre_release, is_post_release, is_dev_release, is_local; cbn [v_pre v_post v_dev v_local];
  destruct pre as [pre|], post as [post|], dev as [dev|], l as [l|]; cbn; rewrite ?RT; cbn; rewrite ?RT; cbn.

Lemma dev_lower v : v_release v <> [] -> is_dev_release v = true <-> v_lt v (without_dev v) = true.
Proof. intros N. tagged v N; split; intros; congruence. Qed.

Lemma post_higher v : v_release v <> [] -> is_post_release v = true <-> v_lt (without_post v) v = true.
Proof. intros N. tagged v N; split; intros; congruence. Qed.

Lemma local_higher v : v_release v <> [] -> is_local v = true <-> v_lt (without_local v) v = true.
Proof. intros N. tagged v N; split; intros; congruence. Qed.

Lemma pre_differs v : v_release v <> [] ->
  is_pre_release v = true <-> (if is_dev_release v && negb (is_post_release v) then v_lt (without_pre v) v else v_lt v (without_pre v)) = true.
Proof. intros N. unfold v_lt. destruct (is_dev_release v && negb (is_post_release v)) eqn:E; revert E; fold (v_lt (without_pre v) v) (v_lt v (without_pre v)); tagged v N; split; intros; congruence. Qed.

Lemma unstable_lower v : v_release v <> [] -> is_unstable v = true <-> v_lt v (without_dev (without_pre v)) = true.
Proof. intros N. tagged v N; split; intros; congruence. Qed.

Lemma stable_otherwise v : v_release v <> [] -> is_stable v = true <-> v_lt v (without_dev (without_pre v)) = false.
Proof.
  intros N. pose proof (unstable_lower v N) as U. unfold is_stable. rewrite negb_true_iff.
  destruct (is_unstable v), (v_lt v (without_dev (without_pre v))); intuition congruence.
Qed.

Lemma nothing_more v : v_release v <> [] ->
  v_eq v (without_tags_and_local v) = true <-> is_stable v = true /\ is_post_release v = false /\ is_local v = false.
Proof.
  intros N. rewrite v_eq_key, key_fields. destruct v as [e r pre post dev l]. cbn. destruct pre, post, dev, l; cbn; intuition congruence.
Qed.

Lemma stable_kept v w : v_eq v w = true ->
  is_pre_release v = is_pre_release w /\ is_post_release v = is_post_release w /\ is_dev_release v = is_dev_release w /\ is_local v = is_local w.
Proof.
  intros E. apply v_eq_key, key_fields in E as (_ & _ & P & Q & D & L). unfold is_pre_release, is_post_release, is_dev_release, is_local. now rewrite P, Q, D, L.
Qed.

Lemma tags_read t v : tree t -> parse_version (text t) = Ok v ->
  (is_pre_release v = true <-> g_pre t <> None) /\ (is_post_release v = true <-> g_post t <> None)
  /\ (is_dev_release v = true <-> g_dev t <> None) /\ (is_local v = true <-> g_local t <> None).
Proof.
  intros T P. rewrite (parse_tree t T) in P. destruct (lower_caseb t); [|discriminate]. inversion P as [E]. clear.
  unfold is_pre_release, is_post_release, is_dev_release, is_local, reading. cbn.
  destruct (g_pre t), (g_post t), (g_dev t), (g_local t); cbn; repeat split; congruence.
Qed.
