(** Specifiers see epochs only through comparisons. *)

From Coq Require Import List ZArith NArith String Bool Lia.
From Verif Require Import Py Segments Version VersionSets Operators Specifiers Rich Spec Orders OrderFacts SpecifierFacts GenericSets GenericFacts MixedSpec MixedFacts RenameFacts EpochSpec CommuteFacts.
Import ListNotations.
Local Open Scope Z_scope.

Section Epochs.
  Context (g : Z -> Z) (G : increasing g).
  Let f := reepoch g.

  Lemma reepoch_in_order : in_order f.
  Proof.
    intros v w. unfold v_cmp.
    assert (X : forall u, key (f u) = VKey (g (v_epoch u)) (k_release (key u)) (k_pre (key u)) (k_post (key u)) (k_dev (key u)) (k_local (key u))).
    { intros u. unfold key, f, reepoch. cbn [v_epoch v_release v_pre v_post v_dev v_local]. destruct (compute_compare_tags _ _ _) as [[p q] d]. reflexivity. }
    assert (E : forall u, k_epoch (key u) = v_epoch u). { intros u. unfold key. destruct (compute_compare_tags _ _ _) as [[p q] d]. reflexivity. }
    assert (Y : (g (v_epoch v) ?= g (v_epoch w)) = (v_epoch v ?= v_epoch w)).
    { destruct (Z.compare_spec (v_epoch v) (v_epoch w)) as [Q|Q|Q]; [rewrite Q; apply Z.compare_refl|apply Z.compare_lt_iff, G, Q|apply Z.compare_gt_iff, G, Q]. }
    rewrite (X v), (X w). unfold key_cmp. cbn [k_epoch k_release k_pre k_post k_dev k_local]. rewrite !E, Y. reflexivity.
  Qed.

  (** ** Bumps *)

  Theorem f_next_at v i : next_at (f v) i = rmap f (next_at v i).
  Proof. unfold next_at, is_stable, is_unstable, is_pre_release, is_dev_release. cbn [f reepoch v_pre v_dev v_release]. destruct (match v_pre v with _ => _ end || _), (rel_next_at (v_release v) i); reflexivity. Qed.
  Lemma f_stable v : is_stable (f v) = is_stable v.
  Proof. reflexivity. Qed.
  Lemma f_to_stable v : to_stable (f v) = f (to_stable v).
  Proof. unfold to_stable. rewrite f_stable. now destruct (is_stable v). Qed.
  Theorem f_caret v : next_caret_breaking (f v) = rmap f (next_caret_breaking v).
  Proof.
    unfold next_caret_breaking, next_breaking, next_major, next_minor, next_micro. rewrite f_to_stable, !f_next_at.
    change (major (f v)) with (major v). change (minor (f v)) with (minor v). change (has_micro (f v)) with (has_micro v). change (has_minor (f v)) with (has_minor v).
    destruct (major v) as [a|]; [|reflexivity]. cbn [bind]. destruct (a =? 0); [|reflexivity]. destruct (minor v) as [b|]; [|reflexivity]. cbn [bind].
    destruct (b =? 0), (has_micro v), (has_minor v); reflexivity.
  Qed.
  Theorem f_tilde_equal v : next_tilde_equal_breaking (f v) = rmap f (next_tilde_equal_breaking v).
  Proof. unfold next_tilde_equal_breaking. rewrite f_to_stable, f_next_at. change (last_index (f v)) with (last_index v). destruct (last_index v =? 0); reflexivity. Qed.
  Theorem f_tilde v : next_tilde_breaking (f v) = rmap f (next_tilde_breaking v).
  Proof. unfold next_tilde_breaking, next_major, next_minor. rewrite !f_next_at. change (has_minor (f v)) with (has_minor v). destruct (has_minor v); reflexivity. Qed.
  Theorem f_wildcard v : next_wildcard_breaking (f v) = rmap (option_map f) (next_wildcard_breaking v).
  Proof.
    unfold next_wildcard_breaking. change (last_index (f v)) with (last_index v). change (is_stable (f v)) with (is_stable v). change (is_post_release (f v)) with (is_post_release v).
    rewrite !f_next_at. destruct (is_stable v && _), (last_index v =? 0), (next_at v (last_index v - 1)), (next_at v (last_index v)); reflexivity.
  Qed.

  Lemma f_follows t w : follows f t w.
  Proof. destruct t; cbn [follows]; auto using f_caret, f_tilde, f_tilde_equal, f_wildcard. Qed.
End Epochs.
