(** Specifiers and the major numbers of versions. *)

From Coq Require Import List ZArith NArith String Bool Lia.
From Verif Require Import Py Segments Version VersionSets Operators Specifiers Parsers Rich Spec Orders OrderFacts BumpFacts SpecifierFacts SpecStrings SetVersions ShapeFacts DecideFacts Normal MixedSpec EpochSpec CommuteFacts MajorSpec.
Import ListNotations.
Local Open Scope Z_scope.

Lemma zeros_bounds xs : 0 <= count_leading_zeros xs <= Z.of_nat (List.length xs).
Proof. induction xs as [|x xs IH]; cbn [count_leading_zeros List.length]; [lia|]. destruct (x =? 0); lia. Qed.
Lemma zeros_app xs a : count_leading_zeros (xs ++ [a]) =
  if count_leading_zeros xs =? Z.of_nat (List.length xs) then count_leading_zeros xs + (if a =? 0 then 1 else 0) else count_leading_zeros xs.
Proof.
  induction xs as [|x xs IH]; [cbn; now destruct (a =? 0)|]. cbn [app count_leading_zeros List.length]. destruct (x =? 0).
  - rewrite IH. destruct (Z.eqb_spec (count_leading_zeros xs) (Z.of_nat (List.length xs))), (Z.eqb_spec (1 + count_leading_zeros xs) (Z.of_nat (S (List.length xs)))); lia.
  - destruct (Z.eqb_spec 0 (Z.of_nat (S (List.length xs)))); lia.
Qed.

(** The major number is compared as it is. *)
Lemma compare_cons a r : rel_compare_parts (a :: r) = a :: firstn (List.length r - Z.to_nat (count_leading_zeros (rev r))) r.
Proof.
  unfold rel_compare_parts, rel_precision. cbn [rev]. rewrite zeros_app, rev_length, len_nat. cbn [List.length].
  pose proof (zeros_bounds (rev r)) as B. rewrite rev_length in B. set (c := count_leading_zeros (rev r)) in *.
  assert (K : forall i, 0 < i <= Z.of_nat (List.length r) -> rel_slice_parts (a :: r) (- i) = a :: firstn (List.length r - Z.to_nat i) r).
  { intros i I. unfold rel_slice_parts, py_upto, norm_index. rewrite (proj2 (Z.ltb_lt (- i) 0)) by lia. rewrite len_nat. cbn [List.length].
    replace (Z.to_nat _) with (S (List.length r - Z.to_nat i)) by lia. reflexivity. }
  destruct (Z.eqb_spec c (Z.of_nat (List.length r))) as [E|E].
  - assert (X : (if c + (if a =? 0 then 1 else 0) =? Z.of_nat (S (List.length r)) then c + (if a =? 0 then 1 else 0) - 1 else c + (if a =? 0 then 1 else 0)) = c).
    { destruct (a =? 0); destruct (Z.eqb_spec (c + 1) (Z.of_nat (S (List.length r)))); try destruct (Z.eqb_spec (c + 0) (Z.of_nat (S (List.length r)))); lia. }
    rewrite X. destruct (Z.eqb_spec c 0) as [Z|Z]; [|apply K; lia]. destruct r; [reflexivity|cbn [List.length] in E; lia].
  - destruct (Z.eqb_spec c (Z.of_nat (S (List.length r)))); [lia|]. destruct (Z.eqb_spec c 0) as [Z|Z]; [|apply K; lia].
    rewrite Z. cbn [Z.to_nat]. now rewrite Nat.sub_0_r, firstn_all.
Qed.

Section Majors.
  Context (g : Z -> Z) (G : increasing g).
  Let f := remajor g.

  Theorem remajor_in_order : in_order f.
  Proof.
    intros v w. unfold v_cmp.
    assert (X : forall u, key (f u) = VKey (k_epoch (key u)) (match k_release (key u) with [] => [] | a :: r => g a :: r end) (k_pre (key u)) (k_post (key u)) (k_dev (key u)) (k_local (key u))).
    { intros u. unfold key, f, remajor. cbn [v_epoch v_release v_pre v_post v_dev v_local]. destruct (compute_compare_tags _ _ _) as [[p q] d].
      cbn [k_epoch k_release k_pre k_post k_dev k_local]. f_equal. destruct (v_release u) as [|a r]; [reflexivity|]. now rewrite !compare_cons. }
    assert (Y : forall a b, (g a ?= g b) = (a ?= b)).
    { intros a b. destruct (Z.compare_spec a b) as [Q|Q|Q]; [rewrite Q; apply Z.compare_refl|apply Z.compare_lt_iff, G, Q|apply Z.compare_gt_iff, G, Q]. }
    rewrite (X v), (X w). unfold key_cmp. cbn [k_epoch k_release k_pre k_post k_dev k_local].
    destruct (k_release (key v)) as [|a r], (k_release (key w)) as [|b s]; try reflexivity. cbn [lex]. now rewrite Y.
  Qed.

  Lemma f_bumped a r i s : (i = 0%nat -> g (a + 1) = g a + 1) -> bumped (a :: r) i s ->
    exists b s', s = b :: s' /\ bumped (g a :: r) i (g b :: s').
  Proof.
    intros H [L P]. destruct s as [|b s']; [cbn in L; lia|]. exists b, s'. split; [reflexivity|]. split; [exact L|]. intros [|n].
    - specialize (P 0%nat). cbn in P |- *. destruct i; cbn in P |- *; subst b; [now apply H|reflexivity].
    - specialize (P (S n)). destruct i; exact P.
  Qed.

  Lemma f_next_at v i : v_release v <> [] -> 0 <= i -> (i = 0 -> g (part (v_release v) 0 + 1) = g (part (v_release v) 0) + 1) ->
    next_at (f v) i = rmap f (next_at v i).
  Proof.
    intros N I H. unfold next_at. change (is_stable (f v)) with (is_stable v). destruct (is_stable v); [|reflexivity].
    destruct v as [e rel p q d l]. cbn [f remajor v_release v_epoch v_pre v_post v_dev v_local] in *. destruct rel as [|a r]; [congruence|].
    destruct (next_at_spec (a :: r) i N I) as (s & E & _ & B), (next_at_spec (g a :: r) i ltac:(discriminate) I) as (u & E' & _ & B').
    rewrite E, E'. cbn [bind rmap]. assert (H' : Z.to_nat i = 0%nat -> g (a + 1) = g a + 1) by (intros K; apply H; lia).
    destruct (f_bumped a r (Z.to_nat i) s H' B) as (b & s' & -> & B2).
    rewrite (bumped_unique _ _ _ _ B' B2). reflexivity.
  Qed.

  Lemma f_length v : rel_precision (v_release (f v)) = rel_precision (v_release v).
  Proof. unfold f, remajor. cbn [v_release]. now destruct (v_release v). Qed.
  Lemma f_last v : last_index (f v) = last_index v.
  Proof. unfold last_index, rel_last_index. now rewrite f_length. Qed.
  Lemma f_has v i : rel_has_at (v_release (f v)) i = rel_has_at (v_release v) i.
  Proof. unfold rel_has_at. now rewrite f_length. Qed.
  Lemma f_to_stable v : to_stable (f v) = f (to_stable v).
  Proof. unfold to_stable. change (is_stable (f v)) with (is_stable v). now destruct (is_stable v). Qed.
  Lemma last_nonneg v : v_release v <> [] -> 0 <= last_index v.
  Proof. intros N. unfold last_index, rel_last_index, rel_precision. rewrite len_nat. destruct (v_release v); [congruence|cbn [List.length]; lia]. Qed.
  Lemma stable_release v : v_release (to_stable v) = v_release v.
  Proof. unfold to_stable. now destruct (is_stable v). Qed.

  Lemma f_wild w : v_release w <> [] -> g (part (v_release w) 0 + 1) = g (part (v_release w) 0) + 1 ->
    next_wildcard_breaking (f w) = rmap (option_map f) (next_wildcard_breaking w).
  Proof.
    intros N H. unfold next_wildcard_breaking. rewrite f_last. change (is_stable (f w)) with (is_stable w). change (is_post_release (f w)) with (is_post_release w).
    pose proof (last_nonneg w N). destruct (is_stable w && negb (is_post_release w)).
    - destruct (Z.eqb_spec (last_index w) 0); [reflexivity|]. rewrite f_next_at by (auto; lia). now destruct (next_at w (last_index w - 1)).
    - rewrite f_next_at by (auto; lia). now destruct (next_at w (last_index w)).
  Qed.

  Theorem f_follows t w : v_release w <> [] -> counts g t w -> follows f t w.
  Proof.
    intros N. unfold counts. destruct t; cbn [follows]; auto; intros H.
    - unfold next_tilde_equal_breaking. rewrite f_last. pose proof (last_nonneg w N). destruct (Z.eqb_spec (last_index w) 0); [reflexivity|]. cbn [negb].
      rewrite f_to_stable. apply f_next_at; rewrite ?stable_release; [exact N|lia|auto].
    - destruct H as [H Z0]. unfold next_caret_breaking, next_breaking, next_major, next_minor, next_micro, major, minor, has_micro, has_minor, rel_has_micro, rel_has_minor, rel_major, rel_minor. rewrite !f_has, f_to_stable.
      assert (N' : v_release (f w) <> []) by (unfold f, remajor; cbn [v_release]; destruct (v_release w); congruence).
      rewrite !get_at_part by (exact N || exact N' || (unfold MAJOR, MINOR; lia)). cbn [bind]. change (Z.to_nat MAJOR) with 0%nat. change (Z.to_nat MINOR) with 1%nat.
      assert (P0 : part (v_release (f w)) 0 = g (part (v_release w) 0)) by (unfold f, remajor; cbn [v_release]; now destruct (v_release w)).
      assert (P1 : part (v_release (f w)) 1 = part (v_release w) 1) by (unfold f, remajor; cbn [v_release]; now destruct (v_release w)).
      rewrite P0, P1. assert (Q : (g (part (v_release w) 0) =? 0) = (part (v_release w) 0 =? 0)) by (destruct (Z.eqb_spec (g (part (v_release w) 0)) 0), (Z.eqb_spec (part (v_release w) 0) 0); tauto). rewrite Q.
      assert (M : forall i, 0 <= i -> next_at (f w) i = rmap f (next_at w i)) by (intros i I; apply f_next_at; auto).
      repeat match goal with |- context [if ?b then _ else _] => destruct b end; try (apply M; unfold MAJOR, MINOR, MICRO; lia).
      apply f_next_at; rewrite ?stable_release; auto. unfold MAJOR. lia.
    - unfold next_tilde_breaking, has_minor, rel_has_minor, next_minor, next_major. rewrite f_has. destruct (rel_has_at _ _); apply f_next_at; auto; unfold MINOR, MAJOR; lia.
    - now apply f_wild.
    - now apply f_wild.
    - now apply f_wild.
  Qed.
End Majors.

Theorem shifted k text s v : parse_specifier text = Ok s ->
  (forall w, leaf CARET w s -> part (v_release w) 0 <> 0 /\ part (v_release w) 0 + k <> 0) ->
  accepts (rename_spec (remajor (fun a => a + k)) s) (remajor (fun a => a + k) v) = accepts s v.
Proof.
  intros P H. apply f_accepts; [apply remajor_in_order; intros a b Q; lia|]. intros t w L. destruct (parsed_leaves text s t w P L) as [(_ & N & _) _].
  apply f_follows; [exact N|]. unfold counts. destruct t; try exact I; try lia. destruct (H w L). lia.
Qed.
