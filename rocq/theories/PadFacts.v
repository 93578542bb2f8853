(** Padding with anything, and bumps with other defaults. *)

From Coq Require Import List ZArith NArith Lia Bool.
From Verif Require Import Py Segments Version Orders Spec OrderFacts BumpFacts Padding.
Import ListNotations.
Open Scope Z_scope.

Lemma fix_to_length_with n p r : len r < n -> fix_to_length n p r = r ++ repeat p (Z.to_nat n - List.length r).
Proof.
  intros H. unfold fix_to_length, len in *. rewrite firstn_app, firstn_all2 by lia. f_equal.
  assert (G : forall m k, (m <= k)%nat -> firstn m (repeat p k) = repeat p m).
  { induction m as [|m IH]; intros [|k] Hk; cbn; auto; [lia|]. rewrite IH; auto. lia. }
  apply G. lia.
Qed.
Lemma rel_pad r n p : rel_pad_to r n p = Ok (r ++ repeat p (Z.to_nat n - List.length r)).
Proof.
  unfold rel_pad_to, rel_precision. destruct (len r <? n) eqn:E.
  - apply Z.ltb_lt in E. rewrite fix_to_length_with by exact E. apply release_new_ok. unfold len in E.
    destruct r; [|discriminate]. cbn [List.length app] in *. destruct (Z.to_nat n - 0)%nat eqn:K; [lia|discriminate].
  - apply Z.ltb_ge in E. unfold len in E. replace (Z.to_nat n - List.length r)%nat with 0%nat by lia. cbn [repeat]. now rewrite app_nil_r.
Qed.
Lemma pad_exact v n p : pad_to v n p = Ok (set_release v (v_release v ++ repeat p (Z.to_nat n - List.length (v_release v)))).
Proof. unfold pad_to. now rewrite rel_pad. Qed.
Lemma pad_next_exact v p : pad_to_next v p = Ok (set_release v (v_release v ++ [p])).
Proof.
  unfold pad_to_next, rel_pad_to_next, rel_precision. rewrite rel_pad. cbn [bind]. unfold len.
  replace (Z.to_nat (Z.of_nat (List.length (v_release v)) + 1) - List.length (v_release v))%nat with 1%nat by lia. reflexivity.
Qed.

Lemma strip_app r p k : p <> 0 -> rel_compare_parts (r ++ repeat p (S k)) = r ++ repeat p (S k).
Proof.
  intros P. assert (L : last (r ++ repeat p (S k)) 0 = p).
  { cbn [repeat]. rewrite last_app_cons. clear. induction k as [|k IH]; [reflexivity|exact IH]. }
  destruct (strip_spec (r ++ repeat p (S k))) as (j & E & _); [destruct r; discriminate|].
  destruct j as [|j]; [cbn [repeat] in E; now rewrite app_nil_r in E|]. exfalso. apply P. rewrite <- L, E. cbn [repeat]. rewrite last_app_cons.
  clear. induction j as [|j IH]; [reflexivity|exact IH].
Qed.
Lemma lex_longer xs y ys : lex Z.compare xs (xs ++ y :: ys) = Lt.
Proof. induction xs as [|x xs IH]; [reflexivity|]. cbn [lex app]. rewrite Z.compare_refl. exact IH. Qed.
Lemma pad_compare v n p : v_release v <> [] ->
  v_cmp v (set_release v (v_release v ++ repeat p (Z.to_nat n - List.length (v_release v)))) = if (len (v_release v) <? n) && negb (p =? 0) then Lt else Eq.
Proof.
  intros N. destruct (Z.eqb_spec p 0) as [->|P].
  - rewrite andb_false_r. unfold v_cmp. rewrite pad_key by exact N. apply (cmp_refl lawful_key).
  - rewrite andb_true_r. unfold len. destruct (Z.ltb_spec (Z.of_nat (List.length (v_release v))) n) as [L|L].
    + destruct (Z.to_nat n - List.length (v_release v))%nat as [|k] eqn:K; [lia|]. unfold v_cmp, key_cmp, key, set_release.
      cbn [v_epoch v_release v_pre v_post v_dev v_local]. destruct (compute_compare_tags (v_pre v) (v_post v) (v_dev v)) as [[a b] c]. cbn [k_epoch k_release].
      rewrite Z.compare_refl. cbn [then_cmp]. rewrite strip_app by exact P. destruct (strip_spec (v_release v) N) as (j & E & _). rewrite E at 2.
      rewrite <- app_assoc. destruct j; cbn [repeat app]; rewrite lex_longer; reflexivity.
    + replace (Z.to_nat n - List.length (v_release v))%nat with 0%nat by lia. cbn [repeat]. rewrite app_nil_r.
      replace (set_release v (v_release v)) with v by now destruct v. unfold v_cmp. apply (cmp_refl lawful_key).
Qed.

Lemma next_at_with_spec r i d p : r <> [] -> 0 <= i ->
  exists r', rel_next_at_with r i d p = Ok r' /\ List.length r' = Nat.max (List.length r) (S (Z.to_nat i))
    /\ (forall n, (n < Z.to_nat i)%nat -> part r' n = part r n)
    /\ part r' (Z.to_nat i) = (if i <? len r then part r (Z.to_nat i) else d) + 1
    /\ (forall n, (Z.to_nat i < n < List.length r)%nat -> part r' n = p).
Proof.
  intros N H. unfold rel_next_at_with. rewrite get_at_spec by exact H. cbn [bind].
  destruct (set_at_spec r i ((if i <? len r then part r (Z.to_nat i) else d) + 1) N H) as (u & E & Nu & L & P). rewrite E. cbn [bind].
  unfold rel_slice. rewrite slice_upto by lia. replace (Z.to_nat (i + 1)) with (S (Z.to_nat i)) by lia.
  assert (Ns : firstn (S (Z.to_nat i)) u <> []) by (destruct u; [congruence|discriminate]). rewrite release_new_ok by exact Ns. cbn [bind].
  rewrite rel_pad. eexists. split; [reflexivity|]. unfold rel_precision, len. rewrite app_length, repeat_length, firstn_length.
  set (k := (Z.to_nat (Z.of_nat (List.length u)) - _)%nat). assert (F : List.length (firstn (S (Z.to_nat i)) u) = S (Z.to_nat i)) by (rewrite firstn_length; lia).
  assert (K : k = (List.length u - S (Z.to_nat i))%nat) by lia. split; [lia|].
  assert (Q : forall n, (n <= Z.to_nat i)%nat -> part (firstn (S (Z.to_nat i)) u ++ repeat p k) n = part u n).
  { intros n Hn. unfold part. rewrite app_nth1 by lia. rewrite <- (firstn_skipn (S (Z.to_nat i)) u) at 2. rewrite app_nth1 by lia. reflexivity. }
  split; [|split].
  - intros n Hn. rewrite Q, P by lia. destruct (Nat.eqb_spec n (Z.to_nat i)); [lia|reflexivity].
  - rewrite Q, P by lia. rewrite Nat.eqb_refl. reflexivity.
  - intros n Hn. unfold part. rewrite app_nth2 by lia. rewrite F. rewrite (nth_indep _ 0 p) by (rewrite repeat_length; lia).
    apply nth_repeat.
Qed.
