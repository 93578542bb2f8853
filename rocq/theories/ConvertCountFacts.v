(** Bounds on the counts of the conversions. *)

From Coq Require Import List ZArith Bool Lia.
From Verif Require Import Py Version VersionSets Operators Specifiers SpecifierFacts SizeSpec SizeFacts Counts ConvertCounts CountSpec CountFacts MergeCounts.
Import ListNotations.
Local Open Scope nat_scope.
Local Opaque depth.

Lemma members_pos s : 1 <= members s.
Proof.
  induction s as [| |t v|ss IH|ss IH] using spec_members; try apply le_n.
  - destruct ss as [|s ss]; [apply le_n|]. inversion IH as [|? ? H _]. cbn [members fold_right]. lia.
  - destruct ss as [|s ss]; [apply le_n|]. inversion IH as [|? ? H _]. cbn [members fold_right]. lia.
Qed.

Definition sum (ss : list spec) : nat := fold_right (fun s n => members s + n) 0 ss.

Section Sorting.
Variable w : nat -> nat.
Hypothesis W : sorting w.

Lemma range_set_cost a b c d : runs (range_set_c a b c d) (bind (range_new a b c d) (fun r => Ok (Item r))) 1.
Proof. change 1 with (1 + 0). apply runs_attempt; [apply costs_runs, range_new_cost|]. intros r _. apply runs_free. Qed.

Lemma until_cost f v : runs (until_c f v) (bind (f v) (fun x => bind (range_new (Some v) (Some x) true false) (fun r => Ok (Item r)))) 1.
Proof. change 1 with (0 + 1). apply runs_attempt; [apply runs_free|]. intros x _. apply range_set_cost. Qed.

Lemma complement_item_cost i : runs (complement_c w (Item i)) (complement (Item i)) 54.
Proof. cbn [complement_c complement difference_c difference UNIVERSAL_SET UNIVERSAL]. apply item_difference_cost, W. Qed.

Lemma translate_equal_cost v : runs (translate_equal_c v) (translate_equal v) 1.
Proof. change 1 with (1 + 0). eapply runs_next; [apply point_new_cost|apply runs_free]. Qed.

Lemma translate_wildcard_equal_cost v : runs (translate_wildcard_equal_c v) (translate_wildcard_equal v) 1.
Proof. change 1 with (0 + 1). apply runs_attempt; [apply runs_free|]. intros [x|] _; apply range_set_cost. Qed.

Lemma wildcard_item v e : translate_wildcard_equal v = Ok e -> exists i, e = Item i.
Proof.
  unfold translate_wildcard_equal. intros H. ok H. destruct y as [x|]; ok H; injection H as <-; eauto.
Qed.

Lemma op_translate_cost t v : runs (op_translate_c w t v) (op_translate t v) 55.
Proof.
  destruct t; cbn [op_translate_c op_translate]; try (eapply runs_le; [apply until_cost|lia]); try (eapply runs_le; [apply range_set_cost|lia]);
    try (eapply runs_le; [apply translate_equal_cost|lia]); try (eapply runs_le; [apply translate_wildcard_equal_cost|lia]).
  - change 55 with (1 + (54 + 0)). apply runs_attempt; [apply translate_equal_cost|]. intros e [= <-].
    apply runs_attempt; [apply complement_item_cost|]. intros c _. apply runs_free.
  - change 55 with (1 + (54 + 0)). apply runs_attempt; [apply translate_wildcard_equal_cost|]. intros e E. destruct (wildcard_item _ _ E) as [i ->].
    apply runs_attempt; [apply complement_item_cost|]. intros c _. apply runs_free.
Qed.

Lemma op_translate_count t v a : op_translate t v = Ok a -> count a <= 2.
Proof.
  assert (I : forall i c, complement (Item i) = Ok c -> count c <= 2) by (intros i c H; now apply complement_count in H).
  destruct t; cbn [op_translate]; unfold translate_caret, translate_tilde_equal, translate_tilde, translate_less, translate_less_or_equal, translate_greater, translate_greater_or_equal;
    intros H; try (repeat (ok H); injection H as <-; cbn; lia); try (injection H as <-; cbn; lia);
    try (apply wildcard_item in H as [i ->]; cbn; lia).
  - unfold translate_not_equal, translate_equal in H. cbn [bind] in H. ok H. apply I in E. destruct y; [discriminate|discriminate|]. now injection H as <-.
  - unfold translate_wildcard_not_equal in H. ok H. apply wildcard_item in E as [i ->]. ok H. apply I in E. destruct y; [injection H as <-; exact E|discriminate|now injection H as <-].
Qed.

(** What one step of the reduction costs, and one clause. *)
Definition each (n : nat) : nat := 4 * w (2 * n) + 160 * n.

Lemma each_mono m n : m <= n -> each m <= each n.
Proof. intros L. unfold each. pose proof (proj2 W (2 * m) (2 * n)). lia. Qed.

Definition bounded (s : spec) : Prop :=
  (forall a, specifier_to_version_set s = Ok a -> count a <= 2 * members s)
  /\ runs (to_version_set_c w s) (specifier_to_version_set s) ((2 * members s - 1) * each (members s)).

Section Reduce.
  Variables (f : vset -> vset -> result vset) (fc : vset -> vset -> counted (result vset)).
  Hypothesis small : forall a b r, f a b = Ok r -> count r <= count a + count b.
  Hypothesis cheap : forall a b n, count a + count b <= 2 * n -> runs (fc a b) (f a b) (each n).

  Lemma reduce_from_cost ss : Forall bounded ss -> forall acc n k, count acc <= 2 * k -> k + sum ss <= n ->
    (forall a, reduce_from f specifier_to_version_set acc ss = Ok a -> count a <= 2 * (k + sum ss))
    /\ runs (reduce_from_c fc (to_version_set_c w) acc ss) (reduce_from f specifier_to_version_set acc ss) (2 * sum ss * each n).
  Proof.
    induction 1 as [|s ss [S C] _ IH]; intros acc n k A N; cbn [reduce_from reduce_from_c].
    - split; [intros a [= <-]; cbn; lia|apply runs_free].
    - cbn [sum fold_right] in *. fold (sum ss) in *. split.
      + intros a H. ok H. ok H. apply small in E0. specialize (S _ E). destruct (IH y0 n (k + members s)) as [I _]; [lia|lia|]. specialize (I _ H). lia.
      + eapply runs_le; [apply runs_attempt; [exact C|]|].
        * intros y Y. specialize (S _ Y). instantiate (1 := each n + 2 * sum ss * each n).
          apply runs_attempt; [apply cheap; lia|]. intros r R. apply small in R. apply (IH r n (k + members s)); lia.
        * pose proof (members_pos s). pose proof (each_mono (members s) n). nia.
  Qed.

  Lemma reduce_map_cost ss : Forall bounded ss -> ss <> [] ->
    (forall a, reduce_map f specifier_to_version_set ss = Ok a -> count a <= 2 * sum ss)
    /\ runs (reduce_map_c fc (to_version_set_c w) ss) (reduce_map f specifier_to_version_set ss) ((2 * sum ss - 1) * each (sum ss)).
  Proof.
    destruct 1 as [|s ss [S C] F]; [easy|]. intros _. cbn [reduce_map reduce_map_c sum fold_right]. fold (sum ss). split.
    - intros a H. ok H. specialize (S _ E). destruct (reduce_from_cost ss F y (members s + sum ss) (members s)) as [I _]; [lia|lia|]. apply (I _ H).
    - eapply runs_le; [apply runs_attempt; [exact C|]|].
      + intros y Y. specialize (S _ Y). apply (reduce_from_cost ss F y (members s + sum ss) (members s)); lia.
      + pose proof (members_pos s). pose proof (each_mono (members s) (members s + sum ss)). nia.
  Qed.
End Reduce.

Lemma union_cheap a b n : count a + count b <= 2 * n -> runs (union_c w a b) (union a b) (each n).
Proof. intros L. eapply runs_le; [apply union_cost, W|]. pose proof (proj2 W _ _ L). unfold each. lia. Qed.
Lemma intersection_cheap a b n : count a + count b <= 2 * n -> runs (intersection_c w a b) (intersection a b) (each n).
Proof. intros L. eapply runs_le; [apply intersection_cost; apply W|]. pose proof (proj2 W _ _ L). unfold each. lia. Qed.

Lemma to_version_set_bounded s : bounded s.
Proof.
  induction s as [| |t v|ss IH|ss IH] using spec_members; unfold bounded; cbn [specifier_to_version_set to_version_set_c].
  - split; [intros a [= <-]; cbn; lia|]. eapply runs_le; [apply runs_free|apply Nat.le_0_l].
  - split; [intros a [= <-]; cbn; lia|]. eapply runs_le; [apply runs_free|apply Nat.le_0_l].
  - split; [intros a H; apply op_translate_count in H; cbn; lia|]. eapply runs_le; [apply op_translate_cost|]. unfold each. cbn [members]. lia.
  - destruct ss as [|s ss]; [split; [discriminate|eapply runs_le; [apply runs_free|apply Nat.le_0_l]]|].
    change (members (AnyOf (s :: ss))) with (sum (s :: ss)). apply reduce_map_cost; [exact union_count|exact union_cheap|exact IH|discriminate].
  - destruct ss as [|s ss]; [split; [discriminate|eapply runs_le; [apply runs_free|apply Nat.le_0_l]]|].
    change (members (AllOf (s :: ss))) with (sum (s :: ss)).
    apply reduce_map_cost; [intros a b r H; apply intersection_count in H; lia|exact intersection_cheap|exact IH|discriminate].
Qed.

Lemma item_to_specifier_cost i : runs (item_to_specifier_c i) (item_to_specifier i) 3.
Proof.
  destruct i as [v|a b c d]; [eapply runs_le; [apply runs_free|lia]|]. cbn [item_to_specifier_c item_to_specifier].
  change 3 with (3 + 0). apply runs_attempt.
  - unfold try_range_simple_c, try_range_simple. change 3 with (1 + (1 + 1)). eapply runs_next; [apply item_is_empty_cost|].
    destruct (item_is_empty _); [eapply runs_le; [apply runs_free|lia]|]. destruct (item_is_universal _); [eapply runs_le; [apply runs_free|lia]|].
    eapply runs_next; [apply item_is_point_cost|]. destruct (item_is_point _); [|eapply runs_le; [apply runs_free|lia]].
    change 1 with (1 + 0). apply runs_attempt; [apply costs_runs, item_version_cost|]. intros v _. apply runs_free.
  - intros [s|] _; apply runs_free.
Qed.

Lemma specifiers_cost items : runs (specifiers_c items) (mapM item_to_specifier items) (3 * length items).
Proof.
  induction items as [|i items IH]; cbn [specifiers_c mapM]; [apply runs_free|].
  eapply runs_le; [apply runs_attempt; [apply item_to_specifier_cost|]|].
  - intros s _. apply runs_attempt; [exact IH|]. intros ss _. apply runs_free.
  - cbn [length]. lia.
Qed.

Lemma to_specifier_cost a : runs (to_specifier_c w a) (version_set_to_specifier a) (4 * w (S (count a)) + 103 * (2 + count a)).
Proof.
  destruct a as [|i|xs]; cbn [to_specifier_c version_set_to_specifier].
  - eapply runs_le; [apply runs_free|lia].
  - eapply runs_le; [apply item_to_specifier_cost|lia].
  - apply runs_le with (n := ((4 * w (1 + length xs) + 100 * (2 + length xs)) + 0) + (3 * length xs + 0)); [apply runs_attempt|].
    + unfold exclude_version_c, exclude_version. apply runs_attempt; [apply complement_cost; apply W|]. intros c _.
      destruct c as [|[v|]|]; apply runs_free.
    + intros [v|] _; [eapply runs_le; [apply runs_free|lia]|].
      apply runs_attempt; [apply specifiers_cost|]. intros ss _. apply runs_free.
    + cbn [count Nat.add]. lia.
Qed.

Lemma simplify_cost s : runs (simplify_c w s) (simplify s) (8 * members s * w (S (2 * members s)) + 320 * (members s * members s) + 206 * members s + 206).
Proof.
  unfold simplify_c, simplify. destruct (to_version_set_bounded s) as [S C].
  eapply runs_le; [apply runs_attempt; [exact C|]|].
  - intros a A. specialize (S _ A). instantiate (1 := 4 * w (Datatypes.S (2 * members s)) + 103 * (2 + 2 * members s)).
    eapply runs_le; [apply to_specifier_cost|]. pose proof (proj2 W (Datatypes.S (count a)) (Datatypes.S (2 * members s))). lia.
  - unfold each. pose proof (proj2 W (2 * members s) (Datatypes.S (2 * members s)) (le_S _ _ (le_n _))). pose proof (members_pos s). nia.
Qed.

End Sorting.
