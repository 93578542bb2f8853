(** Bounds on the counts of the operations that merge. *)

From Coq Require Import List ZArith Bool Lia.
From Verif Require Import Py Version VersionSets LoopFacts DepthFacts SizeSpec SizeFacts Counts CountFacts.
Import ListNotations.
Local Open Scope nat_scope.
Local Opaque depth.

Section Sorting.
Variable w : nat -> nat.

Lemma merge_loop_same u v rest : (forall s o, fst (u s o) = v s o) -> forall cur, fst (merge_loop_c u cur rest) = merge_loop v cur rest.
Proof.
  intros E. induction rest as [|x rest IH]; intros cur; cbn [merge_loop_c merge_loop]; [reflexivity|].
  unfold next at 1. cbn [fst]. rewrite (proj1 (costs_or _ _ _ _ _ _ (item_intersects_cost cur x) (is_adjacent_cost cur x))).
  destruct (_ || _).
  - unfold attempt, next. cbn [fst]. rewrite E. destruct (v cur x) as [[|i|l]|]; cbn [bind free fst]; auto.
  - unfold attempt, next. cbn [fst]. rewrite IH. destruct (merge_loop v x rest); reflexivity.
Qed.

Lemma merge_with_same u v sets : (forall s o, fst (u s o) = v s o) -> fst (merge_with_c w u sets) = merge_with v sets.
Proof.
  intros E. unfold merge_with_c, merge_with. destruct (flat_map extract sets) as [|y ys]; [reflexivity|].
  destruct (existsb _ _); [reflexivity|]. unfold next at 1. cbn [fst sort_c]. destruct (sort (y :: ys)) as [|x rest]; [reflexivity|].
  unfold attempt, next. cbn [fst]. rewrite (merge_loop_same u v rest E). destruct (merge_loop v x rest) as [[|i [|j l]]|]; reflexivity.
Qed.

Lemma item_union_same f : forall s o, fst (item_union_c w f s o) = item_union f s o.
Proof.
  induction f as [|f IH]; [reflexivity|]. intros s o.
  assert (M := fun sets => merge_with_same _ _ sets IH).
  destruct s as [v|smin smax simin simax], o as [x|omin omax oimin oimax]; cbn [item_union_c item_union].
  - cbn [next fst once]. destruct (v_eq v x); [reflexivity|apply M].
  - unfold next. cbn [fst]. rewrite (proj1 (item_contains_cost _ _)). destruct (item_contains _ _); [reflexivity|apply M].
  - unfold next. cbn [fst]. rewrite (proj1 (item_contains_cost _ _)). destruct (item_contains _ _); [reflexivity|].
    cbn [same_c once fst]. destruct (o_eq (Some x) smin).
    { unfold attempt, next. cbn [fst]. rewrite (proj1 (range_new_cost _ _ _ _)). destruct (range_new _ _ _ _); reflexivity. }
    destruct (o_eq (Some x) smax).
    { unfold attempt, next. cbn [fst]. rewrite (proj1 (range_new_cost _ _ _ _)). destruct (range_new _ _ _ _); reflexivity. }
    apply M.
  - unfold next at 1. cbn [fst].
    rewrite (proj1 (costs_and _ _ _ _ _ _ (costs_not _ _ _ (is_adjacent_cost _ _)) (costs_not _ _ _ (item_intersects_cost _ _)))).
    destruct (_ && _); [apply M|]. unfold next at 1. cbn [fst]. rewrite (proj1 (is_lower_cost _ _)).
    destruct (is_lower _ _); unfold next at 1; cbn [fst]; rewrite (proj1 (is_higher_cost _ _));
      (destruct (is_higher _ _); unfold attempt, next; cbn [fst]; rewrite (proj1 (range_new_cost _ _ _ _)); destruct (range_new _ _ _ _); reflexivity).
Qed.

(** Either what the call costs does not depend on deeper calls, or it hands over to them. *)
Definition shift {A} (k : nat) (m : counted A) : counted A := (fst m, k + snd m).

Lemma next_shift {A B} (m : counted A) (f : A -> counted B) : next m f = shift (snd m) (f (fst m)).
Proof. reflexivity. Qed.
Lemma shift_shift {A} j k (m : counted A) : shift j (shift k m) = shift (j + k) m.
Proof. unfold shift. cbn [fst snd]. now rewrite Nat.add_assoc. Qed.
Lemma shift_0 {A} (m : counted A) : m = shift 0 m.
Proof. now destruct m. Qed.

Lemma union_step_cost s o : (exists m : counted (result vset), snd m <= 11 /\ forall f, item_union_c w (S f) s o = m)
  \/ (exists k, k <= 6 /\ forall f, item_union_c w (S f) s o = shift k (merge_with_c w (item_union_c w f) [Item s; Item o])).
Proof.
  assert (R : forall a b c d, snd (attempt (range_new_c a b c d) (fun r => free (Ok (Item r)))) <= 1).
  { intros a b c d. pose proof (proj2 (range_new_cost a b c d)) as H. destruct (range_new_c a b c d) as [[i|e] n]; cbn in *; lia. }
  destruct s as [v|smin smax simin simax], o as [x|omin omax oimin oimax]; cbn [item_union_c].
  - destruct (v_eq v x) eqn:E.
    + left. eexists. split; cycle 1; [intros f; rewrite next_shift; cbn [once fst]; reflexivity|]. cbn. lia.
    + right. exists 1. split; [lia|]. intros f. rewrite next_shift. cbn [once fst snd]. reflexivity.
  - pose proof (proj2 (item_contains_cost (Range omin omax oimin oimax) v)) as C.
    destruct (fst (item_contains_c (Range omin omax oimin oimax) v)) eqn:E.
    + left. eexists. split; cycle 1; [intros f; rewrite next_shift, E; reflexivity|]. cbn [shift snd free]. lia.
    + right. eexists. split; cycle 1; [intros f; rewrite next_shift, E; reflexivity|]. lia.
  - pose proof (proj2 (item_contains_cost (Range smin smax simin simax) x)) as C.
    destruct (fst (item_contains_c (Range smin smax simin simax) x)) eqn:E.
    { left. eexists. split; cycle 1; [intros f; rewrite next_shift, E; reflexivity|]. cbn [shift snd free]. lia. }
    destruct (o_eq (Some x) smin) eqn:E1.
    { left. eexists. split; cycle 1; [intros f; rewrite next_shift, E, next_shift; cbn [same_c once fst snd]; rewrite E1; reflexivity|].
      cbn [shift snd]. specialize (R smin smax true simax). lia. }
    destruct (o_eq (Some x) smax) eqn:E2.
    { left. eexists. split; cycle 1; [intros f; rewrite next_shift, E, next_shift; cbn [same_c once fst snd]; rewrite E1, next_shift; cbn [same_c once fst snd]; rewrite E2; reflexivity|].
      cbn [shift snd]. specialize (R smin smax simin true). lia. }
    right. eexists. split; cycle 1; [intros f; rewrite next_shift, E, next_shift; cbn [same_c once fst snd]; rewrite E1, next_shift; cbn [same_c once fst snd]; rewrite E2, !shift_shift; reflexivity|]. lia.
  - pose proof (proj2 (costs_and _ _ _ _ _ _ (costs_not _ _ _ (is_adjacent_cost (Range smin smax simin simax) (Range omin omax oimin oimax)))
      (costs_not _ _ _ (item_intersects_cost (Range smin smax simin simax) (Range omin omax oimin oimax))))) as C.
    set (b := and_c _ _) in *. destruct (fst b) eqn:E.
    + right. exists (snd b). split; [lia|]. intros f. now rewrite next_shift, E.
    + left. eexists. split; cycle 1; [intros f; rewrite next_shift, E; reflexivity|].
      pose proof (proj2 (is_lower_cost (Range smin smax simin simax) (Range omin omax oimin oimax))).
      pose proof (proj2 (is_higher_cost (Range smin smax simin simax) (Range omin omax oimin oimax))).
      cbn [shift snd next]. destruct (fst (is_lower_c _ _)); cbn [next snd]; (destruct (fst (is_higher_c _ _));
        match goal with |- context [range_new_c ?a ?b ?c ?d] => specialize (R a b c d) end; lia).
Qed.

Hypothesis two : w 2 <= 1.

Lemma merge_pair_cost s o x y : in_order s o = (x, y) ->
  (exists m : counted (result vset), snd m <= 10 /\ forall u, merge_with_c w u [Item s; Item o] = m)
  \/ (exists k, k <= 10 /\ forall u, fst (merge_with_c w u [Item s; Item o]) = at_once (fst (u x y)) /\ snd (merge_with_c w u [Item s; Item o]) = k + snd (u x y)).
Proof.
  intros O.
  assert (E : sort [s; o] = [x; y]). { unfold in_order in O. cbn [sort fold_right insert]. destruct (item_lt o s); now injection O as <- <-. }
  destruct (existsb item_is_universal [s; o]) eqn:U.
  { left. eexists. split; cycle 1; [intros u; unfold merge_with_c; cbn [flat_map extract app]; rewrite U; reflexivity|]. cbn. lia. }
  assert (M : forall u, merge_with_c w u [Item s; Item o]
    = shift (4 * w 2) (attempt (merge_loop_c u x [y]) (fun merged => match merged with [i] => free (Ok (Item i)) | _ => free (union_new merged) end))).
  { intros u. unfold merge_with_c. cbn [flat_map extract app]. rewrite U. unfold sort_c. rewrite E. reflexivity. }
  pose proof (proj2 (costs_or _ _ _ _ _ _ (item_intersects_cost x y) (is_adjacent_cost x y))) as C.
  cbn [merge_loop_c] in M. remember (or_c (item_intersects_c x y) (is_adjacent_c x y)) as b eqn:B. destruct (fst b) eqn:F.
  - right. exists (4 * w 2 + snd b). split; [lia|]. intros u. rewrite M. unfold attempt. rewrite (next_shift b), F.
    unfold at_once, next, shift. destruct (u x y) as [[[|i|l]|e] n]; cbn [fst snd bind free]; (split; [reflexivity|lia]).
  - left. eexists. split; cycle 1; [intros u; rewrite M; unfold attempt; rewrite (next_shift b), F; reflexivity|]. cbn. lia.
Qed.

Lemma in_order_cost s o : in_order s o = (s, o) ->
  (forall f, item_union f s o = Err RecursionError) \/ forall f, snd (item_union_c w (S f) s o) <= 16.
Proof.
  intros O. destruct (union_step_cost s o) as [(m & L & H)|(k & L & H)].
  - right. intros f. rewrite H. lia.
  - destruct (merge_pair_cost s o s o O) as [(m & N & M)|(j & N & M)].
    + right. intros f. rewrite H, M. cbn [shift snd]. lia.
    + left. apply endless; [exact O|]. intros f. rewrite <- (item_union_same (S f)), H. cbn [shift fst]. rewrite (proj1 (M _)). f_equal. apply item_union_same.
Qed.

Lemma item_union_cost f s o : runs (item_union_c w (S (S f)) s o) (item_union (S (S f)) s o) 32.
Proof.
  split; [apply item_union_same|]. intros N. destruct (union_step_cost s o) as [(m & L & H)|(k & L & H)]; [rewrite H; lia|].
  destruct (in_order s o) as [x y] eqn:O. destruct (merge_pair_cost s o x y O) as [(m & J & M)|(j & J & M)].
  - rewrite H, M. cbn [shift snd]. lia.
  - rewrite H. cbn [shift snd]. rewrite (proj2 (M _)). destruct (in_order_cost x y (in_order_again _ _ _ _ O)) as [Z|Z].
    + exfalso. apply N. rewrite <- item_union_same, H. cbn [shift fst]. rewrite (proj1 (M _)), item_union_same, Z. reflexivity.
    + specialize (Z f). lia.
Qed.

Lemma merge_loop_cost u v rest : (forall s o, runs (u s o) (v s o) 32) ->
  forall cur, runs (merge_loop_c u cur rest) (merge_loop v cur rest) (38 * List.length rest).
Proof.
  intros E. induction rest as [|x rest IH]; intros cur; cbn [merge_loop_c merge_loop]; [apply runs_free|].
  eapply runs_le; [eapply runs_next; [apply costs_or; [apply item_intersects_cost|apply is_adjacent_cost]|]|].
  - instantiate (1 := 32 + 38 * List.length rest). destruct (_ || _).
    + apply runs_attempt; [apply E|]. intros [|i|l] _; [eapply runs_le; [apply runs_free|lia]|apply IH|eapply runs_le; [apply runs_free|lia]].
    + eapply runs_le; [apply runs_attempt; [apply IH|]|].
      * intros out _. apply runs_free.
      * lia.
  - cbn [List.length]. lia.
Qed.

Lemma merge_with_cost u v sets : (forall s o, runs (u s o) (v s o) 32) ->
  runs (merge_with_c w u sets) (merge_with v sets) (4 * w (total sets) + 38 * (total sets - 1)).
Proof.
  intros E. unfold merge_with_c, merge_with. rewrite total_extract. destruct (flat_map extract sets) as [|y ys]; [eapply runs_le; [apply runs_free|lia]|].
  destruct (existsb _ _); [eapply runs_le; [apply runs_free|lia]|].
  eapply runs_next; [split; [reflexivity|]; cbn [sort_c snd]; lia|]. cbn [sort_c fst].
  pose proof (sort_length (y :: ys)) as L. destruct (sort (y :: ys)) as [|x rest]; [eapply runs_le; [apply runs_free|lia]|].
  eapply runs_le; [apply runs_attempt; [apply merge_loop_cost, E|]|].
  - intros merged _. instantiate (1 := 0). destruct merged as [|i [|j l]]; apply runs_free.
  - cbn [List.length] in *. lia.
Qed.

Lemma depth_two : exists d, depth = S (S d).
Proof. exists 298. reflexivity. Qed.

Lemma merge_cost sets : runs (merge_c w sets) (merge sets) (4 * w (total sets) + 38 * (total sets - 1)).
Proof. unfold merge_c, merge. destruct depth_two as [d ->]. apply merge_with_cost. intros s o. apply item_union_cost. Qed.

Lemma union_cost a b : runs (union_c w a b) (union a b) (4 * w (count a + count b) + 42 * (count a + count b)).
Proof.
  assert (M : forall x y, runs (merge_c w [x; y]) (merge [x; y]) (4 * w (count x + count y) + 38 * (count x + count y))).
  { intros x y. eapply runs_le; [apply merge_cost|]. cbn [total fold_right]. rewrite Nat.add_0_r. lia. }
  destruct a as [|s|xs]; cbn [union_c union].
  - eapply runs_le; [apply runs_free|lia].
  - destruct b as [|o|ys]; [eapply runs_le; [apply runs_free|lia]| |].
    + destruct depth_two as [d ->]. eapply runs_le; [apply item_union_cost|cbn [count]; lia].
    + destruct s as [v|a b c d].
      * eapply runs_le; [eapply runs_next; [apply contains_cost|]|].
        -- instantiate (1 := 4 * w (1 + List.length ys) + 38 * (1 + List.length ys)). destruct (contains _ v); [eapply runs_le; [apply runs_free|lia]|apply M].
        -- cbn [count]. lia.
      * eapply runs_le; [apply M|]. cbn [count]. rewrite (Nat.add_comm (List.length ys)). lia.
  - eapply runs_le; [apply M|lia].
Qed.

Lemma item_intersection_cost s o : runs (item_intersection_c s o) (item_intersection s o) 10.
Proof.
  destruct s as [v|smin smax simin simax]; cbn [item_intersection_c item_intersection].
  - eapply runs_le; [eapply runs_next; [apply item_contains_cost|apply runs_free]|lia].
  - destruct o as [x|omin omax oimin oimax]; [eapply runs_le; [eapply runs_next; [apply item_contains_cost|apply runs_free]|lia]|].
    set (s := Range smin _ _ _). set (o := Range omin _ _ _).
    assert (T : forall a b, runs (let+ h := is_higher_c s o in let '(imax, iimax) := if h then (omax, oimax) else (smax, simax) in
            let! r := range_new_c a imax b iimax in let+ p := item_is_point_c r in
            if p then let! v := item_version_c r in let+ i := point_new_c v in free (Ok (Item i)) else free (Ok (Item r)))
           (let '(imax, iimax) := if is_higher s o then (omax, oimax) else (smax, simax) in
            bind (range_new a imax b iimax) (fun r => if item_is_point r then bind (item_version r) (fun v => Ok (Item (Point v))) else Ok (Item r))) 6).
    { intros a b. change 6 with (2 + 4). eapply runs_next; [apply is_higher_cost|].
      assert (K : forall m im, runs (let! r := range_new_c a m b im in let+ p := item_is_point_c r in
            if p then let! v := item_version_c r in let+ i := point_new_c v in free (Ok (Item i)) else free (Ok (Item r)))
            (bind (range_new a m b im) (fun r => if item_is_point r then bind (item_version r) (fun v => Ok (Item (Point v))) else Ok (Item r))) 4).
      { intros m im. change 4 with (1 + 3). apply runs_attempt; [apply costs_runs, range_new_cost|]. intros r _.
        change 3 with (1 + 2). eapply runs_next; [apply item_is_point_cost|]. destruct (item_is_point r); [|eapply runs_le; [apply runs_free|lia]].
        change 2 with (1 + 1). apply runs_attempt; [apply costs_runs, item_version_cost|]. intros v _.
        change 1 with (1 + 0). eapply runs_next; [apply point_new_cost|apply runs_free]. }
      destruct (is_higher s o); apply K. }
    change 10 with (2 + (2 + 6)). eapply runs_next; [apply is_lower_cost|]. destruct (is_lower s o) eqn:L; cbn [andb negb].
    + eapply runs_next; [apply is_strictly_lower_cost|]. destruct (is_strictly_lower s o); [eapply runs_le; [apply runs_free|lia]|].
      exact (T omin oimin).
    + eapply runs_next; [apply is_strictly_higher_cost|]. destruct (is_strictly_higher s o); [eapply runs_le; [apply runs_free|lia]|].
      exact (T smin simin).
Qed.

Lemma intersection_loop_cost selfs : forall items,
  runs (intersection_loop_c selfs items) (intersection_loop selfs items) (12 * (List.length selfs + List.length items)).
Proof.
  induction selfs as [|s selfs IH]; [intros items; eapply runs_le; [apply runs_free|lia]|].
  induction items as [|i items IHi]; [eapply runs_le; [apply runs_free|lia]|].
  cbn [intersection_loop_c intersection_loop]. eapply runs_le; [apply runs_attempt; [apply item_intersection_cost|]|].
  - intros r _. instantiate (1 := (2 + 12 * (List.length selfs + List.length (i :: items))) + 0).
    apply runs_attempt; [|intros rest _; apply runs_free]. eapply runs_next; [apply is_higher_cost|]. destruct (is_higher i s); [apply IH|].
    eapply runs_le; [apply IHi|cbn [List.length]; lia].
  - cbn [List.length]. lia.
Qed.

Hypothesis mono : forall m n, m <= n -> w m <= w n.

Lemma union_intersection_cost xs b :
  runs (union_intersection_c w xs b) (union_intersection xs b) (4 * w (List.length xs + count b) + 50 * (List.length xs + count b)).
Proof.
  unfold union_intersection_c, union_intersection. rewrite count_extract.
  eapply runs_le; [apply runs_attempt; [apply intersection_loop_cost|]|].
  - intros items E. instantiate (1 := 4 * w (List.length xs + List.length (extract b)) + 38 * (List.length xs + List.length (extract b))).
    apply intersection_loop_length in E as [E _]. eapply runs_le; [apply merge_cost|]. rewrite total_items.
    assert (N : List.length items <= List.length xs + List.length (extract b)) by lia. pose proof (mono _ _ N). lia.
  - lia.
Qed.

Lemma intersection_cost a b : runs (intersection_c w a b) (intersection a b) (4 * w (count a + count b) + 50 * (count a + count b)).
Proof.
  destruct a as [|[v|p q r s]|xs]; cbn [intersection_c intersection].
  - eapply runs_le; [apply runs_free|lia].
  - eapply runs_le; [eapply runs_next; [apply contains_cost|apply runs_free]|]. cbn [count]. lia.
  - destruct b as [|o|ys]; [eapply runs_le; [apply runs_free|lia]| |].
    + eapply runs_le; [apply item_intersection_cost|cbn [count]; lia].
    + eapply runs_le; [apply union_intersection_cost|]. cbn [count]. rewrite (Nat.add_comm (List.length ys)). lia.
  - apply union_intersection_cost.
Qed.

Lemma merge_two_cost i j : runs (merge_c w [Item i; Item j]) (merge [Item i; Item j]) 42.
Proof. eapply runs_le; [apply merge_cost|]. cbn [total fold_right count]. cbn [Nat.add]. lia. Qed.

Lemma item_difference_cost s o : runs (item_difference_c w s o) (item_difference s o) 54.
Proof.
  assert (R : forall a b c d, runs (let! r := range_new_c a b c d in free (Ok (Item r))) (bind (range_new a b c d) (fun r => Ok (Item r))) (1 + 0)).
  { intros a b c d. apply runs_attempt; [apply costs_runs, range_new_cost|]. intros r _. apply runs_free. }
  destruct s as [v|smin smax simin simax]; cbn [item_difference_c item_difference].
  - eapply runs_le; [eapply runs_next; [apply item_contains_cost|apply runs_free]|lia].
  - destruct o as [x|omin omax oimin oimax].
    + change 54 with (4 + 50). eapply runs_next; [apply costs_not, item_contains_cost|]. destruct (negb _); [eapply runs_le; [apply runs_free|lia]|].
      change 50 with (1 + 49). eapply runs_next; [apply same_cost|]. destruct (o_eq (Some x) smin).
      { destruct (negb simin); [eapply runs_le; [apply runs_free|lia]|eapply runs_le; [apply R|lia]]. }
      change 49 with (1 + 48). eapply runs_next; [apply same_cost|]. destruct (o_eq (Some x) smax).
      { destruct (negb simax); [eapply runs_le; [apply runs_free|lia]|eapply runs_le; [apply R|lia]]. }
      change 48 with (1 + 47). apply runs_attempt; [apply costs_runs, range_new_cost|]. intros l _.
      change 47 with (1 + 46). apply runs_attempt; [apply costs_runs, range_new_cost|]. intros r _.
      eapply runs_le; [apply merge_two_cost|lia].
    + set (s := Range smin _ _ _). set (o := Range omin _ _ _).
      change 54 with (4 + 50). eapply runs_next; [apply costs_not, item_intersects_cost|]. destruct (negb _); [eapply runs_le; [apply runs_free|lia]|].
      assert (P : forall m, runs (match m with Some v => let+ p := point_new_c v in free (Ok (Some p)) | None => free (Err ValueError) end)
                                 (match m with Some v => Ok (Some (Point v)) | None => Err ValueError end) (1 + 0)).
      { intros [v|]; [eapply runs_next; [apply point_new_cost|apply runs_free]|eapply runs_le; [apply runs_free|lia]]. }
      assert (Q : forall a b c d, runs (let! r := range_new_c a b c d in free (Ok (Some r))) (bind (range_new a b c d) (fun r => Ok (Some r))) (1 + 0)).
      { intros a b c d. apply runs_attempt; [apply costs_runs, range_new_cost|]. intros r _. apply runs_free. }
      change 50 with (4 + 46). apply runs_attempt.
      { change 4 with (2 + 2). eapply runs_next; [apply is_lower_cost|]. destruct (negb (is_lower s o)); [eapply runs_le; [apply runs_free|lia]|].
        change 2 with (1 + 1). eapply runs_next; [apply same_cost|]. destruct (o_eq smin omin); [apply P|apply Q]. }
      intros before _. change 46 with (4 + 42). apply runs_attempt.
      { change 4 with (2 + 2). eapply runs_next; [apply is_higher_cost|]. destruct (negb (is_higher s o)); [eapply runs_le; [apply runs_free|lia]|].
        change 2 with (1 + 1). eapply runs_next; [apply same_cost|]. destruct (o_eq smax omax); [apply P|apply Q]. }
      intros after _. destruct before, after; try (eapply runs_le; [apply runs_free|lia]). apply merge_two_cost.
Qed.

Lemma difference_iterator_cost items : forall cur, runs (difference_iterator_c w cur items) (difference_iterator cur items) (58 * List.length items).
Proof.
  induction items as [|i items IH]; intros cur; cbn [difference_iterator_c difference_iterator]; [apply runs_free|].
  eapply runs_le; [eapply runs_next; [apply is_strictly_lower_cost|]|].
  - instantiate (1 := 2 + (54 + 58 * List.length items)). destruct (is_strictly_lower i cur); [eapply runs_le; [apply IH|lia]|].
    eapply runs_next; [apply is_strictly_higher_cost|]. destruct (is_strictly_higher i cur); [eapply runs_le; [apply runs_free|lia]|].
    apply runs_attempt; [apply item_difference_cost|]. intros [|c|[|l [|r [|]]]] _; try apply IH; try (eapply runs_le; [apply runs_free|lia]).
    eapply runs_le; [apply runs_attempt; [apply IH|intros rest _; apply runs_free]|lia].
  - cbn [List.length]. lia.
Qed.

Lemma d_step_cost st : runs (d_step_c w st) (d_step st) 60.
Proof.
  unfold d_step_c, d_step. destruct (d_current st) as [cur|]; [|eapply runs_le; [apply runs_free|lia]].
  destruct (d_other st) as [other|]; [|eapply runs_le; [apply runs_free|lia]].
  change 60 with (2 + 58). eapply runs_next; [apply is_strictly_lower_cost|]. destruct (is_strictly_lower other cur); [eapply runs_le; [apply runs_free|lia]|].
  change 58 with (2 + 56). eapply runs_next; [apply is_strictly_higher_cost|]. destruct (is_strictly_higher other cur); [eapply runs_le; [apply runs_free|lia]|].
  change 56 with (54 + 2). apply runs_attempt; [apply item_difference_cost|]. intros [|i|[|l [|r [|]]]] _; try (eapply runs_le; [apply runs_free|lia]).
  change 2 with (2 + 0). cbv zeta. eapply runs_next; [apply is_higher_cost|]. destruct (is_higher i other); apply runs_free.
Qed.

Lemma d_loop_cost fuel : forall st, runs (d_loop_c w fuel st) (d_loop fuel st) (60 * fuel).
Proof.
  induction fuel as [|fuel IH]; intros st; cbn [d_loop_c d_loop]; [apply runs_free|].
  eapply runs_le; [apply runs_attempt; [apply d_step_cost|]|].
  - intros [st' go] _. instantiate (1 := 60 * fuel). cbn [fst snd]. destruct go; [apply IH|eapply runs_le; [apply runs_free|lia]].
  - lia.
Qed.

Lemma items_difference_cost xs ys : runs (items_difference_c w xs ys) (items_difference xs ys) (60 * S (List.length xs + List.length ys)).
Proof.
  unfold items_difference_c, items_difference. destruct (next_or_none xs) as [c xs'], (next_or_none ys) as [o ys'].
  eapply runs_le; [apply runs_attempt; [apply d_loop_cost|intros st _; apply runs_free]|lia].
Qed.

Lemma difference_cost a b : runs (difference_c w a b) (difference a b) (4 * w (count a + count b) + 100 * S (count a + count b)).
Proof.
  destruct a as [|[v|p q r s]|xs]; cbn [difference_c difference].
  - eapply runs_le; [apply runs_free|lia].
  - eapply runs_le; [eapply runs_next; [apply contains_cost|apply runs_free]|]. cbn [count]. lia.
  - destruct b as [|o|ys]; [eapply runs_le; [apply runs_free|lia]| |].
    + eapply runs_le; [apply item_difference_cost|cbn [count]; lia].
    + eapply runs_le; [apply runs_attempt; [apply difference_iterator_cost|]|].
      * intros ds E. instantiate (1 := 4 * w (1 + List.length ys) + 38 * (1 + List.length ys)). apply difference_iterator_length in E.
        eapply runs_le; [apply merge_cost|]. rewrite total_items. pose proof (mono _ _ E). cbn [Nat.add]. lia.
      * cbn [count]. lia.
  - eapply runs_le; [apply runs_attempt; [apply items_difference_cost|]|].
    + intros ds E. instantiate (1 := 4 * w (List.length xs + List.length (extract b)) + 38 * (List.length xs + List.length (extract b))). apply items_difference_length in E.
      eapply runs_le; [apply merge_cost|]. rewrite total_items. pose proof (mono _ _ E). lia.
    + rewrite <- count_extract. cbn [count]. lia.
Qed.

Lemma complement_cost a : runs (complement_c w a) (complement a) (4 * w (1 + count a) + 100 * (2 + count a)).
Proof.
  destruct a as [|i|xs]; cbn [complement_c complement]; [eapply runs_le; [apply runs_free|lia]| |];
    (eapply runs_le; [apply difference_cost|]; cbn [count UNIVERSAL_SET]; lia).
Qed.

Lemma symmetric_difference_cost a b :
  runs (symmetric_difference_c w a b) (symmetric_difference a b) (12 * w (2 * (count a + count b)) + 300 * S (count a + count b)).
Proof.
  destruct a as [|i|xs]; cbn [symmetric_difference_c symmetric_difference]; [eapply runs_le; [apply runs_free|lia]| |eapply runs_le; [apply runs_free|lia]].
  set (n := count (Item i) + count b).
  assert (N : w n <= w (2 * n)) by (apply mono; lia).
  eapply runs_le; [apply runs_attempt; [apply union_cost|]|].
  - intros u U. instantiate (1 := (4 * w n + 50 * n) + (4 * w (2 * n) + 100 * S (2 * n))). apply runs_attempt; [apply intersection_cost|].
    intros j J. apply union_count in U. apply intersection_count in J. fold n in U, J. eapply runs_le; [apply difference_cost|].
    assert (L : count u + count j <= 2 * n) by lia. pose proof (mono _ _ L). lia.
  - fold n. lia.
Qed.

End Sorting.
