(** Counting does not change the answers, and bounds on the counts. *)

From Coq Require Import List ZArith Bool Lia.
From Verif Require Import Py Version VersionSets LoopFacts DepthFacts SizeSpec SizeFacts Counts CountSpec.
Import ListNotations.
Local Open Scope nat_scope.
Local Opaque depth.

(** The answer is [a], after at most [n] comparisons. *)
Definition costs {A} (m : counted A) (a : A) (n : nat) : Prop := fst m = a /\ snd m <= n.
(** The same unless the recursion does not end. *)
Definition runs {A} (m : counted (result A)) (r : result A) (n : nat) : Prop :=
  fst m = r /\ (r <> Err RecursionError -> snd m <= n).

Lemma costs_le {A} (m : counted A) a n k : costs m a n -> n <= k -> costs m a k.
Proof. intros [H K] L. split; [exact H|lia]. Qed.
Lemma runs_le {A} (m : counted (result A)) r n k : runs m r n -> n <= k -> runs m r k.
Proof. intros [H K] L. split; [exact H|]. intros N. specialize (K N). lia. Qed.
Lemma costs_free {A} (a : A) : costs (free a) a 0.
Proof. now split. Qed.
Lemma costs_once {A} (a : A) : costs (once a) a 1.
Proof. now split. Qed.
Lemma costs_runs {A} (m : counted (result A)) r n : costs m r n -> runs m r n.
Proof. intros [H K]. now split. Qed.
Lemma runs_free {A} (r : result A) : runs (free r) r 0.
Proof. now split. Qed.

Lemma costs_next {A B} (m : counted A) (f : A -> counted B) a b n k : costs m a n -> costs (f a) b k -> costs (next m f) b (n + k).
Proof. intros [<- H] [E K]. split; [exact E|]. cbn [next snd]. lia. Qed.
Lemma runs_next {A B} (m : counted A) (f : A -> counted (result B)) a b n k : costs m a n -> runs (f a) b k -> runs (next m f) b (n + k).
Proof. intros [<- H] [E K]. split; [exact E|]. cbn [next snd]. intros N. specialize (K N). lia. Qed.
Lemma runs_attempt {A B} (m : counted (result A)) (f : A -> counted (result B)) r g n k : runs m r n ->
  (forall a, r = Ok a -> runs (f a) (g a) k) -> runs (attempt m f) (bind r g) (n + k).
Proof.
  intros [<- H] K. unfold attempt, runs, next. cbn [fst snd]. destruct (fst m) as [a|e] eqn:E; cbn [bind].
  - specialize (K a eq_refl) as [L M]. split; [exact L|]. intros N. specialize (M N). enough (snd m <= n) by lia. apply H. discriminate.
  - split; [reflexivity|]. intros N. enough (snd m <= n) by (cbn [free snd]; lia). apply H. congruence.
Qed.

Ltac le_next := eapply costs_le; [eapply costs_next|].

Lemma costs_not m b n : costs m b n -> costs (not_c m) (negb b) n.
Proof. intros H. eapply costs_le; [eapply costs_next; [exact H|apply costs_free]|lia]. Qed.
Lemma costs_and m l a b n k : costs m a n -> costs l b k -> costs (and_c m l) (a && b) (n + k).
Proof. intros H K. eapply costs_next; [exact H|]. destruct a; [exact K|]. eapply costs_le; [apply costs_free|lia]. Qed.
Lemma costs_or m l a b n k : costs m a n -> costs l b k -> costs (or_c m l) (a || b) (n + k).
Proof. intros H K. eapply costs_next; [exact H|]. destruct a; [|exact K]. eapply costs_le; [apply costs_free|lia]. Qed.

Lemma lt_cost x y : costs (lt_c x y) (is_lt (b_cmp x y)) 1. Proof. apply costs_once. Qed.
Lemma gt_cost x y : costs (gt_c x y) (is_gt (b_cmp x y)) 1. Proof. apply costs_once. Qed.
Lemma eq_cost x y : costs (eq_c x y) (is_eq (b_cmp x y)) 1. Proof. apply costs_once. Qed.
Lemma same_cost x y : costs (same_c x y) (o_eq x y) 1. Proof. apply costs_once. Qed.

Lemma range_new_cost a b i j : costs (range_new_c a b i j) (range_new a b i j) 1.
Proof.
  unfold range_new_c, range_new. destruct (match a with None => i | _ => false end); [split; [reflexivity|cbn; lia]|].
  destruct (match b with None => j | _ => false end); [split; [reflexivity|cbn; lia]|].
  change 1 with (1 + 0). eapply costs_next; [apply gt_cost|]. destruct (is_gt _); apply costs_free.
Qed.
Lemma point_new_cost v : costs (point_new_c v) (Point v) 1.
Proof. apply costs_once. Qed.

Lemma is_lower_cost s o : costs (is_lower_c s o) (is_lower s o) 2.
Proof.
  unfold is_lower_c, is_lower, costs, lt_c, gt_c, next, once, free. cbn [fst snd].
  destruct (b_cmp _ _); cbn; split; auto.
Qed.
Lemma is_higher_cost s o : costs (is_higher_c s o) (is_higher s o) 2.
Proof.
  unfold is_higher_c, is_higher, costs, lt_c, gt_c, next, once, free. cbn [fst snd].
  destruct (b_cmp _ _); cbn; split; auto.
Qed.
Lemma is_strictly_lower_cost s o : costs (is_strictly_lower_c s o) (is_strictly_lower s o) 2.
Proof.
  unfold is_strictly_lower_c, is_strictly_lower, costs, lt_c, gt_c, next, once, free. cbn [fst snd].
  destruct (b_cmp _ _); cbn; split; auto.
Qed.
Lemma is_strictly_higher_cost s o : costs (is_strictly_higher_c s o) (is_strictly_higher s o) 2.
Proof.
  unfold is_strictly_higher_c, is_strictly_higher, costs, lt_c, gt_c, next, once, free. cbn [fst snd].
  destruct (b_cmp _ _); cbn; split; auto.
Qed.

Lemma is_adjacent_cost s o : costs (is_adjacent_c s o) (is_adjacent s o) 2.
Proof.
  change 2 with ((1 + 0) + (1 + 0)). apply costs_or; (apply costs_and; [apply same_cost|apply costs_free]).
Qed.

(** What [list.sort] is charged for each call of [<]. *)
Lemma item_compare_cost s o : costs (item_compare_c s o) (item_compare s o) 4.
Proof.
  unfold item_compare_c, item_compare, costs, lt_c, gt_c, next, once, free. cbn [fst snd].
  destruct (b_cmp (comparable_min s) _); cbn; [|split; auto|split; auto].
  destruct (Bool.eqb (i_include_min s) _); cbn; [split; auto|].
  destruct (b_cmp (comparable_max s) _); cbn; [|split; auto|split; auto]. destruct (Bool.eqb (i_include_max s) _); cbn; auto.
Qed.

Lemma item_eqb_cost s o : costs (item_eqb_c s o) (item_eqb s o) 2.
Proof.
  change 2 with (((1 + 1) + 0) + 0). unfold item_eqb_c, item_eqb.
  repeat apply costs_and; try apply same_cost; apply costs_free.
Qed.
Lemma items_eqb_cost xs : forall ys, costs (items_eqb_c xs ys) (items_eqb xs ys) (2 * min (length xs) (length ys)).
Proof.
  induction xs as [|x xs IH]; intros [|y ys]; cbn [items_eqb_c items_eqb]; try (split; [reflexivity|cbn; lia]).
  eapply costs_le; [apply costs_and; [apply item_eqb_cost|apply IH]|cbn [length Nat.min]; lia].
Qed.
Lemma set_eqb_cost a b : costs (set_eqb_c a b) (set_eqb a b) (2 * min (count a) (count b)).
Proof.
  destruct a as [|s|xs], b as [|o|ys]; cbn [set_eqb_c set_eqb]; try (split; [reflexivity|cbn; lia]).
  - apply item_eqb_cost.
  - apply items_eqb_cost.
Qed.

Lemma item_is_empty_cost i : costs (item_is_empty_c i) (item_is_empty i) 1.
Proof. destruct i; cbn [item_is_empty_c item_is_empty]; [split; [reflexivity|cbn; lia]|]. change 1 with (1 + 0). apply costs_and; [apply eq_cost|apply costs_free]. Qed.
Lemma item_is_point_cost i : costs (item_is_point_c i) (item_is_point i) 1.
Proof. destruct i; cbn [item_is_point_c item_is_point]; [split; [reflexivity|cbn; lia]|]. change 1 with (1 + 0). apply costs_and; [apply eq_cost|apply costs_free]. Qed.
Lemma is_empty_cost a : costs (is_empty_c a) (is_empty a) 1.
Proof. destruct a; cbn [is_empty_c is_empty]; try (split; [reflexivity|cbn; lia]). apply item_is_empty_cost. Qed.
Lemma item_version_cost i : costs (item_version_c i) (item_version i) 1.
Proof.
  destruct i as [v|a b c d]; [split; [reflexivity|cbn; lia]|]. unfold item_version_c, item_version.
  change 1 with (1 + 0). eapply costs_next; [apply item_is_point_cost|]. apply costs_free.
Qed.

Lemma item_contains_cost i v : costs (item_contains_c i v) (item_contains i v) 4.
Proof.
  destruct i as [x|a b c d]; [split; [reflexivity|cbn; lia]|]. unfold item_contains_c, item_contains.
  change 4 with (1 + 3). eapply costs_next; [apply lt_cost|]. destruct (is_lt _); [split; [reflexivity|cbn; lia]|].
  change 3 with ((0 + 1) + 2). eapply costs_next; [apply costs_and; [apply costs_free|apply eq_cost]|].
  destruct (_ && _); [split; [reflexivity|cbn; lia]|].
  change 2 with (1 + 1). eapply costs_next; [apply gt_cost|]. destruct (is_gt _); [split; [reflexivity|cbn; lia]|].
  change 1 with ((0 + 1) + 0). eapply costs_next; [apply costs_and; [apply costs_free|apply eq_cost]|].
  destruct (_ && _); apply costs_free.
Qed.

Lemma any_cost f g k : (forall i, costs (f i) (g i) k) -> forall xs, costs (any_c f xs) (existsb g xs) (k * length xs).
Proof.
  intros H xs. induction xs as [|x xs IH]; cbn [any_c existsb]; [split; [reflexivity|cbn; lia]|].
  eapply costs_le; [apply costs_or; [apply H|exact IH]|cbn [length]; lia].
Qed.
Lemma all_cost f g k : (forall i, costs (f i) (g i) k) -> forall xs, costs (all_c f xs) (forallb g xs) (k * length xs).
Proof.
  intros H xs. induction xs as [|x xs IH]; cbn [all_c forallb]; [split; [reflexivity|cbn; lia]|].
  eapply costs_le; [apply costs_and; [apply H|exact IH]|cbn [length]; lia].
Qed.

Lemma contains_cost a v : costs (contains_c a v) (contains a v) (4 * count a).
Proof.
  destruct a as [|i|xs]; cbn [contains_c contains count]; [apply costs_free|apply item_contains_cost|].
  apply any_cost. intros i. apply item_contains_cost.
Qed.

Lemma item_includes_cost s o : costs (item_includes_c s o) (item_includes s o) 4.
Proof.
  destruct s as [v|a b c d]; cbn [item_includes_c item_includes].
  - change 4 with (1 + 3). apply costs_or; [apply item_is_empty_cost|]. destruct o; split; try reflexivity; cbn; lia.
  - destruct o as [x|e f g h]; [apply item_contains_cost|].
    change 4 with (2 + 2). apply costs_and; apply costs_not; [apply is_lower_cost|apply is_higher_cost].
Qed.
Lemma includes_loop_cost selfs : forall items, costs (includes_loop_c selfs items) (includes_loop selfs items) (4 * (length selfs + length items)).
Proof.
  induction selfs as [|s selfs IH]; [intros [|]; (split; [reflexivity|cbn; lia])|].
  induction items as [|i items IHi]; [split; [reflexivity|cbn; lia]|].
  cbn [includes_loop_c includes_loop]. eapply costs_le; [eapply costs_next; [apply item_includes_cost|]|].
  - instantiate (1 := 4 * (length selfs + length (i :: items))).
    destruct (item_includes s i); [|apply IH]. eapply costs_le; [apply IHi|cbn [length]; lia].
  - cbn [length]. lia.
Qed.
Lemma includes_cost a b : costs (includes_c a b) (includes a b) (4 * (count a + count b)).
Proof.
  destruct a as [|[v|p q r s]|xs]; cbn [includes_c includes].
  - destruct b as [|i|ys]; cbn [is_empty_c is_empty count]; try (split; [reflexivity|cbn; lia]).
    eapply costs_le; [apply item_is_empty_cost|lia].
  - eapply costs_le; [apply costs_or; [apply is_empty_cost|]|].
    + instantiate (1 := 1). destruct b as [|[x|]|]; split; try reflexivity; cbn; lia.
    + cbn [count]. lia.
  - destruct b as [|o|ys]; [split; [reflexivity|cbn; lia]| |].
    + eapply costs_le; [apply item_includes_cost|cbn; lia].
    + eapply costs_le; [apply all_cost, item_includes_cost|cbn [count]; lia].
  - rewrite (count_extract b). apply includes_loop_cost.
Qed.

Lemma item_intersects_cost s o : costs (item_intersects_c s o) (item_intersects s o) 4.
Proof.
  destruct s as [v|a b c d]; cbn [item_intersects_c item_intersects]; [apply item_contains_cost|].
  destruct o as [x|e f g h]; [apply item_contains_cost|].
  change 4 with (2 + 2). apply costs_and; apply costs_not; [apply is_strictly_lower_cost|apply is_strictly_higher_cost].
Qed.
Lemma intersects_loop_cost selfs : forall items, costs (intersects_loop_c selfs items) (intersects_loop selfs items) (6 * (length selfs + length items)).
Proof.
  induction selfs as [|s selfs IH]; [intros [|]; (split; [reflexivity|cbn; lia])|].
  induction items as [|i items IHi]; [split; [reflexivity|cbn; lia]|].
  cbn [intersects_loop_c intersects_loop].
  eapply costs_le; [eapply costs_next; [apply item_intersects_cost|]|].
  - instantiate (1 := 2 + 6 * (length selfs + length (i :: items))). destruct (item_intersects s i); [eapply costs_le; [apply costs_free|lia]|].
    eapply costs_next; [apply is_higher_cost|]. destruct (is_higher i s); [apply IH|].
    eapply costs_le; [apply IHi|cbn [length]; lia].
  - cbn [length]. lia.
Qed.
Lemma intersects_cost a b : costs (intersects_c a b) (intersects a b) (6 * (count a + count b)).
Proof.
  destruct a as [|[v|p q r s]|xs]; cbn [intersects_c intersects].
  - split; [reflexivity|cbn; lia].
  - eapply costs_le; [apply contains_cost|cbn [count]; lia].
  - destruct b as [|o|ys]; [split; [reflexivity|cbn; lia]| |].
    + eapply costs_le; [apply item_intersects_cost|cbn; lia].
    + eapply costs_le; [apply any_cost, item_intersects_cost|cbn [count]; lia].
  - rewrite (count_extract b). apply intersects_loop_cost.
Qed.

(** ** Exact counts for two items *)

Lemma exact_counts s o :
  snd (is_lower_c s o) = first_settles (is_lt (b_cmp (comparable_min s) (comparable_min o)))
  /\ snd (is_higher_c s o) = first_settles (is_lt (b_cmp (comparable_max s) (comparable_max o)))
  /\ snd (is_strictly_lower_c s o) = first_settles (is_lt (b_cmp (comparable_max s) (comparable_min o)))
  /\ snd (is_strictly_higher_c s o) = first_settles (is_gt (b_cmp (comparable_min s) (comparable_max o)))
  /\ snd (is_adjacent_c s o) = first_settles (is_left_adjacent s o)
  /\ snd (item_eqb_c s o) = first_settles (negb (o_eq (i_min s) (i_min o)))
  /\ snd (item_compare_c s o)
     = first_settles (is_gt (b_cmp (comparable_min s) (comparable_min o)))
       + (if is_eq (b_cmp (comparable_min s) (comparable_min o)) && negb (Bool.eqb (i_include_min s) (i_exclude_min o))
          then first_settles (is_gt (b_cmp (comparable_max s) (comparable_max o))) else 0).
Proof.
  unfold is_lower_c, is_higher_c, is_strictly_lower_c, is_strictly_higher_c, is_adjacent_c, is_left_adjacent_c, is_right_adjacent_c, is_left_adjacent, item_eqb_c, item_compare_c,
    and_c, or_c, lt_c, gt_c, same_c, next, once, free, first_settles.
  cbn [fst snd]. repeat split.
  - destruct (b_cmp _ _); reflexivity.
  - destruct (b_cmp _ _); reflexivity.
  - destruct (b_cmp _ _); reflexivity.
  - destruct (b_cmp _ _); reflexivity.
  - destruct (o_eq (i_max s) (i_min o)), (Bool.eqb (i_include_max s) (i_exclude_min o)), (o_eq (i_min s) (i_max o)); reflexivity.
  - destruct (o_eq (i_min s) (i_min o)), (o_eq (i_max s) (i_max o)), (Bool.eqb (i_include_min s) (i_include_min o)); reflexivity.
  - destruct (b_cmp (comparable_min s) (comparable_min o)); cbn; try reflexivity. destruct (Bool.eqb (i_include_min s) (i_exclude_min o)); cbn; [reflexivity|].
    destruct (b_cmp (comparable_max s) (comparable_max o)); cbn; try reflexivity. destruct (Bool.eqb (i_include_max s) (i_exclude_max o)); reflexivity.
Qed.

Lemma exact_contains min max imin imax v : let i := Range min max imin imax in
  snd (item_contains_c i v)
  = if is_lt (b_cmp (Fin v) (comparable_min i)) then 1
    else (if imin then 1 else 2)
         + (if negb imin && is_eq (b_cmp (Fin v) (comparable_min i)) then 0
            else if is_gt (b_cmp (Fin v) (comparable_max i)) then 1
            else if imax then 1 else 2).
Proof.
  intros i. unfold i, item_contains_c, and_c, lt_c, gt_c, eq_c, next, once, free, i_exclude_min, i_exclude_max. cbn [fst snd i_include_min i_include_max].
  destruct imin, imax, (b_cmp (Fin v) (comparable_min _)), (b_cmp (Fin v) (comparable_max _)); reflexivity.
Qed.
