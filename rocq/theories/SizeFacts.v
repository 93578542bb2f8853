(** Sizes of results: every step of a loop adds at most one item. *)

From Coq Require Import List ZArith NArith Bool Arith Lia Sorting.Permutation.
From Verif Require Import Py Segments Version VersionSets Operators Specifiers Spec SpecMeaning Orders Cuts SetItems SetChains SetMerge SetOps
  SetVersions Density SetAlgebra SetTheorems SizeSpec.
Import ListNotations.
Local Open Scope nat_scope.
Local Opaque key.

Lemma count_extract a : count a = length (extract a).
Proof. now destruct a. Qed.

Lemma bind_ok {A B} (x : result A) (f : A -> result B) r : bind x f = Ok r -> exists y, x = Ok y /\ f y = Ok r.
Proof. destruct x; cbn; [eauto|discriminate]. Qed.

Ltac ok H :=
  lazymatch type of H with
  | bind _ _ = Ok _ => let y := fresh "y" in let E := fresh "E" in apply bind_ok in H; destruct H as (y & E & H); cbv beta in H
  end.

Lemma merge_loop_length u rest : forall cur r, merge_loop u cur rest = Ok r -> length r <= S (length rest).
Proof.
  induction rest as [|x rest IH]; intros cur r; cbn [merge_loop].
  - intros [= <-]. apply le_n.
  - destruct (item_intersects cur x || is_adjacent cur x); intros H; ok H.
    + destruct y as [|i|]; try discriminate. apply IH in H. cbn. lia.
    + injection H as <-. apply IH in E. cbn. lia.
Qed.

Lemma sort_length xs : length (sort xs) = length xs.
Proof. apply Permutation_length, sort_perm. Qed.

Definition total (sets : list vset) : nat := fold_right (fun a n => count a + n) 0 sets.
Lemma total_extract sets : total sets = length (flat_map extract sets).
Proof.
  induction sets as [|a sets IH]; [reflexivity|]. cbn [total flat_map fold_right]. now rewrite app_length, <- IH, count_extract.
Qed.
Lemma total_items xs : total (map Item xs) = length xs.
Proof. rewrite total_extract. now rewrite flat_map_extract_items. Qed.

Lemma merge_with_count u sets r : merge_with u sets = Ok r -> count r <= total sets.
Proof.
  unfold merge_with. rewrite total_extract. generalize (flat_map extract sets). cbv zeta.
  intros [|x xs]; [intros [= <-]; cbn; lia|]. destruct (existsb item_is_universal (x :: xs)).
  - intros [= <-]. cbn. lia.
  - pose proof (sort_length (x :: xs)) as L. destruct (sort (x :: xs)) as [|y ys]; [discriminate L|].
    intros H. ok H. apply merge_loop_length in E. cbn in L. destruct y0 as [|a [|b m]].
    + discriminate.
    + injection H as <-. cbn. lia.
    + injection H as <-. cbn [count length] in *. lia.
Qed.
Lemma merge_count sets r : merge sets = Ok r -> count r <= total sets.
Proof. apply merge_with_count. Qed.

Lemma item_union_count f s o r : item_union f s o = Ok r -> count r <= 2.
Proof.
  assert (M : forall g, merge_with (item_union g) [Item s; Item o] = Ok r -> count r <= 2).
  { intros g H. apply merge_with_count in H. exact H. }
  destruct f as [|f]; [discriminate|]. cbn [item_union]. destruct s as [v|a b c d], o as [w|a' b' c' d'].
  - destruct (v_eq v w); [intros [= <-]; cbn; lia|apply M].
  - destruct (item_contains _ v); [intros [= <-]; cbn; lia|apply M].
  - destruct (item_contains _ w); [intros [= <-]; cbn; lia|].
    destruct (o_eq (Some w) a); [intros H; ok H; injection H as <-; cbn; lia|].
    destruct (o_eq (Some w) b); [intros H; ok H; injection H as <-; cbn; lia|]. apply M.
  - destruct (negb _ && negb _); [apply M|].
    destruct (is_lower _ _), (is_higher _ _); intros H; ok H; injection H as <-; cbn; lia.
Qed.

Lemma union_count a b r : union a b = Ok r -> count r <= count a + count b.
Proof.
  assert (M : forall x y, merge [x; y] = Ok r -> count r <= count x + count y).
  { intros x y H. apply merge_count in H. cbn [total fold_right] in H. lia. }
  destruct a as [|s|xs]; cbn [union].
  - intros [= <-]. cbn. lia.
  - destruct b as [|o|ys].
    + intros [= <-]. cbn. lia.
    + apply item_union_count.
    + destruct s.
      * destruct (contains (Union ys) v); [intros [= <-]; cbn; lia|]. apply M.
      * intros H. apply M in H. lia.
  - apply M.
Qed.

Lemma item_intersection_count s o r : item_intersection s o = Ok r -> count r <= 1.
Proof.
  destruct s as [v|a b c d]; cbn [item_intersection].
  - destruct (item_contains o v); intros [= <-]; cbn; lia.
  - destruct o as [w|a' b' c' d'].
    + destruct (item_contains _ w); intros [= <-]; cbn; lia.
    + destruct (_ && _); [intros [= <-]; cbn; lia|]. destruct (_ && _); [intros [= <-]; cbn; lia|].
      destruct (is_lower _ _), (is_higher _ _); intros H; ok H; (destruct (item_is_point y); [ok H|]); injection H as <-; cbn; lia.
Qed.

Lemma intersection_loop_length selfs : forall items r, intersection_loop selfs items = Ok r ->
  length r <= length selfs + length items - 1 /\ (selfs = [] \/ items = [] -> r = []).
Proof.
  induction selfs as [|s selfs IH]; [intros items r [= <-]; cbn; split; [lia|reflexivity]|].
  induction items as [|i items IHi]; intros r; cbn [intersection_loop].
  - intros [= <-]. cbn. split; [lia|reflexivity].
  - intros H. ok H. ok H. split; [|intros [X|X]; discriminate X].
    apply item_intersection_count in E.
    assert (L : length y0 <= length selfs + length items).
    { destruct (is_higher i s).
      - destruct (IH _ _ E0) as [L Z]. destruct selfs; [rewrite Z by (now left); cbn; lia|]. cbn [length] in *. lia.
      - destruct (IHi _ E0) as [L Z]. cbn [length] in L. lia. }
    injection H as <-. cbn [length] in *. destruct y as [|x|xs]; cbn [count length] in *; lia.
Qed.

Lemma intersection_count a b r : intersection a b = Ok r -> count r <= count a + count b - 1.
Proof.
  assert (U : forall xs x, union_intersection xs x = Ok r -> count r <= length xs + count x - 1).
  { intros xs x H. unfold union_intersection in H. ok H. apply merge_count in H. rewrite total_items in H.
    apply intersection_loop_length in E. rewrite (count_extract x). lia. }
  destruct a as [|[v|m M bm bM]|xs]; cbn [intersection].
  - intros [= <-]. cbn. lia.
  - destruct (contains b v) eqn:C; intros [= <-]; [|cbn; lia].
    destruct b as [|i|[|y ys]]; [discriminate C| |discriminate C|]; cbn; lia.
  - destruct b as [|o|ys]; [intros [= <-]; cbn; lia|apply item_intersection_count|].
    intros H. apply U in H. cbn in *. lia.
  - apply U.
Qed.

Lemma item_difference_count s o r : item_difference s o = Ok r -> count r <= 2.
Proof.
  assert (M : forall x y, merge [Item x; Item y] = Ok r -> count r <= 2).
  { intros x y H. now apply merge_count in H. }
  destruct s as [v|a b c d]; cbn [item_difference].
  - destruct (item_contains o v); intros [= <-]; cbn; lia.
  - destruct o as [w|a' b' c' d'].
    + destruct (negb _); [intros [= <-]; cbn; lia|].
      destruct (o_eq (Some w) a); [destruct (negb c); intros H; [|ok H]; injection H as <-; cbn; lia|].
      destruct (o_eq (Some w) b); [destruct (negb d); intros H; [|ok H]; injection H as <-; cbn; lia|].
      intros H. ok H. ok H. exact (M _ _ H).
    + destruct (negb (item_intersects _ _)); [intros [= <-]; cbn; lia|]. intros H. ok H. ok H.
      destruct y as [x|], y0 as [y|]; [exact (M _ _ H)| | |]; injection H as <-; cbn; lia.
Qed.

Lemma difference_iterator_length items : forall cur r, difference_iterator cur items = Ok r -> length r <= S (length items).
Proof.
  induction items as [|i items IH]; intros cur r; cbn [difference_iterator].
  - intros [= <-]. apply le_n.
  - destruct (is_strictly_lower i cur); [intros H; apply IH in H; cbn; lia|].
    destruct (is_strictly_higher i cur); [intros [= <-]; cbn; lia|]. intros H. ok H.
    destruct y as [|c|[|l [|x [|? ?]]]]; try discriminate.
    + apply IH in H. cbn. lia.
    + apply IH in H. cbn. lia.
    + ok H. injection H as <-. apply IH in E0. cbn. lia.
Qed.

(** Items that may still come out. *)
Definition pending (st : dstate) : nat :=
  length (d_result st) + length (d_items st) + length (d_others st)
  + match d_current st with Some _ => 1 | None => 0 end + match d_other st with Some _ => 1 | None => 0 end.


Lemma next_other_length st : forall st' go, next_other_current st = (st', go) ->
  (go = true -> S (pending st') <= pending st + match d_other st with Some _ => 0 | None => 1 end)
  /\ length (d_result st') <= pending st.
Proof.
  intros st' go. unfold next_other_current, pending. destruct st as [items [|o others] cur other res]; cbn.
  - intros [= <- <-]. split; [discriminate|]. cbn. rewrite !app_length. destruct cur, other; cbn; lia.
  - intros [= <- <-]. split; [intros _|]; destruct cur, other; cbn; lia.
Qed.

Lemma next_current_length b st : forall st' go, d_current st <> None -> next_current b st = (st', go) ->
  (go = true -> pending st' <= pending st) /\ length (d_result st') <= pending st.
Proof.
  intros st' go N. unfold next_current, pending. destruct st as [[|i items] others [c|] other res]; cbn in *; [| easy| |easy].
  - intros [= <- <-]. split; [discriminate|]. cbn. destruct b; rewrite ?app_length; cbn; lia.
  - intros [= <- <-]. split; [intros _|]; cbn; destruct b; rewrite ?app_length; cbn; lia.
Qed.

Lemma d_step_length st st' go : d_step st = Ok (st', go) ->
  (go = true -> pending st' <= pending st) /\ length (d_result st') <= pending st.
Proof.
  unfold d_step. destruct (d_current st) as [cur|] eqn:C; [destruct (d_other st) as [other|] eqn:O|].
  - assert (N : d_current st <> None) by (rewrite C; discriminate).
    destruct (is_strictly_lower other cur); [intros H; injection H as H; apply next_other_length in H; rewrite O in H; split; [intros G; apply H in G|]; lia|].
    destruct (is_strictly_higher other cur); [intros H; injection H as H; now apply next_current_length in H|].
    intros H. ok H. destruct y as [|i|[|l [|x [|? ?]]]]; try discriminate.
    + injection H as H. now apply next_current_length in H.
    + assert (P : pending (d_set_current st i) = pending st) by (unfold pending; cbn; now rewrite C).
      destruct (is_higher i other); injection H as H.
      * apply next_other_length in H. rewrite P in H. cbn in H. rewrite O in H. split; [intros G; apply H in G|]; lia.
      * apply next_current_length in H; [|discriminate]. now rewrite P in H.
    + injection H as H. destruct st as [items others cu ot res]. cbn in C, O. subst cu ot. unfold next_other_current in H. cbn in H.
      destruct others as [|o others]; injection H as <- <-; unfold pending; cbn; split; try discriminate; try intros _; rewrite ?app_length; cbn; lia.
  - intros [= <- <-]. split; [discriminate|]. unfold pending. lia.
  - intros [= <- <-]. split; [discriminate|]. unfold pending. lia.
Qed.

Lemma d_loop_length fuel : forall st st', d_loop fuel st = Ok st' -> length (d_result st') <= pending st.
Proof.
  induction fuel as [|fuel IH]; [discriminate|]. intros st st' H. cbn [d_loop] in H. ok H. destruct y as [st1 go].
  apply d_step_length in E. destruct E as [P L]. destruct go; [apply IH in H; specialize (P eq_refl); lia|]. injection H as <-. exact L.
Qed.

Lemma items_difference_length xs ys r : items_difference xs ys = Ok r -> length r <= length xs + length ys.
Proof.
  unfold items_difference. destruct (next_or_none xs) as [c xs'] eqn:X, (next_or_none ys) as [o ys'] eqn:Y. intros H. ok H. injection H as <-.
  apply d_loop_length in E. unfold pending in E. cbn in E.
  destruct xs, ys; injection X as <- <-; injection Y as <- <-; cbn in *; lia.
Qed.

Lemma difference_count a b r : difference a b = Ok r -> count r <= count a + count b.
Proof.
  destruct a as [|[v|m M bm bM]|xs]; cbn [difference].
  - intros [= <-]. cbn. lia.
  - destruct (contains b v); intros [= <-]; cbn; lia.
  - destruct b as [|o|ys]; [intros [= <-]; cbn; lia|apply item_difference_count|].
    intros H. ok H. apply merge_count in H. rewrite total_items in H. apply difference_iterator_length in E. cbn. lia.
  - intros H. ok H. apply merge_count in H. rewrite total_items in H. apply items_difference_length in E. rewrite (count_extract b). cbn. lia.
Qed.

Lemma complement_count a r : complement a = Ok r -> count r <= S (count a).
Proof.
  destruct a as [|i|xs]; cbn [complement]; [intros [= <-]; cbn; lia| |]; intros H; apply difference_count in H; cbn in *; lia.
Qed.

Lemma symmetric_difference_count a b r : symmetric_difference a b = Ok r -> count r <= 2 * (count a + count b) .
Proof.
  destruct a as [|i|xs]; cbn [symmetric_difference]; [intros [= <-]; cbn; lia| |discriminate].
  intros H. ok H. ok H. apply union_count in E. apply intersection_count in E0. apply difference_count in H. lia.
Qed.
