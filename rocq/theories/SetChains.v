(** Chains of separated items, and merging. *)

From Coq Require Import List ZArith NArith Bool Arith Sorting.Permutation Sorting.Sorted.
From Verif Require Import Py Segments Version VersionSets Orders Cuts SetItems.
Import ListNotations.
Local Opaque key.

Definition den (i : item) (c : cut) : Prop := cle (lo i) c /\ clt c (hi i).
Definition dens (xs : list item) (c : cut) : Prop := exists x, In x xs /\ den x c.

(** Proper items with gaps between them, all above a cut. *)
Fixpoint chain_from (c : cut) (xs : list item) : Prop :=
  match xs with
  | [] => True
  | x :: xs' => proper x /\ clt c (lo x) /\ chain_from (hi x) xs'
  end.
Definition chain (xs : list item) : Prop :=
  match xs with [] => True | x :: xs' => proper x /\ chain_from (hi x) xs' end.

Definition of_items (xs : list item) : vset :=
  match xs with [] => Empty | [x] => Item x | _ => Union xs end.

Definition canon (a : vset) : Prop :=
  match a with
  | Empty => True
  | Item i => proper i
  | Union xs => chain xs /\ (2 <= length xs)%nat
  end.
Definition dset (a : vset) (c : cut) : Prop := dens (extract a) c.

Lemma chain_from_chain c xs : chain_from c xs -> chain xs.
Proof. destruct xs; cbn; tauto. Qed.
Lemma chain_from_weaken c d xs : chain_from d xs -> cle c d -> chain_from c xs.
Proof.
  destruct xs as [|x xs]; cbn; [auto|]. intros (P & H & C) L. repeat split; auto. corder.
Qed.
Lemma chain_from_tail c x xs : chain_from c (x :: xs) -> chain_from c xs.
Proof.
  cbn. intros (P & H & C). eapply chain_from_weaken; [exact C|].
  pose proof (proper_lt _ P). corder.
Qed.
Lemma chain_tail x xs : chain (x :: xs) -> chain xs.
Proof. cbn. intros [_ H]. eapply chain_from_chain, H. Qed.
Lemma chain_proper xs : chain xs -> Forall proper xs.
Proof.
  induction xs as [|x xs IH]; constructor.
  - apply H.
  - apply IH. eapply chain_tail, H.
Qed.
Lemma chain_cons c x xs : chain (x :: xs) -> clt c (lo x) -> chain_from c (x :: xs).
Proof. cbn. tauto. Qed.

Lemma chain_from_lb c xs x : chain_from c xs -> In x xs -> clt c (lo x).
Proof.
  revert c. induction xs as [|y xs IH]; cbn; [tauto|].
  intros c (P & H & C) [->|I]; [exact H|].
  pose proof (IH _ C I). pose proof (proper_lt _ P). corder.
Qed.
Lemma dens_lb c xs d : chain_from c xs -> dens xs d -> clt c d.
Proof. intros C (x & I & H1 & H2). pose proof (chain_from_lb _ _ _ C I). corder. Qed.

Lemma dens_cons x xs c : dens (x :: xs) c <-> den x c \/ dens xs c.
Proof.
  unfold dens. cbn. split.
  - intros (y & [->|I] & D); [auto|]. right. eauto.
  - intros [D|(y & I & D)]; eauto.
Qed.
Lemma dens_nil c : dens [] c <-> False.
Proof. unfold dens. cbn. split; [intros (? & [] & _)|tauto]. Qed.
Lemma dens_app xs ys c : dens (xs ++ ys) c <-> dens xs c \/ dens ys c.
Proof.
  induction xs as [|x xs IH]; cbn [app].
  - rewrite dens_nil. tauto.
  - rewrite !dens_cons, IH. tauto.
Qed.
Lemma dens_perm xs ys c : Permutation xs ys -> dens xs c <-> dens ys c.
Proof.
  intros P. unfold dens. split; intros (x & I & D); exists x; split; auto;
    [eapply Permutation_in; eauto|eapply Permutation_in; [apply Permutation_sym|]; eauto].
Qed.

Lemma extract_of_items xs : extract (of_items xs) = xs.
Proof. destruct xs as [|x [|y xs]]; reflexivity. Qed.
Lemma canon_of_items xs : chain xs -> canon (of_items xs).
Proof.
  destruct xs as [|x [|y xs]]; cbn; try tauto. intros H. split; [tauto|].
  do 2 apply le_n_S. apply Nat.le_0_l.
Qed.
Lemma of_items_extract a : canon a -> of_items (extract a) = a.
Proof.
  destruct a as [|i|xs]; cbn; auto. intros [_ L].
  destruct xs as [|x [|y xs]]; cbn in L; auto; exfalso; inversion L as [|n L1]; inversion L1.
Qed.
Lemma canon_chain a : canon a -> chain (extract a).
Proof. destruct a as [|i|xs]; cbn; tauto. Qed.
Lemma canon_proper a : canon a -> Forall proper (extract a).
Proof. intros. now apply chain_proper, canon_chain. Qed.

(** ** A chain is determined by what it covers *)

Lemma den_lo x : proper x -> den x (lo x).
Proof. intros P. split; [apply cle_refl|now apply proper_lt]. Qed.

Lemma chain_head_eq x xs y ys :
  chain (x :: xs) -> chain (y :: ys) ->
  (forall c, dens (x :: xs) c <-> dens (y :: ys) c) -> lo x = lo y /\ hi x = hi y.
Proof.
  assert (A : forall x xs y ys, chain (x :: xs) -> chain (y :: ys) ->
     (forall c, dens (x :: xs) c -> dens (y :: ys) c) -> cle (lo y) (lo x)).
  { clear. intros x xs y ys [Px Cx] [Py Cy] H.
    assert (D : dens (y :: ys) (lo x)) by (apply H, dens_cons; left; now apply den_lo).
    apply dens_cons in D as [D|D]; [apply D|].
    pose proof (dens_lb _ _ _ Cy D). pose proof (proper_lt _ Py). corder. }
  intros Cx Cy H.
  assert (EL : lo x = lo y).
  { apply cle_antisym; [eapply (A y ys x xs)|eapply (A x xs y ys)]; eauto; intros c D; now apply H. }
  split; [exact EL|].
  assert (B : forall x xs y ys, chain (x :: xs) -> chain (y :: ys) -> lo x = lo y ->
     (forall c, dens (x :: xs) c -> dens (y :: ys) c) -> cle (hi x) (hi y)).
  { clear. intros x xs y ys [Px Cx] [Py Cy] E H.
    destruct (clt_cle_dec (hi y) (hi x)) as [L|L]; [|exact L]. exfalso.
    pose proof (proper_lt _ Py) as Ly.
    assert (D : dens (y :: ys) (hi y)).
    { apply H, dens_cons. left. split; [rewrite E; corder|exact L]. }
    apply dens_cons in D as [[_ D]|D]; [corder|].
    pose proof (dens_lb _ _ _ Cy D). corder. }
  apply cle_antisym; [eapply (B x xs y ys)|eapply (B y ys x xs)]; eauto; intros c D; now apply H.
Qed.

Lemma chain_unique xs ys :
  chain xs -> chain ys -> (forall c, dens xs c <-> dens ys c) -> items_eqb xs ys = true.
Proof.
  revert ys. induction xs as [|x xs IH]; intros [|y ys] Cx Cy H.
  - reflexivity.
  - exfalso. assert (D : dens [] (lo y)) by (apply H, dens_cons; left; apply den_lo, Cy).
    now apply dens_nil in D.
  - exfalso. assert (D : dens [] (lo x)) by (apply H, dens_cons; left; apply den_lo, Cx).
    now apply dens_nil in D.
  - destruct (chain_head_eq _ _ _ _ Cx Cy H) as [EL EH].
    cbn [items_eqb]. apply andb_true_iff. split.
    { apply item_eqb_iff; auto; apply proper_valid; [apply Cx|apply Cy]. }
    apply IH; [now apply (chain_tail x)|now apply (chain_tail y)|].
    intros c. destruct Cx as [Px Cx], Cy as [Py Cy].
    pose proof (H c) as Hc. rewrite !dens_cons in Hc. unfold den in Hc. rewrite <- EL, <- EH in Hc.
    split; intros D.
    + pose proof (dens_lb _ _ _ Cx D). destruct (proj1 Hc (or_intror D)) as [[_ D']|D']; [|exact D'].
      exfalso. corder.
    + rewrite EH in *. pose proof (dens_lb _ _ _ Cy D).
      destruct (proj2 Hc (or_intror D)) as [[_ D']|D']; [|exact D'].
      exfalso. corder.
Qed.

Lemma items_eqb_dens xs ys :
  Forall valid_item xs -> Forall valid_item ys -> items_eqb xs ys = true ->
  forall c, dens xs c <-> dens ys c.
Proof.
  intros Fx. revert ys. induction Fx as [|x xs Vx Fx IH]; intros [|y ys] Fy; cbn [items_eqb];
    try congruence; [tauto|].
  rewrite andb_true_iff. intros [E1 E2] c. inversion Fy as [|? ? Vy Fy']; subst.
  apply item_eqb_iff in E1 as [EL EH]; auto. rewrite !dens_cons, (IH ys Fy' E2 c).
  unfold den. rewrite EL, EH. tauto.
Qed.

Lemma set_eqb_items a b : canon a -> canon b ->
  set_eqb a b = items_eqb (extract a) (extract b).
Proof.
  intros Ca Cb. rewrite <- (of_items_extract a Ca), <- (of_items_extract b Cb) at 1.
  destruct (extract a) as [|x [|x' xs]], (extract b) as [|y [|y' ys]]; cbn; auto;
    now rewrite ?andb_true_r, ?andb_false_r.
Qed.

Lemma forall_valid xs : Forall proper xs -> Forall valid_item xs.
Proof. apply Forall_impl, proper_valid. Qed.

Theorem set_eqb_iff a b :
  canon a -> canon b -> set_eqb a b = true <-> forall c, dset a c <-> dset b c.
Proof.
  intros Ca Cb. rewrite set_eqb_items by assumption. split.
  - apply items_eqb_dens; now apply forall_valid, canon_proper.
  - apply chain_unique; now apply canon_chain.
Qed.

(** ** Membership of versions *)

Lemma dens_version xs v :
  Forall valid_item xs ->
  existsb (fun i => item_contains i v) xs = true <-> dens xs (at_version v).
Proof.
  intros F. rewrite existsb_exists. rewrite Forall_forall in F. unfold dens, den.
  split; intros (x & I & D); exists x; split; auto; now apply item_contains_iff; auto.
Qed.

Lemma contains_extract a v : contains a v = existsb (fun i => item_contains i v) (extract a).
Proof. destruct a; cbn; auto. now rewrite orb_false_r. Qed.

Lemma contains_valid_iff a v :
  Forall valid_item (extract a) -> contains a v = true <-> dset a (at_version v).
Proof. intros. rewrite contains_extract. now apply dens_version. Qed.

Lemma contains_iff a v : canon a -> contains a v = true <-> dset a (at_version v).
Proof. intros. apply contains_valid_iff. now apply forall_valid, canon_proper. Qed.

(** ** Sorting *)

Definition below (x y : item) : Prop := cle (lo x) (lo y).

Lemma item_lt_cases x y :
  proper x -> proper y ->
  (item_lt x y = true -> below x y) /\ (item_lt x y = false -> below y x).
Proof.
  intros Px Py. unfold item_lt, below, cle. rewrite item_compare_cut by now apply proper_valid.
  rewrite (law_anti lawful_cut (lo x) (lo y)).
  destruct (ccmp (lo x) (lo y)) eqn:E; cbn; split; congruence.
Qed.

Lemma insert_perm x ys : Permutation (insert x ys) (x :: ys).
Proof.
  induction ys as [|y ys IH]; cbn; auto.
  destruct (item_lt y x); auto.
  rewrite IH. apply perm_swap.
Qed.
Lemma sort_perm xs : Permutation (sort xs) xs.
Proof.
  induction xs as [|x xs IH]; cbn; auto. rewrite insert_perm. now constructor.
Qed.

Lemma insert_sorted x ys :
  proper x -> Forall proper ys -> StronglySorted below ys -> StronglySorted below (insert x ys).
Proof.
  intros Px Fy S. induction S as [|y ys S IH L]; cbn.
  - repeat constructor.
  - inversion Fy as [|? ? Py Fy']; subst.
    destruct (item_lt_cases y x Py Px) as [H1 H2].
    destruct (item_lt y x).
    + constructor; [now apply IH|]. apply Forall_forall. intros z I.
      eapply Permutation_in in I; [|apply insert_perm]. destruct I as [<-|I]; [now apply H1|].
      rewrite Forall_forall in L. now apply L.
    + specialize (H2 eq_refl). repeat constructor; auto.
      rewrite Forall_forall in L |- *. intros z I. specialize (L z I). unfold below in *. corder.
Qed.
Lemma sort_sorted xs : Forall proper xs -> StronglySorted below (sort xs).
Proof.
  induction 1 as [|x xs P F IH]; cbn; [constructor|].
  apply insert_sorted; auto. eapply Permutation_Forall; [apply Permutation_sym, sort_perm|exact F].
Qed.

Lemma insert_first x ys :
  proper x -> chain ys -> (forall y, In y ys -> clt (lo x) (lo y)) -> insert x ys = x :: ys.
Proof.
  intros Px C H. destruct ys as [|y ys]; cbn; auto.
  assert (E : item_lt y x = false).
  { unfold item_lt. rewrite item_compare_cut by (apply proper_valid; auto; apply C).
    pose proof (H y (or_introl eq_refl)) as L. unfold clt in L.
    apply (cmp_lt_gt lawful_cut) in L. now rewrite L. }
  now rewrite E.
Qed.
Lemma sort_chain xs : chain xs -> sort xs = xs.
Proof.
  induction xs as [|x xs IH]; cbn [sort fold_right]; auto. intros C.
  change (fold_right insert [] xs) with (sort xs). rewrite IH by (eapply chain_tail, C).
  apply insert_first; [apply C|eapply chain_tail, C|].
  intros y I. destruct C as [P C]. pose proof (chain_from_lb _ _ _ C I).
  pose proof (proper_lt _ P). corder.
Qed.

(** ** Merging a chain returns it *)

Lemma merge_loop_chain u x xs : chain (x :: xs) -> merge_loop u x xs = Ok (x :: xs).
Proof.
  revert x. induction xs as [|y xs IH]; intros x C; cbn [merge_loop]; auto.
  destruct C as (Px & Py & L & C). pose proof (proper_lt _ Px). pose proof (proper_lt _ Py).
  assert (E1 : item_intersects x y = false).
  { apply (bool_iff _ _ (item_intersects_iff _ _ Px Py)). intros [O1 O2]. corder. }
  assert (E2 : is_adjacent x y = false).
  { apply (bool_iff _ _ (is_adjacent_iff _ _ Px Py)). intros [E|E]; rewrite E in *; corder. }
  rewrite E1, E2. cbn [orb]. rewrite IH by (cbn; auto). reflexivity.
Qed.

Lemma universal_alone x xs : chain (x :: xs) -> hi x = PosInf -> xs = [].
Proof.
  destruct xs as [|y xs]; auto. intros (Px & Py & L & C) E. rewrite E in L.
  pose proof (cpos_ge (lo y)). exfalso. corder.
Qed.
Lemma chain_universal xs :
  chain xs -> existsb item_is_universal xs = true -> xs = [UNIVERSAL].
Proof.
  intros C E. apply existsb_exists in E as (u & I & E).
  assert (Pu : proper u) by (pose proof (chain_proper _ C) as F; rewrite Forall_forall in F; auto).
  pose proof E as E'. apply item_universal_iff in E as [EL EH]; [|now apply proper_valid].
  destruct xs as [|x xs]; [destruct I|].
  assert (x = u).
  { destruct I as [|I]; auto. destruct C as [P C]. pose proof (chain_from_lb _ _ _ C I) as L.
    rewrite EL in L. pose proof (cneg_le (hi x)). exfalso. corder. }
  subst x. rewrite (universal_alone _ _ C EH). f_equal.
  destruct u as [v|min max imin imax]; [discriminate|].
  destruct min, max; try discriminate. destruct Pu as (H1 & H2 & _).
  now rewrite (H1 eq_refl), (H2 eq_refl).
Qed.

Lemma flat_map_extract_items xs : flat_map extract (map Item xs) = xs.
Proof. induction xs as [|x xs IH]; cbn; auto. now rewrite IH. Qed.

Lemma merge_with_chain u sets :
  chain (flat_map extract sets) -> merge_with u sets = Ok (of_items (flat_map extract sets)).
Proof.
  unfold merge_with. generalize (flat_map extract sets). intros [|x xs] C; auto.
  destruct (existsb item_is_universal (x :: xs)) eqn:E.
  { apply (chain_universal _ C) in E. now rewrite E. }
  rewrite (sort_chain _ C), (merge_loop_chain u x xs C). cbn [bind].
  destruct xs; reflexivity.
Qed.

(** ** Difference of items *)

Lemma item_difference_spec s o :
  proper s -> proper o ->
  (~ overlap s o /\ item_difference s o = Ok (Item s)) \/
  (overlap s o /\
   ((cle (lo o) (lo s) /\ cle (hi s) (hi o) /\ item_difference s o = Ok Empty) \/
    (clt (lo s) (lo o) /\ cle (hi s) (hi o) /\
       exists b, item_difference s o = Ok (Item b) /\ proper b /\ lo b = lo s /\ hi b = lo o) \/
    (cle (lo o) (lo s) /\ clt (hi o) (hi s) /\
       exists a, item_difference s o = Ok (Item a) /\ proper a /\ lo a = hi o /\ hi a = hi s) \/
    (clt (lo s) (lo o) /\ clt (hi o) (hi s) /\
       exists b a, item_difference s o = Ok (Union [b; a]) /\ proper b /\ proper a
         /\ lo b = lo s /\ hi b = lo o /\ lo a = hi o /\ hi a = hi s))).
Proof.
  intros Ps Po. pose proof (proper_lt _ Ps) as Ls. pose proof (proper_lt _ Po) as Lo.
  destruct (item_intersects s o) eqn:EI.
  2:{ left. split; [now apply (bool_iff _ _ (item_intersects_iff _ _ Ps Po))|].
      destruct s as [v|smin smax simin simax].
      - cbn [item_intersects item_difference] in *. now rewrite EI.
      - destruct o as [w|omin omax oimin oimax].
        + cbn [item_intersects item_difference] in *. now rewrite EI.
        + unfold item_difference. now rewrite EI. }
  right. pose proof (proj1 (item_intersects_iff _ _ Ps Po) EI) as OV. split; [exact OV|].
  destruct OV as [O1 O2].
  destruct s as [v|smin smax simin simax].
  { left. cbn [item_intersects item_difference] in *. rewrite EI.
    apply item_contains_iff in EI as [H1 H2]; [|now apply proper_valid].
    rewrite point_lo, point_hi, cut_step'. auto. }
  destruct o as [w|omin omax oimin oimax].
  - cbn [item_intersects item_difference] in *. rewrite EI. cbn [negb].
    apply item_contains_iff in EI as [H1 H2]; [|now apply proper_valid].
    rewrite point_lo, point_hi in *. unfold at_version in *.
    pose proof Ps as (S1 & S2 & S3).
    set (s := Range smin smax simin simax) in *.
    destruct (o_eq (Some w) smin) eqn:E1.
    + destruct smin as [m|]; [|discriminate]. apply v_eq_key in E1.
      assert (Ei : simin = true).
      { destruct simin; auto. exfalso. unfold s, lo in H1; cbn in H1. unfold i_exclude_min in H1; cbn in H1.
        rewrite E1, <- cut_step in H1. now apply clt_irrefl in H1. }
      subst simin. cbn [negb].
      assert (PR : proper (Range (Some m) smax false simax)) by (repeat split; auto; congruence).
      rewrite (range_new_proper _ _ _ _ PR). cbn [bind].
      assert (E2 : lo s = Fin (key w, false)) by (unfold s, lo; cbn; now rewrite E1).
      assert (NE : clt (Fin (key w, true)) (hi s)).
      { destruct (clt_cle_dec (Fin (key w, true)) (hi s)) as [X|X]; auto. exfalso.
        rewrite <- cut_step' in H2. pose proof (cle_antisym _ _ X H2) as E3.
        apply (proper_not_point _ _ _ _ w Ps). split; auto. }
      right. right. left. rewrite E2. split; [apply cle_refl|]. split; [exact NE|].
      eexists. repeat split; try exact PR; try apply PR. unfold lo; cbn. now rewrite E1.
    + assert (NL : clt (lo s) (Fin (key w, false))).
      { destruct (clt_cle_dec (lo s) (Fin (key w, false))) as [X|X]; auto. exfalso.
        pose proof (cle_antisym _ _ H1 X) as E3. unfold s, lo in E3; cbn in E3.
        destruct smin as [m|]; [|discriminate].
        assert (E4 : key w = key m) by congruence. cbn in E1.
        rewrite (proj2 (v_eq_key _ _) E4) in E1. discriminate. }
      destruct (o_eq (Some w) smax) eqn:E2.
      * destruct smax as [M|]; [|discriminate]. apply v_eq_key in E2.
        assert (Ei : simax = true).
        { destruct simax; auto. exfalso. unfold s, hi in H2; cbn in H2.
          rewrite E2 in H2. now apply clt_irrefl in H2. }
        subst simax. cbn [negb].
        assert (PR : proper (Range smin (Some M) simin false)) by (repeat split; auto; congruence).
        rewrite (range_new_proper _ _ _ _ PR). cbn [bind].
        right. left. split; [exact NL|]. split.
        { unfold s, hi; cbn. rewrite E2. apply cle_refl. }
        eexists. repeat split; try exact PR; try apply PR. unfold hi; cbn. now rewrite E2.
      * assert (NH : clt (Fin (key w, true)) (hi s)).
        { destruct (clt_cle_dec (Fin (key w, true)) (hi s)) as [X|X]; auto. exfalso.
          rewrite <- cut_step' in H2. pose proof (cle_antisym _ _ X H2) as E3.
          unfold s, hi in E3; cbn in E3. destruct smax as [M|]; [|discriminate].
          assert (E4 : key w = key M) by congruence. cbn in E2.
          rewrite (proj2 (v_eq_key _ _) E4) in E2. discriminate. }
        assert (PL : proper (Range smin (Some w) simin false)).
        { repeat split; auto; try congruence.
          assert (L : clt (lo (Range smin (Some w) simin false)) (hi (Range smin (Some w) simin false)))
            by exact NL.
          apply ends_ordered in L; [|solve [auto; congruence]|solve [auto; congruence]].
          destruct L as [L|(? & ? & _ & _ & _ & _ & ?)]; [apply L|congruence]. }
        assert (PR : proper (Range (Some w) smax false simax)).
        { repeat split; auto; try congruence.
          assert (L : clt (lo (Range (Some w) smax false simax)) (hi (Range (Some w) smax false simax)))
            by exact NH.
          apply ends_ordered in L; [|solve [auto; congruence]|solve [auto; congruence]].
          destruct L as [L|(? & ? & _ & _ & _ & ? & _)]; [apply L|congruence]. }
        rewrite (range_new_proper _ _ _ _ PL), (range_new_proper _ _ _ _ PR). cbn [bind].
        right. right. right. split; [exact NL|]. split; [exact NH|].
        exists (Range smin (Some w) simin false), (Range (Some w) smax false simax).
        split; [|split; [exact PL|split; [exact PR|repeat split]]].
        unfold merge. rewrite merge_with_chain; [reflexivity|].
        cbn [flat_map extract app chain chain_from].
        split; [exact PL|]. split; [exact PR|]. split; [|exact I].
        apply cut_step, cle_refl.
  - unfold item_difference. rewrite EI. cbn [negb].
    pose proof Ps as (S1 & S2 & S3). pose proof Po as (Q1 & Q2 & Q3).
    set (s := Range smin smax simin simax) in *. set (o := Range omin omax oimin oimax) in *.
    match goal with |- context [bind ?x _] => set (B := x) end.
    assert (HB : (clt (lo s) (lo o) /\ exists b, B = Ok (Some b) /\ proper b /\ lo b = lo s /\ hi b = lo o)
                 \/ (cle (lo o) (lo s) /\ B = Ok None)).
    { unfold B. destruct (is_lower s o) eqn:EL; cbn [negb].
      2:{ right. apply (bool_iff _ _ (is_lower_iff _ _ Ps Po)) in EL. split; [now apply not_clt|reflexivity]. }
      apply (is_lower_iff _ _ Ps Po) in EL. left. split; [exact EL|].
      destruct (o_eq smin omin) eqn:EO.
      - destruct smin as [m|], omin as [n|]; try discriminate.
        + apply v_eq_key in EO. exists (Point m). split; [reflexivity|]. split; [exact I|].
          revert EL. unfold s, o, lo, hi; cbn. unfold i_exclude_min; cbn. rewrite EO.
          unfold clt, ccmp, pos_cmp; cbn. rewrite (cmp_refl lawful_key).
          destruct simin, oimin; cbn; try congruence. auto.
      - destruct omin as [n|]; [|exfalso; pose proof (cneg_le (lo s)) as X; cbn in EL;
           change (lo o) with (@NegInf (vkey * bool)) in EL; corder].
        assert (PR : proper (Range smin (Some n) simin (negb oimin))).
        { repeat split; auto; try congruence.
          assert (L : clt (lo (Range smin (Some n) simin (negb oimin)))
                          (hi (Range smin (Some n) simin (negb oimin)))) by exact EL.
          apply ends_ordered in L; [|solve [auto; congruence]|solve [auto; congruence]].
          destruct L as [L|(v & w & -> & E & EK & _)]; [apply L|].
          assert (w = n) by congruence. subst w. cbn in EO.
          rewrite (proj2 (v_eq_key _ _) EK) in EO. discriminate. }
        rewrite (range_new_proper _ _ _ _ PR). cbn [bind]. eexists.
        split; [reflexivity|]. repeat split; apply PR. }
    clearbody B.
    match goal with |- context [bind B (fun before => bind ?x _)] => set (A := x) end.
    assert (HA : (clt (hi o) (hi s) /\ exists a, A = Ok (Some a) /\ proper a /\ lo a = hi o /\ hi a = hi s)
                 \/ (cle (hi s) (hi o) /\ A = Ok None)).
    { unfold A. destruct (is_higher s o) eqn:EL; cbn [negb].
      2:{ right. apply (bool_iff _ _ (is_higher_iff _ _ Ps Po)) in EL. split; [now apply not_clt|reflexivity]. }
      apply (is_higher_iff _ _ Ps Po) in EL. left. split; [exact EL|].
      destruct (o_eq smax omax) eqn:EO.
      - destruct smax as [m|], omax as [n|]; try discriminate.
        + apply v_eq_key in EO. exists (Point m). split; [reflexivity|]. split; [exact I|].
          revert EL. unfold s, o, lo, hi; cbn. rewrite EO.
          unfold clt, ccmp, pos_cmp; cbn. rewrite (cmp_refl lawful_key).
          destruct simax, oimax; cbn; try congruence. auto.
      - destruct omax as [n|]; [|exfalso; pose proof (cpos_ge (hi s)) as X; cbn in EL;
           change (hi o) with (@PosInf (vkey * bool)) in EL; corder].
        assert (HE : lo (Range (Some n) smax (negb oimax) simax) = hi o).
        { unfold o, lo, hi; cbn. unfold i_exclude_min; cbn. now rewrite negb_involutive. }
        assert (PR : proper (Range (Some n) smax (negb oimax) simax)).
        { repeat split; auto; try congruence.
          assert (L : clt (lo (Range (Some n) smax (negb oimax) simax))
                          (hi (Range (Some n) smax (negb oimax) simax))) by (rewrite HE; exact EL).
          apply ends_ordered in L; [|solve [auto; congruence]|solve [auto; congruence]].
          destruct L as [L|(v & w & E & -> & EK & _)]; [apply L|].
          assert (v = n) by congruence. subst v. cbn in EO. symmetry in EK.
          rewrite (proj2 (v_eq_key _ _) EK) in EO. discriminate. }
        rewrite (range_new_proper _ _ _ _ PR). cbn [bind]. eexists.
        split; [reflexivity|]. repeat split; try apply PR. exact HE. }
    clearbody A.
    destruct HB as [(LB & b & -> & Pb & Lb & Hb)|(LB & ->)], HA as [(LA & a & -> & Pa & La & Ha)|(LA & ->)];
      cbn [bind].
    + right. right. right. split; [exact LB|]. split; [exact LA|]. exists b, a.
      split; [|repeat split; auto].
      unfold merge. rewrite merge_with_chain; [reflexivity|].
      cbn [flat_map extract app chain chain_from].
      split; [exact Pb|]. split; [exact Pa|]. split; [|exact I]. rewrite Hb, La. exact Lo.
    + right. left. eauto 8.
    + right. right. left. eauto 8.
    + left. auto.
Qed.
