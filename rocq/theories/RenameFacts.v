(** Replacing the versions of sets by others in the same order. *)

From Coq Require Import List ZArith NArith String Bool Lia.
From Verif Require Import Py Segments Version VersionSets Specifiers Rich Spec Orders Typed TypedSpec TypedFacts GenericSets GenericFacts TypedSets MixedSpec MixedFacts.
Import ListNotations.
Local Open Scope nat_scope.
Local Opaque v_cmp.

(** ** One class *)

Theorem class_tests T a b v :
  t_set_eqb (carry_set (Typed T) a) (carry_set (Typed T) b) = set_eqb a b
  /\ g_contains t_cmp t_same (carry_set (Typed T) a) (Typed T v) = Ok (contains a v)
  /\ t_includes (carry_set (Typed T) a) (carry_set (Typed T) b) = Ok (includes a b)
  /\ t_intersects (carry_set (Typed T) a) (carry_set (Typed T) b) = Ok (intersects a b).
Proof.
  assert (C := t_cmp_same T). assert (E := t_same_same T).
  split; [exact (c_set_eqb _ _ E a b)|]. split; [exact (c_contains _ _ _ C E a v)|]. split; [exact (c_includes _ _ _ C E a b)|exact (c_intersects _ _ _ C E a b)].
Qed.

Theorem class_made T min max imin imax items :
  g_range_new t_cmp (option_map (Typed T) min) (option_map (Typed T) max) imin imax = rmap (carry_item (Typed T)) (range_new min max imin imax)
  /\ g_union_new (map (carry_item (Typed T)) items) = rmap (carry_set (Typed T)) (union_new items).
Proof.
  split; [exact (c_range_new _ _ (t_cmp_same T) min max imin imax)|]. now destruct items as [|i [|j items]].
Qed.

Theorem class_operations T a b :
  t_union (carry_set (Typed T) a) (carry_set (Typed T) b) = rmap (carry_set (Typed T)) (union a b)
  /\ t_intersection (carry_set (Typed T) a) (carry_set (Typed T) b) = rmap (carry_set (Typed T)) (intersection a b)
  /\ t_difference (carry_set (Typed T) a) (carry_set (Typed T) b) = rmap (carry_set (Typed T)) (difference a b)
  /\ t_symmetric_difference (carry_set (Typed T) a) (carry_set (Typed T) b) = rmap (carry_set (Typed T)) (symmetric_difference a b)
  /\ t_complement (carry_set (Typed T) a) = rmap (carry_set (Typed T)) (complement a).
Proof.
  assert (C := t_cmp_same T). assert (E := t_same_same T).
  split; [exact (c_union _ _ _ C E a b)|]. split; [exact (c_intersection _ _ _ C E a b)|]. split; [exact (c_difference _ _ _ C E a b)|].
  split; [exact (c_symmetric_difference _ _ _ C E a b)|exact (c_complement _ _ _ C E a)].
Qed.

(** The sets of [Typed.v]. *)
Theorem gen_retyped T a : gen_set (retype_set T a) = carry_set (Typed T) a.
Proof. destruct a as [|[v|? ? ? ?]|is]; try reflexivity. cbn. rewrite map_map. f_equal. apply map_ext. now intros []. Qed.

Lemma t_bound_cmp o x y : (o = OpLt \/ o = OpGt) -> t_bound o x y = rmap (native o) (g_cmp t_cmp x y).
Proof. unfold t_bound, g_cmp, t_cmp, t_rich. intros [-> | ->]; destruct x, y; try reflexivity; now destruct (Nat.eqb _ _). Qed.
Lemma t_bound_eq x y : t_bound OpEq x y = Ok (g_eq t_same x y).
Proof.
  unfold t_bound, g_eq, t_same, t_rich. destruct x, y; try reflexivity. destruct (Nat.eqb _ _); [|reflexivity].
  cbn. unfold v_eq. reflexivity.
Qed.

Lemma gen_item_contains i x : t_item_contains i x = g_item_contains t_cmp t_same (gen_item i) x.
Proof.
  destruct i as [y|min max imin imax]; cbn [gen_item g_item_contains t_item_contains].
  - exact (t_bound_eq (Fin y) (Fin x)).
  - rewrite !t_bound_eq, !t_bound_cmp by auto. change (t_lower min) with (g_lower min). change (t_upper max) with (g_upper max).
    destruct (g_cmp t_cmp (Fin x) (g_lower min)) as [c|e]; [|reflexivity]. cbn [rmap bind]. change (native OpLt c) with (is_lt c). destruct (is_lt c); [reflexivity|].
    assert (X : forall k : bool, (if k then Ok false else Ok (g_eq t_same (Fin x) (g_lower min))) = Ok (negb k && g_eq t_same (Fin x) (g_lower min))) by now intros [].
    rewrite X. cbn [bind]. destruct (negb imin && _); [reflexivity|].
    destruct (g_cmp t_cmp (Fin x) (g_upper max)) as [d|e]; [|reflexivity]. cbn [rmap bind]. change (native OpGt d) with (is_gt d). destruct (is_gt d); [reflexivity|].
    assert (Y : forall k : bool, (if k then Ok false else Ok (g_eq t_same (Fin x) (g_upper max))) = Ok (negb k && g_eq t_same (Fin x) (g_upper max))) by now intros [].
    rewrite Y. cbn [bind]. destruct (negb imax && _); reflexivity.
Qed.

Theorem gen_contains a x : t_contains a x = g_contains t_cmp t_same (gen_set a) x.
Proof.
  destruct a as [|i|is]; [reflexivity|apply gen_item_contains|]. cbn. induction is as [|i is IH]; [reflexivity|]. cbn [map any_r]. rewrite gen_item_contains.
  destruct (g_item_contains _ _ _ _) as [[|]|]; auto.
Qed.

Theorem gen_range min max imin imax : rmap gen_item (t_range_new min max imin imax) = g_range_new t_cmp min max imin imax.
Proof.
  unfold t_range_new, g_range_new. rewrite t_bound_cmp by auto. change (t_lower min) with (g_lower min). change (t_upper max) with (g_upper max).
  destruct (match min with None => imin | _ => false end); [reflexivity|]. destruct (match max with None => imax | _ => false end); [reflexivity|].
  destruct (g_cmp _ _ _) as [c|e]; [|reflexivity]. cbn [rmap bind]. change (native OpGt c) with (is_gt c). now destruct (is_gt c).
Qed.

(** ** Versions in the same order *)

Section Renamed.
  Context (f : version -> version) (O : in_order f).
  Let cmp (v w : version) : result comparison := Ok (v_cmp v w).
  Let self (v : version) : version := v.

  Lemma o_cmp v w : cmp (f v) (f w) = Ok (v_cmp v w).
  Proof. unfold cmp. now rewrite O. Qed.
  Lemma o_eq_ v w : v_eq (f v) (f w) = v_eq v w.
  Proof. unfold v_eq. now rewrite O. Qed.
  Lemma s_cmp v w : cmp (self v) (self w) = Ok (v_cmp v w).
  Proof. reflexivity. Qed.
  Lemma s_eq v w : v_eq (self v) (self w) = v_eq v w.
  Proof. reflexivity. Qed.

  Lemma self_item i : carry_item self (rename_item f i) = carry_item f i.
  Proof. destruct i as [v|[m|] [M|] x y]; reflexivity. Qed.
  Lemma self_set a : carry_set self (renamed f a) = carry_set f a.
  Proof. destruct a as [|i|is]; cbn; [reflexivity|now rewrite self_item|]. rewrite map_map. f_equal. apply map_ext, self_item. Qed.

  Definition back_item (i : gitem version) : item := match i with GPoint v => Point v | GRange m M x y => Range m M x y end.
  Definition back (a : gset version) : vset := match a with GEmpty => Empty | GItem i => Item (back_item i) | GUnion is => Union (map back_item is) end.
  Lemma back_item_self i : back_item (carry_item self i) = i.
  Proof. destruct i as [v|[m|] [M|] x y]; reflexivity. Qed.
  Lemma back_self a : back (carry_set self a) = a.
  Proof. destruct a as [|i|is]; cbn; [reflexivity|now rewrite back_item_self|]. rewrite map_map. f_equal. rewrite <- (map_id is) at 2. apply map_ext, back_item_self. Qed.

  Lemma rename_result (r r' : result vset) : rmap (carry_set self) r = rmap (carry_set f) r' -> r = rmap (renamed f) r'.
  Proof.
    destruct r as [a|e], r' as [b|e']; cbn; intros H; try discriminate; [|congruence]. injection H as H. rewrite <- self_set in H.
    apply (f_equal back) in H. rewrite !back_self in H. now rewrite H.
  Qed.

  Theorem renamed_tests a b v : set_eqb (renamed f a) (renamed f b) = set_eqb a b /\ contains (renamed f a) (f v) = contains a v
    /\ includes (renamed f a) (renamed f b) = includes a b /\ intersects (renamed f a) (renamed f b) = intersects a b.
  Proof.
    split; [|split; [|split]].
    - rewrite <- (c_set_eqb self v_eq s_eq), !self_set. apply (c_set_eqb f v_eq o_eq_).
    - assert (X := c_contains self cmp v_eq s_cmp s_eq (renamed f a) (f v)). rewrite self_set in X.
      change (self (f v)) with (f v) in X. rewrite (c_contains f cmp v_eq o_cmp o_eq_) in X. congruence.
    - assert (X := c_includes self cmp v_eq s_cmp s_eq (renamed f a) (renamed f b)). rewrite !self_set, (c_includes f cmp v_eq o_cmp o_eq_) in X. congruence.
    - assert (X := c_intersects self cmp v_eq s_cmp s_eq (renamed f a) (renamed f b)). rewrite !self_set, (c_intersects f cmp v_eq o_cmp o_eq_) in X. congruence.
  Qed.

  Theorem renamed_operations a b : union (renamed f a) (renamed f b) = rmap (renamed f) (union a b)
    /\ intersection (renamed f a) (renamed f b) = rmap (renamed f) (intersection a b)
    /\ difference (renamed f a) (renamed f b) = rmap (renamed f) (difference a b)
    /\ symmetric_difference (renamed f a) (renamed f b) = rmap (renamed f) (symmetric_difference a b)
    /\ complement (renamed f a) = rmap (renamed f) (complement a).
  Proof.
    split; [|split; [|split; [|split]]]; apply rename_result.
    - now rewrite <- (c_union self cmp v_eq s_cmp s_eq), !self_set, (c_union f cmp v_eq o_cmp o_eq_).
    - now rewrite <- (c_intersection self cmp v_eq s_cmp s_eq), !self_set, (c_intersection f cmp v_eq o_cmp o_eq_).
    - now rewrite <- (c_difference self cmp v_eq s_cmp s_eq), !self_set, (c_difference f cmp v_eq o_cmp o_eq_).
    - now rewrite <- (c_symmetric_difference self cmp v_eq s_cmp s_eq), !self_set, (c_symmetric_difference f cmp v_eq o_cmp o_eq_).
    - now rewrite <- (c_complement self cmp v_eq s_cmp s_eq), self_set, (c_complement f cmp v_eq o_cmp o_eq_).
  Qed.

  Theorem renamed_canonical a : canonical (renamed f a) <-> canonical a.
  Proof.
    assert (L : forall v w, v_lt (f v) (f w) = v_lt v w) by (intros v w; unfold v_lt; now rewrite O).
    assert (G : forall i, good_item (rename_item f i) <-> good_item i).
    { intros [v|[m|] [M|] x y]; cbn; rewrite ?L; try tauto; intuition discriminate. }
    assert (S1 : forall i j, separated (rename_item f i) (rename_item f j) <-> separated i j).
    { intros [v|[m|] [M|] x y] [w|[m'|] [M'|] x' y']; unfold separated; cbn; rewrite ?L, ?o_eq_; tauto. }
    assert (GS : forall is, good_items (map (rename_item f) is) <-> good_items is).
    { induction is as [|i is IH]; [tauto|]. destruct is as [|j is]; [apply G|]. cbn [map] in *. change (good_item (rename_item f i) /\ separated (rename_item f i) (rename_item f j) /\ good_items (rename_item f j :: map (rename_item f) is) <-> good_item i /\ separated i j /\ good_items (j :: is)).
      now rewrite G, S1, IH. }
    destruct a as [|i|is]; [tauto|apply G|]. cbn [canonical renamed]. now rewrite GS, map_length.
  Qed.
End Renamed.

(** Moving every epoch by the same amount keeps the order, and so does
    replacing versions by equal ones. *)
Lemma moved_in_order k : in_order (moved k).
Proof.
  Transparent v_cmp. intros v w. unfold v_cmp.
  assert (X : forall u, key (moved k u) = VKey (v_epoch u + k) (k_release (key u)) (k_pre (key u)) (k_post (key u)) (k_dev (key u)) (k_local (key u))).
  { intros u. unfold key, moved. cbn [v_epoch v_release v_pre v_post v_dev v_local]. destruct (compute_compare_tags _ _ _) as [[p q] d]. reflexivity. }
  assert (Y : forall u, k_epoch (key u) = v_epoch u).
  { intros u. unfold key. destruct (compute_compare_tags _ _ _) as [[p q] d]. reflexivity. }
  rewrite !X. unfold key_cmp. cbn [k_epoch k_release k_pre k_post k_dev k_local]. rewrite !Y, (Z.add_comm (v_epoch v)), (Z.add_comm (v_epoch w)), Z.add_compare_mono_l.
  reflexivity.
Qed.

Lemma equal_in_order f : (forall v, v_eq (f v) v = true) -> in_order f.
Proof.
  intros H v w. unfold v_cmp. assert (X := H v). assert (Y := H w). apply v_eq_key in X, Y. now rewrite X, Y.
Qed.
