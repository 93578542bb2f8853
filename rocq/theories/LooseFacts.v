(** Lemmas for C107: the set operations on any two points or ranges that the
    constructor accepts, also empty ranges and ranges of one version. *)

From Coq Require Import List ZArith NArith Bool Lia.
From Verif Require Import Py Segments Version VersionSets Orders Spec OrderFacts Cuts SetItems SetChains SetMerge SetVersions SetTheorems SetAlgebra Density LooseSpec.
Import ListNotations.
Open Scope Z_scope.
Local Opaque key.

(** ** The comparisons, for valid items *)

Lemma lower_iff s o : valid_item s -> valid_item o -> is_lower s o = true <-> clt (lo s) (lo o).
Proof. intros. rewrite is_lower_cut by assumption. apply is_lt_clt. Qed.
Lemma higher_iff s o : valid_item s -> valid_item o -> is_higher s o = true <-> clt (hi o) (hi s).
Proof. intros. rewrite is_higher_cut by assumption. apply is_gt_clt. Qed.
Lemma strictly_lower_iff s o : valid_item s -> valid_item o -> is_strictly_lower s o = true <-> cle (hi s) (lo o).
Proof.
  intros. rewrite is_strictly_lower_cut by assumption.
  rewrite negb_true_iff, (bool_iff _ _ (is_gt_clt _ _)). apply not_clt.
Qed.
Lemma strictly_higher_iff s o : valid_item s -> valid_item o -> is_strictly_higher s o = true <-> cle (hi o) (lo s).
Proof.
  intros. rewrite is_strictly_higher_cut by assumption.
  rewrite negb_true_iff, (bool_iff _ _ (is_lt_clt _ _)). apply not_clt.
Qed.
Lemma adjacent_iff s o : valid_item s -> valid_item o -> is_adjacent s o = true <-> hi s = lo o \/ lo s = hi o.
Proof.
  intros. unfold is_adjacent. rewrite is_left_adjacent_cut, is_right_adjacent_cut by assumption.
  rewrite orb_true_iff, !is_eq_ceq. reflexivity.
Qed.
Lemma ranges_intersect_iff s o : is_range s -> is_range o -> valid_item s -> valid_item o ->
  item_intersects s o = true <-> overlap s o.
Proof.
  intros Rs Ro Vs Vo. destruct s as [|smin smax simin simax]; [destruct Rs |]. destruct o as [|omin omax oimin oimax]; [destruct Ro |].
  cbn [item_intersects]. unfold intersects_range, overlap. rewrite andb_true_iff, !negb_true_iff.
  rewrite (bool_iff _ _ (strictly_lower_iff _ _ Vo Vs)), (bool_iff _ _ (strictly_higher_iff _ _ Vo Vs)), !not_cle. tauto.
Qed.

Lemma member_iff i v : valid_item i -> in_item i v <-> cle (lo i) (at_version v) /\ clt (at_version v) (hi i).
Proof. intros V. rewrite <- in_item_contains. now apply item_contains_iff. Qed.

(** Ends rounded outwards. *)
Definition flr (c : cut) : cut := match c with Fin (k, _) => Fin (k, false) | c => c end.
Definition cei (c : cut) : cut := match c with Fin (k, _) => Fin (k, true) | c => c end.

Lemma flr_mono x y : cle x y -> cle (flr x) (flr y).
Proof.
  unfold cle. destruct x as [|[k b]|], y as [|[k' b']|]; cbn; try congruence. unfold pos_cmp; cbn.
  destruct (key_cmp k k'); cbn; congruence.
Qed.
Lemma cei_mono x y : cle x y -> cle (cei x) (cei y).
Proof.
  unfold cle. destruct x as [|[k b]|], y as [|[k' b']|]; cbn; try congruence. unfold pos_cmp; cbn.
  destruct (key_cmp k k'); cbn; congruence.
Qed.
Lemma flr_le x : cle (flr x) x.
Proof. unfold cle. destruct x as [|[k b]|]; cbn; try congruence. unfold pos_cmp; cbn. rewrite (cmp_refl lawful_key). destruct b; cbn; congruence. Qed.
Lemma cei_ge x : cle x (cei x).
Proof. unfold cle. destruct x as [|[k b]|]; cbn; try congruence. unfold pos_cmp; cbn. rewrite (cmp_refl lawful_key). destruct b; cbn; congruence. Qed.

Lemma valid_ends min max imin imax :
  valid_item (Range min max imin imax)
  <-> (min = None -> imin = false) /\ (max = None -> imax = false)
      /\ clt (flr (lo_of min imin)) (cei (hi_of max imax)).
Proof.
  cbn [valid_item]. unfold b_cmp, clt, ccmp. destruct min as [m|], max as [M|]; cbn; try (intuition congruence).
  unfold pos_cmp; cbn. rewrite v_cmp_key. destruct (key_cmp (key m) (key M)); cbn; intuition congruence.
Qed.

Lemma range_new_ok min max imin imax : valid_item (Range min max imin imax) -> range_new min max imin imax = Ok (Range min max imin imax).
Proof.
  intros (A & B & C). unfold range_new. destruct min, max; rewrite ?(A eq_refl), ?(B eq_refl); destruct (b_cmp _ _); cbn in *; congruence.
Qed.
Lemma valid_made i : valid_item i -> made i.
Proof. destruct i as [v|? ? ? ?]; [intros _; exact I |]. intros V. now apply range_new_ok. Qed.

Lemma range_valid_ends s : is_range s -> valid_item s -> clt (flr (lo s)) (cei (hi s)).
Proof. destruct s as [|a b c d]; [intros [] |]. intros _ V. now apply valid_ends in V. Qed.

(** ** Intersection *)

Lemma point_range m M imin imax : valid_item (Range m M imin imax) -> item_is_point (Range m M imin imax) = true ->
  exists v, item_version (Range m M imin imax) = Ok v /\ lo (Point v) = lo (Range m M imin imax) /\ hi (Point v) = hi (Range m M imin imax).
Proof.
  intros V P. unfold item_version. rewrite P. cbn [item_is_point] in P. apply andb_true_iff in P as [E C].
  unfold is_closed, is_left_closed, is_right_closed in C. cbn in C. apply andb_true_iff in C as [-> ->].
  unfold is_empty_or_point, comparable_min, comparable_max in E. cbn in E. destruct m as [m|]; [| destruct V as [V _]; now specialize (V eq_refl)].
  destruct M as [M|]; [| destruct V as (_ & V & _); now specialize (V eq_refl)].
  exists m. split; [reflexivity |]. split; [reflexivity |]. unfold hi. cbn. unfold b_cmp in E. cbn in E. rewrite v_cmp_key in E.
  destruct (key_cmp (key m) (key M)) eqn:K; try discriminate. apply (Orders.cmp_eq lawful_key) in K. now rewrite K.
Qed.

Theorem loose_intersection s o : made s -> made o ->
  exists r, intersection (Item s) (Item o) = Ok r /\ (forall i, r = Item i -> made i) /\ (forall l, r <> Union l)
    /\ forall v, contains r v = true <-> in_item s v /\ in_item o v.
Proof.
  intros Ms Mo. pose proof (made_valid s Ms) as Vs. pose proof (made_valid o Mo) as Vo.
  assert (P : forall v x, v_eq v x = true -> forall i, made i -> item_contains i v = item_contains i x).
  { intros v x E i Mi. apply v_eq_key in E. rewrite !item_contains_cut by now apply made_valid. unfold at_version. now rewrite E. }
  destruct s as [v|smin smax simin simax].
  { cbn [intersection contains]. eexists. split; [reflexivity |]. destruct (item_contains o v) eqn:C.
    - split; [intros i [= <-]; exact I |]. split; [discriminate |]. intros x. cbn [contains item_contains]. rewrite <- (in_item_contains o). cbn [in_item]. split.
      + intros E. split; [exact E |]. now rewrite <- (P v x E o Mo).
      + tauto.
    - split; [discriminate |]. split; [discriminate |]. intros x. cbn [contains]. split; [discriminate |]. intros [E F]. cbn in E. rewrite <- in_item_contains, <- (P v x E o Mo) in F. congruence. }
  destruct o as [w|omin omax oimin oimax].
  { cbn [intersection item_intersection]. eexists. split; [reflexivity |]. destruct (item_contains (Range smin smax simin simax) w) eqn:C.
    - split; [intros i [= <-]; exact I |]. split; [discriminate |]. intros x. cbn [contains]. rewrite <- (in_item_contains (Range smin smax simin simax)). cbn [in_item item_contains]. split.
      + intros E. split; [| exact E]. change (item_contains (Range smin smax simin simax) x = true). now rewrite <- (P w x E _ Ms).
      + tauto.
    - split; [discriminate |]. split; [discriminate |]. intros x. cbn [contains]. split; [discriminate |]. intros [F E]. cbn in E. rewrite <- in_item_contains, <- (P w x E _ Ms) in F. congruence. }
  cbn [intersection]. unfold item_intersection.
  set (s := Range smin smax simin simax) in *. set (o := Range omin omax oimin oimax) in *.
  pose proof (lower_iff s o Vs Vo) as Il. pose proof (higher_iff s o Vs Vo) as Ih.
  pose proof (strictly_lower_iff s o Vs Vo) as Isl. pose proof (strictly_higher_iff s o Vs Vo) as Ish.
  destruct (is_lower s o && is_strictly_lower s o) eqn:E1.
  { apply andb_true_iff in E1 as [A B]. apply Il in A. apply Isl in B. eexists. split; [reflexivity |]. split; [discriminate |]. split; [discriminate |].
    intros v. rewrite !member_iff by assumption. split; [discriminate | intros; exfalso; corder]. }
  destruct (negb (is_lower s o) && is_strictly_higher s o) eqn:E2.
  { apply andb_true_iff in E2 as [A B]. apply Ish in B. eexists. split; [reflexivity |]. split; [discriminate |]. split; [discriminate |].
    intros v. rewrite !member_iff by assumption. split; [discriminate | intros; exfalso; corder]. }
  pose proof (range_valid_ends s I Vs) as Ls. pose proof (range_valid_ends o I Vo) as Lo.
  pose proof Vs as (S1 & S2 & _). pose proof Vo as (O1 & O2 & _).
  set (A := if is_lower s o then (omin, oimin) else (smin, simin)).
  set (B := if is_higher s o then (omax, oimax) else (smax, simax)).
  assert (HA : (fst A = None -> snd A = false) /\ lo_of (fst A) (snd A) = cmax (lo s) (lo o)).
  { unfold A. destruct (is_lower s o) eqn:EL; cbn [fst snd].
    - apply (lower_iff s o Vs Vo) in EL. split; [exact O1 |]. transitivity (lo o); [reflexivity |]. cminmax; corder.
    - apply (bool_iff _ _ (lower_iff s o Vs Vo)) in EL. split; [exact S1 |]. transitivity (lo s); [reflexivity |]. cminmax; corder. }
  assert (HB : (fst B = None -> snd B = false) /\ hi_of (fst B) (snd B) = cmin (hi s) (hi o)).
  { unfold B. destruct (is_higher s o) eqn:EL; cbn [fst snd].
    - apply (higher_iff s o Vs Vo) in EL. split; [exact O2 |]. transitivity (hi o); [reflexivity |]. cminmax; corder.
    - apply (bool_iff _ _ (higher_iff s o Vs Vo)) in EL. split; [exact S2 |]. transitivity (hi s); [reflexivity |]. cminmax; corder. }
  destruct A as [a ia], B as [b ib]. cbn [fst snd] in *. destruct HA as [A1 A2], HB as [B1 B2].
  assert (V : valid_item (Range a b ia ib)).
  { apply valid_ends. split; [exact A1 |]. split; [exact B1 |]. rewrite A2, B2. rewrite andb_false_iff in E1, E2. rewrite negb_false_iff in E2.
    pose proof (flr_le (lo s)). pose proof (flr_le (lo o)). pose proof (cei_ge (hi s)). pose proof (cei_ge (hi o)).
    rewrite (bool_iff _ _ Il), (bool_iff _ _ Isl) in E1. rewrite Il, (bool_iff _ _ Ish) in E2. rewrite !not_cle in *. rewrite not_clt in E1.
    cminmax; try assumption; destruct E1 as [E1|E1], E2 as [E2|E2]; try corder.
    assert (E : lo s = lo o) by corder. rewrite E in *. corder. }
  rewrite (range_new_ok _ _ _ _ V). cbn [bind].
  assert (D : forall v, item_contains (Range a b ia ib) v = true <-> in_item s v /\ in_item o v).
  { intros v. rewrite item_contains_iff, !member_iff by assumption. rewrite range_lo, range_hi, A2, B2. cminmax; split; intros; cnorm; repeat split; corder. }
  destruct (item_is_point (Range a b ia ib)) eqn:EP.
  - destruct (point_range _ _ _ _ V EP) as (v & -> & L & H). cbn [bind]. exists (Item (Point v)). split; [reflexivity |]. split; [intros i [= <-]; exact I |]. split; [discriminate |].
    intros x. rewrite <- D. cbn [contains]. rewrite !item_contains_iff by (assumption || exact I). now rewrite L, H.
  - exists (Item (Range a b ia ib)). split; [reflexivity |]. split; [intros i [= <-]; now apply valid_made |]. split; [discriminate |]. exact D.
Qed.

(** ** Union *)

Lemma intersects_sym s o : valid_item s -> valid_item o -> item_intersects s o = item_intersects o s.
Proof.
  intros Vs Vo. destruct s as [v|a b c d], o as [w|a' b' c' d'].
  - cbn. apply eq_true_iff_eq. rewrite !v_eq_key. split; congruence.
  - reflexivity.
  - reflexivity.
  - apply eq_true_iff_eq. rewrite !ranges_intersect_iff by (exact I || assumption). unfold overlap. tauto.
Qed.
Lemma adjacent_sym s o : valid_item s -> valid_item o -> is_adjacent s o = is_adjacent o s.
Proof. intros Vs Vo. apply eq_true_iff_eq. rewrite !adjacent_iff by assumption. split; intros [->| ->]; auto. Qed.

Lemma universal_meets s o : valid_item s -> valid_item o -> item_is_universal s = true -> item_intersects s o = true.
Proof.
  intros Vs Vo U. destruct s as [v|a b c d]; [discriminate |]. apply item_universal_iff in U as [L H]; [| exact Vs].
  destruct o as [w|a' b' c' d'].
  - cbn [item_intersects]. apply item_contains_iff; [exact Vs |]. rewrite L, H. split; [apply cneg_le | apply cpos_gt].
  - apply ranges_intersect_iff; try exact I; try assumption. unfold overlap. rewrite L, H. pose proof (range_valid_ends (Range a' b' c' d') I Vo) as E.
    destruct (lo (Range a' b' c' d')) as [|p|] eqn:X, (hi (Range a' b' c' d')) as [|q|] eqn:Y; split; try reflexivity; exfalso; revert X Y E; unfold lo, hi; destruct a', b'; cbn; congruence.
Qed.

(** Items that do not touch are kept side by side. *)
Lemma merge_apart u s o : valid_item s -> valid_item o -> item_intersects s o = false -> is_adjacent s o = false ->
  merge_with u [Item s; Item o] = Ok (Union [s; o]) \/ merge_with u [Item s; Item o] = Ok (Union [o; s]).
Proof.
  intros Vs Vo NI NA. unfold merge_with. cbn [flat_map extract app existsb].
  destruct (item_is_universal s) eqn:U; [rewrite (universal_meets s o) in NI by assumption; discriminate |].
  destruct (item_is_universal o) eqn:U'; [rewrite intersects_sym, (universal_meets o s) in NI by assumption; discriminate |]. cbn [orb].
  cbn [sort fold_right insert]. destruct (item_lt o s).
  - cbn [merge_loop]. rewrite <- intersects_sym, NI, <- adjacent_sym, NA by assumption. right. reflexivity.
  - cbn [merge_loop]. rewrite NI, NA. left. reflexivity.
Qed.

Lemma apart_members u s o r : valid_item s -> valid_item o -> item_intersects s o = false -> is_adjacent s o = false ->
  merge_with u [Item s; Item o] = r -> exists a, r = Ok a /\ forall v, contains a v = true <-> in_item s v \/ in_item o v.
Proof.
  intros Vs Vo NI NA E. destruct (merge_apart u s o Vs Vo NI NA) as [K|K]; rewrite K in E; subst r; eexists; (split; [reflexivity |]); intros v;
    cbn [contains existsb]; rewrite !orb_true_iff, !in_item_contains; intuition discriminate.
Qed.

Lemma ranges_union f s o : is_range s -> is_range o -> valid_item s -> valid_item o ->
  exists a, item_union (S f) s o = Ok a /\ forall v, contains a v = true <-> in_item s v \/ in_item o v.
Proof.
  intros Rs Ro Vs Vo. destruct s as [|smin smax simin simax]; [destruct Rs |]. destruct o as [|omin omax oimin oimax]; [destruct Ro |].
  cbn [item_union]. set (s := Range smin smax simin simax) in *. set (o := Range omin omax oimin oimax) in *.
  destruct (is_adjacent s o) eqn:EA, (item_intersects s o) eqn:EI; cbn [negb andb]; try (eapply apart_members; eauto; fail).
  all: assert (T : overlap s o \/ hi s = lo o \/ lo s = hi o) by
    (first [left; now apply ranges_intersect_iff | right; now apply adjacent_iff]); clear EA EI.
  all: pose proof (range_valid_ends s I Vs) as Ls; pose proof (range_valid_ends o I Vo) as Lo;
    pose proof Vs as (S1 & S2 & _); pose proof Vo as (O1 & O2 & _).
  all: set (A := if is_lower s o then (smin, simin) else (omin, oimin)); set (B := if is_higher s o then (smax, simax) else (omax, oimax)).
  all: assert (HA : (fst A = None -> snd A = false) /\ lo_of (fst A) (snd A) = cmin (lo s) (lo o)) by
    (unfold A; destruct (is_lower s o) eqn:EL; cbn [fst snd];
    [ apply (lower_iff s o Vs Vo) in EL; split; [exact S1 |]; transitivity (lo s); [reflexivity |]; cminmax; corder
    | apply (bool_iff _ _ (lower_iff s o Vs Vo)) in EL; split; [exact O1 |]; transitivity (lo o); [reflexivity |]; cminmax; corder]).
  all: assert (HB : (fst B = None -> snd B = false) /\ hi_of (fst B) (snd B) = cmax (hi s) (hi o)) by
    (unfold B; destruct (is_higher s o) eqn:EL; cbn [fst snd];
    [ apply (higher_iff s o Vs Vo) in EL; split; [exact S2 |]; transitivity (hi s); [reflexivity |]; cminmax; corder
    | apply (bool_iff _ _ (higher_iff s o Vs Vo)) in EL; split; [exact O2 |]; transitivity (hi o); [reflexivity |]; cminmax; corder]).
  all: destruct A as [a ia], B as [b ib]; cbn [fst snd] in *; destruct HA as [A1 A2], HB as [B1 B2].
  all: assert (V : valid_item (Range a b ia ib)) by
    (apply valid_ends; split; [exact A1 |]; split; [exact B1 |]; rewrite A2, B2;
     cminmax; try assumption;
     repeat match goal with
     | H : clt (lo _) (lo _) |- _ => apply clt_le, flr_mono in H
     | H : cle (lo _) (lo _) |- _ => apply flr_mono in H
     | H : clt (hi _) (hi _) |- _ => apply clt_le, cei_mono in H
     | H : cle (hi _) (hi _) |- _ => apply cei_mono in H
     end; clear T; corder).
  all: rewrite (range_new_ok _ _ _ _ V); cbn [bind]; eexists; (split; [reflexivity |]).
  all: intros v; cbn [contains]; rewrite item_contains_iff, !member_iff by assumption; rewrite range_lo, range_hi, A2, B2.
  all: split; [intros [X Y] | intros [[X Y]|[X Y]]; cminmax; split; corder].
  all: destruct (clt_cle_dec (at_version v) (hi s)) as [P|P], (clt_cle_dec (at_version v) (lo s)) as [P'|P'];
    destruct (clt_cle_dec (at_version v) (hi o)) as [Q|Q], (clt_cle_dec (at_version v) (lo o)) as [Q'|Q']; try (left; tauto); try (right; tauto); exfalso; unfold overlap in T; destruct T as [[T1 T2]|[T|T]]; cminmax; corder.
Qed.

Lemma member_eq i v w : valid_item i -> v_eq v w = true -> in_item i v <-> in_item i w.
Proof. intros V E. apply v_eq_key in E. rewrite !member_iff by exact V. unfold at_version. now rewrite E. Qed.

Lemma at_between k v : cle (Fin (k, false)) (at_version v) <-> key v = k \/ cle (Fin (k, true)) (at_version v).
Proof.
  unfold at_version, cle, ccmp. cbn. unfold pos_cmp. cbn. destruct (key_cmp k (key v)) eqn:E; cbn; split; try congruence; auto.
  - apply (Orders.cmp_eq lawful_key) in E. auto.
  - intros [K|K]; [| congruence]. exfalso. rewrite K, (cmp_refl lawful_key) in E. discriminate.
Qed.
Lemma at_below k v : clt (at_version v) (Fin (k, true)) <-> key v = k \/ clt (at_version v) (Fin (k, false)).
Proof.
  unfold at_version, clt, ccmp. cbn. unfold pos_cmp. cbn. destruct (key_cmp (key v) k) eqn:E; cbn; split; try congruence; auto.
  - apply (Orders.cmp_eq lawful_key) in E. auto.
  - intros [K|K]; [| congruence]. exfalso. rewrite K, (cmp_refl lawful_key) in E. discriminate.
Qed.

Lemma no_members m M b : v_eq m M = true -> forall v, item_contains (Range (Some m) (Some M) b false) v = false.
Proof.
  intros E v. destruct (item_contains _ v) eqn:C; [| reflexivity]. exfalso. apply in_item_contains in C. destruct C as [C D]. cbn in C, D.
  destruct total_order as (_ & Le & _ & _ & _ & Ir & Tr & _ & _ & _ & Co). destruct (Co m M v E) as [_ X]. rewrite <- X in D.
  destruct b.
  - rewrite Le in C. apply orb_true_iff in C as [C|C].
    + pose proof (Tr _ _ _ C D) as Y. rewrite Ir in Y. discriminate.
    + destruct (Co m v m C) as [Y _]. rewrite <- Y, Ir in D. discriminate.
  - pose proof (Tr _ _ _ C D) as Y. rewrite Ir in Y. discriminate.
Qed.

Lemma range_point_union f s w : is_range s -> valid_item s ->
  (union_lost s (Point w) -> exists a, item_union (S f) s (Point w) = Ok (Item a) /\ forall v, item_contains a v = false)
  /\ (~ union_lost s (Point w) -> exists a, item_union (S f) s (Point w) = Ok a /\ (item_contains s w = true \/ is_adjacent s (Point w) = true -> exists i, a = Item i)
        /\ forall v, contains a v = true <-> in_item s v \/ v_eq w v = true).
Proof.
  intros R V. destruct s as [|smin smax simin simax]; [destruct R |]. cbn [item_union]. set (s := Range smin smax simin simax) in *.
  pose proof V as (S1 & S2 & _).
  destruct (item_contains s w) eqn:C.
  { split.
    - intros L. exfalso. unfold s in *. destruct smin as [m|], smax as [M|], simax; cbn in L; try contradiction. destruct L as [L1 L2].
      rewrite (no_members m M simin) in C; [discriminate |]. apply v_eq_key in L1, L2. apply v_eq_key. congruence.
    - intros _. eexists. split; [reflexivity |]. split; [eauto |]. intros v. cbn [contains]. rewrite in_item_contains. split; [auto |].
      intros [H|H]; [exact H |]. apply in_item_contains in C. now apply (member_eq s w v V H). }
  pose proof C as C'. apply (bool_iff _ _ (item_contains_iff s w V)) in C'.
  destruct (o_eq (Some w) smin) eqn:E1.
  { destruct smin as [m|]; [|discriminate]. cbn [o_eq] in E1. pose proof E1 as K. apply v_eq_key in K.
    assert (V' : valid_item (Range (Some m) smax true simax)) by (destruct V as (_ & _ & V3); split; [discriminate |]; split; assumption).
    rewrite (range_new_ok _ _ _ _ V'). cbn [bind]. split.
    - intros L. eexists. split; [reflexivity |]. unfold s in L. destruct smax as [M|], simax; cbn in L; try contradiction. destruct L as [L1 L2].
      apply no_members. apply v_eq_key in L1, L2. apply v_eq_key. congruence.
    - intros N. eexists. split; [reflexivity |]. split; [eauto |]. intros v. cbn [contains]. rewrite item_contains_iff, member_iff, v_eq_key by assumption.
      rewrite range_lo, range_hi. change (hi s) with (hi_of smax simax) in *. change (lo s) with (lo_of (Some m) simin) in *. cbn [lo_of negb] in *.
      unfold at_version in C'. rewrite K in C'.
      assert (H : clt (Fin (key m, false)) (hi_of smax simax)).
      { destruct smax as [M|]; [| reflexivity]. cbn [hi_of]. destruct V as (_ & _ & V). unfold b_cmp in V. cbn in V. rewrite v_cmp_key in V.
        unfold clt, ccmp. cbn. unfold pos_cmp. cbn. destruct (key_cmp (key m) (key M)) eqn:Q; [| reflexivity | congruence]. destruct simax; [reflexivity |].
        exfalso. apply N. unfold s. cbn. split; [exact E1 |]. apply (Orders.cmp_eq lawful_key) in Q. apply v_eq_key. congruence. }
      assert (B : simin = false) by (destruct simin; [exfalso; apply C'; split; [apply cle_refl | exact H] | reflexivity]). subst simin. cbn [negb] in *.
      rewrite (at_between (key m) v). split.
      + intros [[X|X] Y]; [right; congruence | left; auto].
      + intros [[X Y]|X]; [auto |]. split; [left; congruence |]. unfold at_version. rewrite <- X, K. exact H. }
  destruct (o_eq (Some w) smax) eqn:E2.
  { destruct smax as [M|]; [|discriminate]. cbn [o_eq] in E2. pose proof E2 as K. apply v_eq_key in K.
    assert (V' : valid_item (Range smin (Some M) simin true)) by (destruct V as (V1 & _ & V3); split; [assumption |]; split; [discriminate | assumption]).
    rewrite (range_new_ok _ _ _ _ V'). cbn [bind]. split.
    - intros L. exfalso. unfold s in L. destruct smin as [m|], simax; cbn in L; try contradiction. cbn in E1. destruct L as [L1 _]. congruence.
    - intros N. eexists. split; [reflexivity |]. split; [eauto |]. intros v. cbn [contains]. rewrite item_contains_iff, member_iff, v_eq_key by assumption.
      rewrite range_lo, range_hi. change (hi s) with (hi_of (Some M) simax) in *. change (lo s) with (lo_of smin simin) in *. cbn [hi_of] in *.
      unfold at_version in C'. rewrite K in C'.
      assert (H : cle (lo_of smin simin) (Fin (key M, false))).
      { destruct smin as [m|]; [| apply cneg_le]. cbn [lo_of]. destruct V as (_ & _ & V). unfold b_cmp in V. cbn in V. rewrite v_cmp_key in V.
        unfold cle, ccmp. cbn. unfold pos_cmp. cbn. destruct (key_cmp (key m) (key M)) eqn:Q; cbn; [| discriminate | congruence].
        exfalso. cbn in E1. apply (Orders.cmp_eq lawful_key) in Q. assert (X : v_eq w m = true) by (apply v_eq_key; congruence). congruence. }
      assert (B : simax = false) by (destruct simax; [exfalso; apply C'; split; [exact H | apply point_lt] | reflexivity]). subst simax.
      rewrite (at_below (key M) v). split.
      + intros [X [Y|Y]]; [right; congruence | left; auto].
      + intros [[X Y]|X]; [auto |]. split; [| left; congruence]. unfold at_version. rewrite <- X, K. exact H. }
  assert (NA : is_adjacent s (Point w) = false).
  { apply (bool_iff _ _ (adjacent_iff s (Point w) V I)). rewrite point_lo, point_hi. unfold s. rewrite range_lo, range_hi. intros [A|A].
    - destruct smax as [M|]; [|discriminate]. cbn in A. assert (X : key w = key M) by congruence. apply v_eq_key in X. cbn in E2. congruence.
    - destruct smin as [m|]; [|discriminate]. cbn in A. assert (X : key w = key m) by congruence. apply v_eq_key in X. cbn in E1. congruence. }
  split.
  - intros L. exfalso. unfold s in L. destruct smin as [m|], smax as [M|], simax; cbn in L; try contradiction. destruct L as [L1 _]. cbn in E1. congruence.
  - intros _. assert (NI : item_intersects s (Point w) = false) by exact C.
    destruct (apart_members (item_union f) s (Point w) _ V I NI NA eq_refl) as (a & E & M). exists a. split; [exact E |]. split; [intros [X|X]; congruence | exact M].
Qed.

Lemma point_range_stuck f v o : valid_item o -> lo o = Fin (key v, true) -> item_union f (Point v) o = Err RecursionError.
Proof.
  intros Vo E. assert (R : is_range o) by (eapply lo_true_range; eauto).
  induction f as [|f IH]; [reflexivity|]. destruct o as [|omin omax oimin oimax]; [destruct R|].
  cbn [item_union]. set (o := Range omin omax oimin oimax) in *.
  assert (EC : item_contains o v = false).
  { apply (bool_iff _ _ (item_contains_iff o v Vo)). intros [X _].
    rewrite E in X. unfold at_version in X. rewrite <- cut_step in X. now apply clt_irrefl in X. }
  rewrite EC. unfold merge_with. cbn [flat_map extract app existsb item_is_universal orb].
  assert (EU : is_unbounded o = false).
  { revert E. unfold o, lo, is_unbounded; cbn. destruct omin; [reflexivity|discriminate]. }
  change (item_is_universal o) with (is_unbounded o). rewrite EU. cbn [orb].
  cbn [sort fold_right insert].
  assert (L : item_lt o (Point v) = false).
  { unfold item_lt. rewrite item_compare_cut by (exact Vo || exact I). rewrite E, point_lo. unfold ccmp at 1. cbn. unfold pos_cmp. cbn. now rewrite (cmp_refl lawful_key). }
  rewrite L. cbn [merge_loop].
  assert (EA : is_adjacent (Point v) o = true) by (apply adjacent_iff; [exact I | exact Vo | left; now rewrite E]).
  rewrite EA, orb_true_r, IH. reflexivity.
Qed.

Lemma starts_after_lo o v : starts_after o v <-> lo o = Fin (key v, true).
Proof.
  destruct o as [w|[m|] M b c]; cbn.
  - unfold lo; cbn. split; [tauto | congruence].
  - unfold lo, i_exclude_min; cbn. destruct b; cbn; [split; [tauto | congruence] |]. rewrite v_eq_key. split; congruence.
  - unfold lo; cbn. split; [tauto | congruence].
Qed.

Lemma point_range_union f v o : is_range o -> valid_item o -> ~ starts_after o v ->
  (union_lost (Point v) o -> exists a, item_union (S (S f)) (Point v) o = Ok (Item a) /\ forall x, item_contains a x = false)
  /\ (~ union_lost (Point v) o -> exists a, item_union (S (S f)) (Point v) o = Ok a /\ forall x, contains a x = true <-> v_eq v x = true \/ in_item o x).
Proof.
  intros R V N. rewrite starts_after_lo in N. destruct o as [|omin omax oimin oimax]; [destruct R |].
  change (item_union (S (S f)) (Point v) (Range omin omax oimin oimax)) with
    (if item_contains (Range omin omax oimin oimax) v then Ok (Item (Range omin omax oimin oimax)) else merge_with (item_union (S f)) [Item (Point v); Item (Range omin omax oimin oimax)]).
  set (o := Range omin omax oimin oimax) in *.
  destruct (item_contains o v) eqn:C.
  { split.
    - intros L. exfalso. unfold o in *. destruct omin as [m|], omax as [M|], oimin, oimax; cbn in L; try contradiction. destruct L as [L1 L2].
      rewrite (no_members m M true) in C; [discriminate |]. apply v_eq_key in L1, L2. apply v_eq_key. congruence.
    - intros _. eexists. split; [reflexivity |]. intros x. cbn [contains]. rewrite in_item_contains. split; [auto |].
      intros [H|H]; [| exact H]. apply in_item_contains in C. now apply (member_eq o v x V H). }
  destruct (is_adjacent (Point v) o) eqn:A.
  2:{ split.
    - intros L. exfalso. apply (bool_iff _ _ (adjacent_iff (Point v) o I V)) in A. apply A. right. rewrite point_lo. unfold o in *.
      destruct omin as [m|], omax as [M|], oimin, oimax; cbn in L; try contradiction. destruct L as [_ L]. unfold hi; cbn. apply v_eq_key in L. congruence.
    - intros _. assert (NI : item_intersects (Point v) o = false) by exact C.
      destruct (apart_members (item_union (S f)) (Point v) o _ I V NI A eq_refl) as (a & E & M). exists a. split; [exact E |]. exact M. }
  apply (adjacent_iff (Point v) o I V) in A. rewrite point_hi, point_lo in A. destruct A as [A|A]; [congruence |].
  assert (L : item_lt o (Point v) = true).
  { unfold item_lt. rewrite item_compare_cut by (exact V || exact I). rewrite <- A, point_lo, point_hi.
    destruct (clt_total (lo o) (Fin (key v, false))) as [X|[X|X]].
    - unfold clt in X. now rewrite X.
    - rewrite X. cbn. unfold pos_cmp. cbn. now rewrite (cmp_refl lawful_key).
    - exfalso. apply cut_step' in X. pose proof (range_valid_ends o I V) as Y. rewrite <- A in Y. cbn in Y.
      apply cle_lt_eq in X as [X|X]; [| congruence].
      revert X Y. unfold o. rewrite range_lo. destruct omin as [m|]; cbn; [| discriminate].
      unfold clt, ccmp. cbn. unfold pos_cmp. cbn. rewrite (law_anti lawful_key (key v) (key m)).
      destruct (key_cmp (key v) (key m)); cbn; [destruct oimin; discriminate | discriminate | discriminate]. }
  unfold merge_with. cbn [flat_map extract app existsb]. change (item_is_universal (Point v)) with false.
  assert (U : item_is_universal o = false).
  { destruct (item_is_universal o) eqn:U; [| reflexivity]. apply (item_universal_iff o V) in U as [_ U]. rewrite U in A. discriminate. }
  rewrite U. cbn [orb sort fold_right insert]. rewrite L. cbn [merge_loop].
  assert (EA : is_adjacent o (Point v) = true) by (apply adjacent_iff; [exact V | exact I | left; rewrite point_lo; congruence]).
  rewrite EA, orb_true_r. destruct (range_point_union f o v R V) as [H1 H2]. split.
  - intros Q. destruct H1 as (a & E & M).
    { unfold o in *. destruct omin as [m|], omax as [M|], oimin, oimax; cbn in Q |- *; tauto. }
    rewrite E. cbn [bind]. exists a. split; [reflexivity | exact M].
  - intros Q. destruct H2 as (a & E & T & M).
    { intros K. apply Q. unfold o in *. destruct omin as [m|], omax as [M|], oimin, oimax; cbn in K |- *; try tauto.
      exfalso. apply N. unfold lo; cbn. destruct K as [K _]. apply v_eq_key in K. now rewrite K. }
    rewrite E. cbn [bind]. destruct (T (or_intror EA)) as (i & ->). cbn [bind]. exists (Item i). split; [reflexivity |]. intros x. rewrite M. tauto.
Qed.

Lemma loose_union_at f s o : made s -> made o ->
  (union_clash (Item s) (Item o) -> item_union (S (S f)) s o = Err RecursionError)
  /\ (union_lost s o -> exists r, item_union (S (S f)) s o = Ok r /\ forall v, contains r v = false)
  /\ (~ union_clash (Item s) (Item o) -> ~ union_lost s o ->
      exists r, item_union (S (S f)) s o = Ok r /\ forall v, contains r v = true <-> in_item s v \/ in_item o v).
Proof.
  intros Ms Mo. apply made_valid in Ms, Mo.
  destruct s as [v|smin smax simin simax], o as [w|omin omax oimin oimax].
  - cbn [union_clash starts_after union_lost]. split; [tauto |]. split; [tauto |]. intros _ _.
    change (item_union (S (S f)) (Point v) (Point w)) with (if v_eq v w then Ok (Item (Point v)) else merge_with (item_union (S f)) [Item (Point v); Item (Point w)]).
    destruct (v_eq v w) eqn:E.
    + eexists. split; [reflexivity |]. intros x. cbn [contains item_contains in_item]. apply v_eq_key in E. rewrite !v_eq_key. rewrite E. tauto.
    + apply (apart_members (item_union (S f)) (Point v) (Point w) _ I I); [| | reflexivity].
      * cbn. destruct (v_eq w v) eqn:K; [| reflexivity]. apply v_eq_key in K. assert (X : v_eq v w = true) by (now apply v_eq_key). congruence.
      * apply (bool_iff _ _ (adjacent_iff (Point v) (Point w) I I)). rewrite !point_lo, !point_hi. intros [X|X]; congruence.
  - cbn [union_clash]. split.
    + intros S. apply point_range_stuck; [exact Mo | now apply starts_after_lo].
    + split.
      * intros L. destruct (point_range_union f v (Range omin omax oimin oimax) I Mo) as [H _].
        { rewrite starts_after_lo. destruct omin as [m|], omax as [M|], oimin, oimax; cbn in L; try contradiction. unfold lo; cbn. congruence. }
        destruct (H L) as (a & E & M). exists (Item a). auto.
      * intros N L. destruct (point_range_union f v (Range omin omax oimin oimax) I Mo N) as [_ H]. exact (H L).
  - cbn [union_clash]. split; [tauto |]. destruct (range_point_union (S f) (Range smin smax simin simax) w I Ms) as [H1 H2]. split.
    + intros L. destruct (H1 L) as (a & E & M). exists (Item a). auto.
    + intros _ L. destruct (H2 L) as (a & E & _ & M). exists a. auto.
  - cbn [union_clash]. split; [tauto |]. split; [destruct smin, smax, simax; cbn; tauto |]. intros _ _.
    apply (ranges_union (S f) (Range smin smax simin simax) (Range omin omax oimin oimax) I I Ms Mo).
Qed.

Theorem loose_union s o : made s -> made o ->
  (union_clash (Item s) (Item o) -> union (Item s) (Item o) = Err RecursionError)
  /\ (union_lost s o -> exists r, union (Item s) (Item o) = Ok r /\ forall v, contains r v = false)
  /\ (~ union_clash (Item s) (Item o) -> ~ union_lost s o ->
      exists r, union (Item s) (Item o) = Ok r /\ forall v, contains r v = true <-> in_item s v \/ in_item o v).
Proof. cbn [union]. exact (loose_union_at 298 s o). Qed.

(** ** Difference *)

Lemma range_parts_difference s o : is_range s -> is_range o -> valid_item s -> valid_item o -> overlap s o ->
  exists before after,
    ((clt (lo s) (lo o) /\ exists b, before = Some b /\ proper b /\ lo b = lo s /\ hi b = lo o) \/ (cle (lo o) (lo s) /\ before = None))
    /\ ((clt (hi o) (hi s) /\ exists a, after = Some a /\ proper a /\ lo a = hi o /\ hi a = hi s) \/ (cle (hi s) (hi o) /\ after = None))
    /\ item_difference s o = match before, after with
       | None, None => Ok Empty
       | None, Some a => Ok (Item a)
       | Some b, None => Ok (Item b)
       | Some b, Some a => merge [Item b; Item a]
       end.
Proof.
  intros Rs Ro Ps Po OV. pose proof (proj2 (ranges_intersect_iff s o Rs Ro Ps Po) OV) as EI.
  destruct s as [|smin smax simin simax]; [destruct Rs |]. destruct o as [|omin omax oimin oimax]; [destruct Ro |].
  unfold item_difference. rewrite EI. cbn [negb].
  pose proof Ps as (S1 & S2 & S3). pose proof Po as (Q1 & Q2 & Q3).
  set (s := Range smin smax simin simax) in *. set (o := Range omin omax oimin oimax) in *.
  match goal with |- context [bind ?x _] => set (B := x) end.
  assert (HB : exists before, B = Ok before /\ ((clt (lo s) (lo o) /\ exists b, before = Some b /\ proper b /\ lo b = lo s /\ hi b = lo o)
               \/ (cle (lo o) (lo s) /\ before = None))).
  { unfold B. destruct (is_lower s o) eqn:EL; cbn [negb].
    2:{ apply (bool_iff _ _ (lower_iff _ _ Ps Po)) in EL. exists None. split; [reflexivity |]. right. split; [now apply not_clt | reflexivity]. }
    apply (lower_iff _ _ Ps Po) in EL.
    destruct (o_eq smin omin) eqn:EO.
    - destruct smin as [m|], omin as [n|]; try discriminate.
      + apply v_eq_key in EO. exists (Some (Point m)). split; [reflexivity |]. left. split; [exact EL |]. exists (Point m). split; [reflexivity|]. split; [exact I|].
        revert EL. unfold s, o, lo, hi; cbn. unfold i_exclude_min; cbn. rewrite EO.
        unfold clt, ccmp, pos_cmp; cbn. rewrite (cmp_refl lawful_key).
        destruct simin, oimin; cbn; try congruence. auto.
    - destruct omin as [n|]; [|exfalso; pose proof (cneg_le (lo s)) as X; cbn in EL;
         change (lo o) with (@NegInf (vkey * bool)) in EL; corder].
      assert (PR : proper (Range smin (Some n) simin (negb oimin))).
      { repeat split; auto; try congruence.
        assert (L : clt (lo (Range smin (Some n) simin (negb oimin)))
                        (hi (Range smin (Some n) simin (negb oimin)))) by exact EL.
        apply ends_ordered in L; [|solve [auto; congruence]|solve [auto; congruence]].
        destruct L as [L|(v & w & -> & E & EK & _)]; [apply L|].
        assert (w = n) by congruence. subst w. cbn in EO.
        rewrite (proj2 (v_eq_key _ _) EK) in EO. discriminate. }
      rewrite (range_new_proper _ _ _ _ PR). cbn [bind]. eexists.
      split; [reflexivity|]. left. split; [exact EL |]. eexists. split; [reflexivity |]. repeat split; apply PR. }
  clearbody B. destruct HB as (before & -> & HB).
  cbn [bind].
  match goal with |- context [bind ?x _] => set (A := x) end.
  assert (HA : exists after, A = Ok after /\ ((clt (hi o) (hi s) /\ exists a, after = Some a /\ proper a /\ lo a = hi o /\ hi a = hi s)
               \/ (cle (hi s) (hi o) /\ after = None))).
  { unfold A. destruct (is_higher s o) eqn:EL; cbn [negb].
    2:{ apply (bool_iff _ _ (higher_iff _ _ Ps Po)) in EL. exists None. split; [reflexivity |]. right. split; [now apply not_clt|reflexivity]. }
    apply (higher_iff _ _ Ps Po) in EL.
    destruct (o_eq smax omax) eqn:EO.
    - destruct smax as [m|], omax as [n|]; try discriminate.
      + apply v_eq_key in EO. exists (Some (Point m)). split; [reflexivity |]. left. split; [exact EL |]. exists (Point m). split; [reflexivity|]. split; [exact I|].
        revert EL. unfold s, o, lo, hi; cbn. rewrite EO.
        unfold clt, ccmp, pos_cmp; cbn. rewrite (cmp_refl lawful_key).
        destruct simax, oimax; cbn; try congruence. auto.
    - destruct omax as [n|]; [|exfalso; pose proof (cpos_ge (hi s)) as X; cbn in EL;
         change (hi o) with (@PosInf (vkey * bool)) in EL; corder].
      assert (HE : lo (Range (Some n) smax (negb oimax) simax) = hi o).
      { unfold o, lo, hi; cbn. unfold i_exclude_min; cbn. now rewrite negb_involutive. }
      assert (PR : proper (Range (Some n) smax (negb oimax) simax)).
      { repeat split; auto; try congruence.
        assert (L : clt (lo (Range (Some n) smax (negb oimax) simax))
                        (hi (Range (Some n) smax (negb oimax) simax))) by (rewrite HE; exact EL).
        apply ends_ordered in L; [|solve [auto; congruence]|solve [auto; congruence]].
        destruct L as [L|(v & w & E & -> & EK & _)]; [apply L|].
        assert (v = n) by congruence. subst v. cbn in EO. symmetry in EK.
        rewrite (proj2 (v_eq_key _ _) EK) in EO. discriminate. }
      rewrite (range_new_proper _ _ _ _ PR). cbn [bind]. eexists.
      split; [reflexivity|]. left. split; [exact EL |]. eexists. split; [reflexivity |]. repeat split; try apply PR. exact HE. }
  clearbody A. destruct HA as (after & -> & HA). cbn [bind]. exists before, after. auto.
Qed.

Lemma difference_clash_ends s o : valid_item s -> valid_item o ->
  difference_clash s o <-> is_range s /\ is_range o /\ exists v, lo s = Fin (key v, false) /\ lo o = Fin (key v, true) /\ hi o = Fin (key v, true) /\ clt (hi o) (hi s).
Proof.
  intros Vs Vo. destruct s as [u|smin smax simin simax], o as [w|omin omax oimin oimax]; try (cbn; tauto).
  - cbn. destruct smin, simin; tauto.
  - rewrite !range_lo, !range_hi. split.
    + intros D. split; [exact I |]. split; [exact I |]. destruct smin as [m|], omin as [n|], omax as [N|]; try (destruct simin; contradiction).
      destruct simin, oimin, oimax; try contradiction. destruct D as (A & B & C). apply v_eq_key in A, B. exists m. cbn [lo_of hi_of negb].
      rewrite A, B. repeat split. destruct smax as [M|]; [| reflexivity]. cbn [hi_of]. apply key_lt_cut. unfold v_lt in C. rewrite v_cmp_key in C. destruct (key_cmp (key N) (key M)); try discriminate. reflexivity.
    + intros (_ & _ & v & A & B & C & D). destruct smin as [m|]; [|discriminate]. destruct omin as [n|]; [|discriminate]. destruct omax as [N|]; [|discriminate].
      cbn [lo_of hi_of] in A, B, C, D. destruct simin; [| discriminate]. destruct oimin; [discriminate |]. destruct oimax; [| discriminate].
      assert (K1 : key m = key n) by congruence. assert (K2 : key n = key N) by congruence. cbn. split; [now apply v_eq_key |]. split; [now apply v_eq_key |].
      destruct smax as [M|]; [| exact I]. cbn [hi_of] in D. revert D. unfold clt, ccmp. cbn. unfold pos_cmp. cbn. unfold v_lt. rewrite v_cmp_key.
      destruct (key_cmp (key N) (key M)); cbn; try discriminate; try reflexivity. destruct simax; discriminate.
Qed.

Theorem loose_difference s o : made s -> made o ->
  (difference_clash s o -> difference (Item s) (Item o) = Err RecursionError)
  /\ (~ difference_clash s o -> exists r, difference (Item s) (Item o) = Ok r /\ forall v, contains r v = true <-> in_item s v /\ ~ in_item o v).
Proof.
  intros Ms Mo. apply made_valid in Ms, Mo. destruct s as [v|smin smax simin simax].
  { cbn [difference difference_clash contains]. split; [tauto |]. intros _. eexists. split; [reflexivity |]. intros x. destruct (item_contains o v) eqn:C.
    - cbn [contains]. split; [discriminate |]. intros [A B]. exfalso. apply B. apply in_item_contains in C. now apply (member_eq o v x Mo A).
    - cbn [contains item_contains in_item]. split; [| tauto]. intros A. split; [exact A |]. intros B. apply (member_eq o v x Mo A) in B. apply in_item_contains in B. congruence. }
  cbn [difference]. set (s := Range smin smax simin simax) in *.
  destruct o as [w|omin omax oimin oimax].
  - split; [unfold s; cbn [difference_clash]; destruct smin, simin; tauto |]. intros _.
    destruct (item_contains s w) eqn:C.
    2:{ unfold s at 1. cbn [item_difference]. fold s. rewrite C. cbn [negb]. eexists. split; [reflexivity |]. intros x. cbn [contains]. rewrite in_item_contains. split; [| tauto].
        intros A. split; [exact A |]. cbn [in_item]. intros B. rewrite <- in_item_contains in A. apply v_eq_key in B. rewrite item_contains_cut in A, C by assumption. unfold at_version in *. rewrite B in C. congruence. }
    assert (D : proper s \/ exists k, lo s = Fin (k, false) /\ hi s = Fin (k, true)).
    { pose proof C as C'. apply item_contains_iff in C' as [A B]; [| exact Ms]. pose proof Ms as (V1 & V2 & _).
      destruct (ends_ordered smin smax simin simax V1 V2) as [P|(m & M & -> & -> & K & -> & ->)]; [change (clt (lo s) (hi s)); corder | left; exact P |].
      right. exists (key m). unfold s, lo, hi; cbn. rewrite K. auto. }
    destruct D as [P|(k & L & H)].
    + destruct (difference_versions (Item s) (Item (Point w))) as [D _]; [apply (proj2 (good_item_proper s)); exact P | exact I |].
      destruct D as (r & E & _ & M); [cbn; tauto | cbn; tauto |]. exists r. split; [exact E | exact M].
    + assert (K : k = key w).
      { apply item_contains_iff in C as [A B]; [| exact Ms]. rewrite L in A. rewrite H in B. unfold at_version in *. apply cut_step in B.
        pose proof (cle_antisym _ _ A B) as X. congruence. }
      subst k. unfold s at 1. cbn [item_difference]. fold s. rewrite C. cbn [negb].
      unfold s in L, H. rewrite range_lo in L. rewrite range_hi in H. destruct smin as [m|]; [|discriminate]. destruct smax as [M|]; [|discriminate].
      cbn [lo_of hi_of] in L, H. destruct simin; [| discriminate]. destruct simax; [| discriminate].
      assert (K1 : v_eq w m = true) by (apply v_eq_key; congruence). cbn [o_eq]. rewrite K1. cbn [negb].
      assert (V : valid_item (Range (Some m) (Some M) false true)) by (destruct Ms as (_ & _ & V); split; [discriminate |]; split; [discriminate | exact V]).
      rewrite (range_new_ok _ _ _ _ V). cbn [bind]. eexists. split; [reflexivity |]. intros x. cbn [contains]. rewrite item_contains_iff by exact V. rewrite member_iff by exact Ms.
      unfold s. rewrite !range_lo, !range_hi. cbn [lo_of hi_of negb]. assert (Km : key m = key w) by congruence. assert (KM : key M = key w) by congruence. rewrite Km, KM.
      cbn [in_item]. rewrite v_eq_key. rewrite (at_between (key w) x). split.
      * intros [A B]. exfalso. corder.
      * intros [[[A|A] B] N]; [exfalso; apply N; congruence | auto].
  - set (o := Range omin omax oimin oimax) in *.
    destruct (item_intersects s o) eqn:EI.
    2:{ pose proof EI as NO. apply (bool_iff _ _ (ranges_intersect_iff s o I I Ms Mo)) in NO. split.
        - intros D. exfalso. apply (difference_clash_ends s o Ms Mo) in D as (_ & _ & v & A & B & C & D). apply NO. unfold overlap. rewrite A, B, C in *. pose proof (point_lt (key v)). split; [assumption | corder].
        - intros _. unfold s, o. cbn [item_difference]. fold s. fold o. rewrite EI. cbn [negb]. eexists. split; [reflexivity |]. intros v. cbn [contains]. rewrite in_item_contains. rewrite !member_iff by assumption.
          unfold overlap in NO. split; [| tauto]. intros [A B]. split; [auto |]. intros [C D]. apply NO. split; corder. }
    apply (ranges_intersect_iff s o I I Ms Mo) in EI.
    destruct (range_parts_difference s o I I Ms Mo EI) as (before & after & HB & HA & E). destruct EI as [O1 O2].
    destruct HB as [(LB & b & -> & Pb & Lb & Hb)|(LB & ->)], HA as [(LA & a & -> & Pa & La & Ha)|(LA & ->)]; cbn beta iota in E.
    + assert (F : Forall canonical [Item b; Item a]) by (constructor; [apply (proj2 (good_item_proper b)); exact Pb |]; constructor; [apply (proj2 (good_item_proper a)); exact Pa | constructor]).
      assert (FP : Forall proper (flat_map extract [Item b; Item a])) by (cbn; repeat constructor; assumption).
      destruct (merge_versions _ F) as [M1 M2]. rewrite E. split.
      * intros D. apply M2. apply (clash_stuck _ FP). apply (difference_clash_ends s o Ms Mo) in D as (_ & _ & v & A & B & C & D).
        assert (Pt : exists v', b = Point v').
        { destruct b as [v'|bm bM bi bI]; [eauto |]. exfalso. apply (proper_not_point _ _ _ _ v Pb). rewrite point_lo, point_hi. split; congruence. }
        destruct Pt as (v' & ->). rewrite point_lo in Lb. assert (K : key v' = key v) by congruence.
        exists v', a. cbn. repeat split; auto; [congruence |]. intros x [<-|[<-|[]]] (R & T1 & T2); [destruct R |]. rewrite La, C, K in T1.
        pose proof (point_lt (key v)). corder.
      * intros N. destruct M1 as (r & Er & _ & M).
        { intros S. apply (clash_stuck _ FP) in S as (v & r & Iv & Ir & Er & NT). cbn in Iv, Ir. apply N. apply difference_clash_ends; [exact Ms | exact Mo |]. split; [exact I |]. split; [exact I |].
          pose proof (point_lt (key v)) as PL.
          destruct Ir as [<-|[<-|[]]].
          - exfalso. destruct Iv as [->|[->|[]]]; [rewrite point_lo in Er; congruence |]. rewrite point_lo in La. rewrite Er in Lb. rewrite <- La, <- Lb in O1. corder.
          - destruct Iv as [->|[->|[]]]; [| rewrite point_lo in Er; congruence]. exists v. rewrite point_lo in Lb. rewrite point_hi in Hb. split; [congruence |]. split; [congruence |]. split; [congruence | exact LA]. }
        exists r. split; [exact Er |]. intros v. rewrite M. rewrite Exists_cons, Exists_cons, Exists_nil. cbn [in_set].
        rewrite !member_iff by (assumption || now apply proper_valid). rewrite Lb, Hb, La, Ha. split.
        -- intros [[A B]|[[A B]|[]]]; split; [split; [exact A | corder] | intros [C D]; corder | split; [corder | exact B] | intros [C D]; corder].
        -- intros [[A B] C]. destruct (clt_cle_dec (at_version v) (lo o)) as [X|X]; [left; auto |]. right. left. split; [| exact B].
           apply not_clt. intros Y. apply C. auto.
    + rewrite E. split.
      * intros D. exfalso. apply (difference_clash_ends s o Ms Mo) in D as (_ & _ & v & A & B & C & D). corder.
      * intros _. eexists. split; [reflexivity |]. intros v. cbn [contains]. rewrite in_item_contains. rewrite !member_iff by (assumption || now apply proper_valid). rewrite Lb, Hb. split.
        -- intros [A B]. split; [split; [exact A | corder] | intros [C D]; corder].
        -- intros [[A B] C]. split; [exact A |]. apply not_cle. intros X. apply C. split; [exact X | corder].
    + rewrite E. split.
      * intros D. exfalso. apply (difference_clash_ends s o Ms Mo) in D as (_ & _ & v & A & B & C & D). rewrite A, B in LB. pose proof (point_lt (key v)). corder.
      * intros _. eexists. split; [reflexivity |]. intros v. cbn [contains]. rewrite in_item_contains. rewrite !member_iff by (assumption || now apply proper_valid). rewrite La, Ha. split.
        -- intros [A B]. split; [split; [corder | exact B] | intros [C D]; corder].
        -- intros [[A B] C]. split; [| exact B]. apply not_clt. intros X. apply C. split; [corder | exact X].
    + rewrite E. split.
      * intros D. exfalso. apply (difference_clash_ends s o Ms Mo) in D as (_ & _ & v & A & B & C & D). corder.
      * intros _. eexists. split; [reflexivity |]. intros v. cbn [contains]. rewrite !member_iff by assumption. split; [discriminate |]. intros [[A B] C]. exfalso. apply C. split; corder.
Qed.

Theorem loose_complement i : made i ->
  exists r, complement (Item i) = Ok r /\ forall v, contains r v = true <-> ~ in_item i v.
Proof.
  intros M. destruct (loose_difference UNIVERSAL i (eq_refl : made UNIVERSAL) M) as [_ H]. destruct H as (r & E & D); [cbn; tauto |].
  exists r. split; [exact E |]. intros v. rewrite D. cbn. tauto.
Qed.

(** ** Tests *)

Theorem loose_includes s o : made s -> made o -> includes (Item s) (Item o) = true -> forall v, in_item o v -> in_item s v.
Proof.
  intros Ms Mo H v. apply made_valid in Ms, Mo. destruct s as [u|a b c d].
  - cbn in H. apply orb_true_iff in H as [H|H].
    + intros A. exfalso. destruct o as [w|m M i j]; [discriminate |]. cbn [item_is_empty] in H. apply andb_true_iff in H as [H1 H2]. apply negb_true_iff in H2.
      apply member_iff in A as [A B]; [| exact Mo]. assert (L : clt (lo (Range m M i j)) (hi (Range m M i j))) by corder.
      destruct Mo as (V1 & V2 & _). destruct (ends_ordered m M i j V1 V2 L) as [P|(? & ? & -> & -> & _ & -> & ->)]; [| discriminate].
      destruct P as (_ & _ & P). unfold is_empty_or_point, comparable_min, comparable_max in H1. cbn in H1. rewrite P in H1. discriminate.
    + destruct o as [w|]; [| discriminate]. cbn. apply v_eq_key in H. rewrite !v_eq_key. congruence.
  - cbn [includes] in H. destruct o as [w|a' b' c' d'].
    + cbn [item_includes] in H. intros A. apply in_item_contains in H. now apply (member_eq _ w v Ms A).
    + cbn [item_includes] in H. apply andb_true_iff in H as [H1 H2]. apply negb_true_iff in H1, H2.
      apply (bool_iff _ _ (lower_iff _ _ Mo Ms)) in H1. apply (bool_iff _ _ (higher_iff _ _ Mo Ms)) in H2. rewrite !member_iff by assumption. intros [A B]. split; corder.
Qed.

Theorem loose_intersects s o v : made s -> made o -> in_item s v -> in_item o v -> intersects (Item s) (Item o) = true.
Proof.
  intros Ms Mo A B. apply made_valid in Ms, Mo. destruct s as [u|a b c d].
  - cbn [intersects contains]. apply in_item_contains. now apply (member_eq o u v Mo A).
  - cbn [intersects]. destruct o as [w|a' b' c' d'].
    + cbn [item_intersects]. apply in_item_contains. now apply (member_eq _ w v Ms B).
    + apply ranges_intersect_iff; try exact I; try assumption. apply member_iff in A as [A1 A2], B as [B1 B2]; try assumption. split; corder.
Qed.

Lemma nonempty_iff i : valid_item i -> item_is_empty i = false <-> clt (lo i) (hi i).
Proof.
  intros V. destruct i as [v|m M c d].
  - rewrite point_lo, point_hi. split; [intros _; apply point_lt | reflexivity].
  - pose proof V as (V1 & V2 & V3).
    split.
    + intros E. apply not_cle. intros L. cbn [item_is_empty] in E. revert E L. rewrite range_lo, range_hi.
      destruct m as [m|]; [| intros _ L; destruct M; cbn in L; unfold cle, ccmp in L; cbn in L; discriminate || now apply L].
      destruct M as [M|]; [| intros _ L; cbn in L; unfold cle, ccmp in L; cbn in L; now apply L].
      unfold is_empty_or_point, comparable_min, comparable_max, b_cmp, is_closed. cbn. rewrite v_cmp_key.
      cbn in V3. unfold v_le in V3. rewrite v_cmp_key in V3. unfold cle, ccmp, pos_cmp. cbn.
      destruct (key_cmp (key m) (key M)) eqn:K; cbn in *; try discriminate.
      * apply (Orders.cmp_eq lawful_key) in K. rewrite K. rewrite (cmp_refl lawful_key). destruct c, d; cbn; congruence.
      * apply (cmp_lt_gt lawful_key) in K. rewrite K. intros _ L. now apply L.
      * now destruct V3.
    + intros L. destruct (ends_ordered m M c d V1 V2 L) as [P|(? & ? & -> & -> & _ & -> & ->)].
      * cbn [item_is_empty]. destruct P as (_ & _ & P). unfold is_empty_or_point, comparable_min, comparable_max. destruct m as [m|], M as [M|]; try reflexivity.
        cbn in P |- *. rewrite P. reflexivity.
      * cbn [item_is_empty]. unfold is_closed. cbn. apply andb_false_r.
Qed.

Lemma good_worded i : Forall worded (item_bounds i) -> good_set worded (Item i).
Proof. intros F. now apply worded_good. Qed.

Lemma dset_item i c : dset (Item i) c <-> cle (lo i) c /\ clt c (hi i).
Proof.
  unfold dset, dens. cbn. split.
  - intros (x & [<-|[]] & H). exact H.
  - intros H. exists i. auto.
Qed.

Lemma witness_in i c : valid_item i -> Forall worded (item_bounds i) -> cle (lo i) c -> clt c (hi i) -> exists u, worded u /\ in_item i u.
Proof.
  intros V W A B. destruct (witness_both worded worded_exists next_epoch_worded worded_between (Item i) (Item i) c (good_worded i W) (good_worded i W)) as (u & Wu & D & _);
    [apply dset_item; auto | apply dset_item; auto |].
  exists u. split; [exact Wu |]. apply member_iff; [exact V |]. now apply dset_item.
Qed.

(** Wherever it is not blind, [includes] is exact. *)
Theorem loose_includes_exact s o : made s -> made o -> Forall worded (item_bounds s) -> Forall worded (item_bounds o) -> ~ includes_blind s o ->
  includes (Item s) (Item o) = true <-> forall v, worded v -> in_item o v -> in_item s v.
Proof.
  intros Ms Mo Ws Wo N. split; [intros H v _; now apply (loose_includes s o Ms Mo H) |]. intros H. apply made_valid in Ms, Mo.
  destruct o as [w|m M i j].
  - assert (W : worded w) by now inversion Wo. specialize (H w W). cbn [in_item] in H. rewrite v_eq_key in H. specialize (H eq_refl).
    destruct s as [u|]; [| now apply in_item_contains]. cbn. cbn in H. apply v_eq_key in H. apply v_eq_key. congruence.
  - destruct s as [u|a b c d].
    + cbn [includes_blind] in N. cbn [includes]. destruct (item_is_empty (Range m M i j)) eqn:E; [change (item_is_empty (Range m M i j) || false = true); now rewrite E |]. exfalso. pose proof E as L. apply nonempty_iff in L; [| exact Mo].
      pose proof Mo as (V1 & V2 & _). destruct (ends_ordered m M i j V1 V2 L) as [P|(x & y & -> & -> & K & -> & ->)].
      * assert (R : proper (Range m M i j)) by exact P.
        destruct (includes_worded (Item (Point u)) (Item (Range m M i j)) I) as [_ X]; [apply (proj2 (good_item_proper _)); exact R | exact Ws | exact Wo |].
        specialize (X H). change (includes (Item (Point u)) (Item (Range m M i j))) with (item_is_empty (Range m M i j) || false) in X. rewrite E in X. discriminate.
      * apply N. cbn [item_is_point]. unfold is_empty_or_point, comparable_min, comparable_max, is_closed. cbn. rewrite v_cmp_key, K, (cmp_refl lawful_key). reflexivity.
    + cbn [includes_blind] in N. set (s := Range a b c d) in *. set (o := Range m M i j) in *.
      assert (E : item_is_empty o = false) by (destruct (item_is_empty o); [now destruct N | reflexivity]). apply nonempty_iff in E; [| exact Mo].
      assert (Q : forall x, cle (lo o) x -> clt x (hi o) -> cle (lo s) x /\ clt x (hi s)).
      { intros x A B. destruct (dset_dec (Item s) x) as [D|D]; [now apply dset_item |]. exfalso.
        destruct (witness_sets worded worded_exists next_epoch_worded worded_between (Item o) (Item s) x (good_worded o Wo) (good_worded s Ws)) as (u & Wu & D1 & D2);
          [now apply dset_item | exact D |]. apply D2. apply dset_item. apply member_iff; [exact Ms |]. apply H; [exact Wu |]. apply member_iff; [exact Mo |]. now apply dset_item. }
      cbn [includes]. unfold s, o. cbn [item_includes]. fold s. fold o. apply andb_true_iff. rewrite !negb_true_iff. split.
      * apply (bool_iff _ _ (lower_iff _ _ Mo Ms)). intros X. destruct (Q (lo o)) as [Y _]; [apply cle_refl | exact E |]. corder.
      * apply (bool_iff _ _ (higher_iff _ _ Mo Ms)). intros X. destruct (clt_cle_dec (lo o) (hi s)) as [Y|Y].
        -- destruct (Q (hi s)) as [_ Z]; [corder | exact X | corder].
        -- destruct (Q (lo o)) as [_ Z]; [apply cle_refl | exact E | corder].
Qed.

Theorem loose_intersects_exact s o : made s -> made o -> Forall worded (item_bounds s) -> Forall worded (item_bounds o) ->
  item_is_empty s = false -> item_is_empty o = false ->
  intersects (Item s) (Item o) = true <-> exists v, worded v /\ in_item s v /\ in_item o v.
Proof.
  intros Ms Mo Ws Wo Es Eo. split; [| intros (v & _ & A & B); now apply (loose_intersects s o v)]. intros H. apply made_valid in Ms, Mo.
  destruct s as [u|a b c d].
  - cbn [intersects contains] in H. apply in_item_contains in H. exists u. split; [now inversion Ws |]. split; [now apply v_eq_key | exact H].
  - destruct o as [w|m M i j].
    + cbn [intersects item_intersects] in H. apply in_item_contains in H. exists w. split; [now inversion Wo |]. split; [exact H | now apply v_eq_key].
    + cbn [intersects] in H. set (s := Range a b c d) in *. set (o := Range m M i j) in *.
      apply (ranges_intersect_iff s o I I Ms Mo) in H as [O1 O2]. apply nonempty_iff in Es, Eo; try assumption.
      assert (X : exists x, (cle (lo s) x /\ clt x (hi s)) /\ (cle (lo o) x /\ clt x (hi o))).
      { destruct (clt_cle_dec (lo s) (lo o)) as [Y|Y]; [exists (lo o) | exists (lo s)]; split; split; try apply cle_refl; corder. }
      destruct X as (x & A & B).
      destruct (witness_both worded worded_exists next_epoch_worded worded_between (Item s) (Item o) x (good_worded s Ws) (good_worded o Wo)) as (u & Wu & D1 & D2);
        [now apply dset_item | now apply dset_item |].
      exists u. split; [exact Wu |]. apply dset_item in D1, D2. split; apply member_iff; assumption.
Qed.

(** [is_empty] is right about every item. *)
Theorem loose_empty i : made i -> Forall worded (item_bounds i) -> item_is_empty i = true <-> forall v, worded v -> ~ in_item i v.
Proof.
  intros M W. apply made_valid in M. split.
  - intros E v _ A. apply member_iff in A as [A B]; [| exact M]. assert (L : clt (lo i) (hi i)) by corder. apply nonempty_iff in L; [| exact M]. congruence.
  - intros H. destruct (item_is_empty i) eqn:E; [reflexivity |]. exfalso. apply nonempty_iff in E; [| exact M].
    destruct (witness_in i (lo i) M W) as (u & Wu & A); [apply cle_refl | exact E |]. exact (H u Wu A).
Qed.

Lemma loose_empty_sound i : made i -> item_is_empty i = true -> forall v, ~ in_item i v.
Proof.
  intros M E v A. apply made_valid in M. apply member_iff in A as [A B]; [| exact M]. assert (L : clt (lo i) (hi i)) by corder. apply nonempty_iff in L; [| exact M]. congruence.
Qed.
