(** The item-level operations in terms of cuts, for proper items. *)

From Coq Require Import List ZArith NArith Bool.
From Verif Require Import Py Segments Version VersionSets Orders Cuts.
Import ListNotations.
Local Opaque key.

(** ** Reflection of the comparisons *)

Lemma is_lt_clt x y : is_lt (ccmp x y) = true <-> clt x y.
Proof. unfold clt, is_lt. destruct (ccmp x y); split; congruence. Qed.
Lemma is_gt_clt x y : is_gt (ccmp x y) = true <-> clt y x.
Proof.
  unfold clt, is_gt. rewrite (law_anti lawful_cut x y).
  destruct (ccmp x y); cbn; split; congruence.
Qed.
Lemma is_eq_ceq x y : is_eq (ccmp x y) = true <-> x = y.
Proof. rewrite <- (law_eq lawful_cut). destruct (ccmp x y); cbn; split; congruence. Qed.

Lemma bool_iff b (P : Prop) : (b = true <-> P) -> (b = false <-> ~ P).
Proof. destruct b; intuition congruence. Qed.

Lemma is_lower_iff s o : proper s -> proper o -> is_lower s o = true <-> clt (lo s) (lo o).
Proof. intros. rewrite is_lower_cut by now apply proper_valid. apply is_lt_clt. Qed.
Lemma is_higher_iff s o : proper s -> proper o -> is_higher s o = true <-> clt (hi o) (hi s).
Proof. intros. rewrite is_higher_cut by now apply proper_valid. apply is_gt_clt. Qed.
Lemma is_strictly_lower_iff s o :
  proper s -> proper o -> is_strictly_lower s o = true <-> cle (hi s) (lo o).
Proof.
  intros. rewrite is_strictly_lower_cut by now apply proper_valid.
  rewrite negb_true_iff, (bool_iff _ _ (is_gt_clt _ _)). apply not_clt.
Qed.
Lemma is_strictly_higher_iff s o :
  proper s -> proper o -> is_strictly_higher s o = true <-> cle (hi o) (lo s).
Proof.
  intros. rewrite is_strictly_higher_cut by now apply proper_valid.
  rewrite negb_true_iff, (bool_iff _ _ (is_lt_clt _ _)). apply not_clt.
Qed.
Lemma is_adjacent_iff s o :
  proper s -> proper o -> is_adjacent s o = true <-> hi s = lo o \/ lo s = hi o.
Proof.
  intros. unfold is_adjacent.
  rewrite is_left_adjacent_cut, is_right_adjacent_cut by now apply proper_valid.
  rewrite orb_true_iff, !is_eq_ceq. reflexivity.
Qed.
Lemma item_eqb_iff s o :
  valid_item s -> valid_item o -> item_eqb s o = true <-> lo s = lo o /\ hi s = hi o.
Proof.
  intros. rewrite item_eqb_cut by assumption. rewrite andb_true_iff, !is_eq_ceq. reflexivity.
Qed.
Lemma item_contains_iff i v :
  valid_item i -> item_contains i v = true <-> cle (lo i) (at_version v) /\ clt (at_version v) (hi i).
Proof.
  intros. rewrite item_contains_cut by assumption.
  rewrite andb_true_iff, negb_true_iff, (bool_iff _ _ (is_gt_clt _ _)), is_gt_clt, not_clt.
  tauto.
Qed.
Lemma item_universal_iff i :
  valid_item i -> item_is_universal i = true <-> lo i = NegInf /\ hi i = PosInf.
Proof.
  intros. rewrite item_universal_cut by assumption. rewrite andb_true_iff, !is_eq_ceq. reflexivity.
Qed.

(** ** Proper items *)

Lemma point_lo v : lo (Point v) = Fin (key v, false).
Proof. reflexivity. Qed.
Lemma point_hi v : hi (Point v) = Fin (key v, true).
Proof. reflexivity. Qed.

Lemma cut_step x k : clt x (Fin (k, true)) <-> cle x (Fin (k, false)).
Proof.
  unfold clt, cle. destruct x as [|[k' b]|]; cbn; try (split; congruence).
  unfold pos_cmp; cbn. destruct (key_cmp k' k), b; cbn; split; congruence.
Qed.
Lemma cut_step' x k : cle (Fin (k, true)) x <-> clt (Fin (k, false)) x.
Proof. rewrite <- not_clt, cut_step. apply not_cle. Qed.

Lemma cneg_le x : cle NegInf x.
Proof. unfold cle. destruct x; cbn; congruence. Qed.
Lemma cpos_ge x : cle x PosInf.
Proof. unfold cle. destruct x; cbn; congruence. Qed.
Lemma cneg_lt k : clt NegInf (Fin k).
Proof. reflexivity. Qed.
Lemma cpos_gt k : clt (Fin k) PosInf.
Proof. reflexivity. Qed.

Lemma key_lt_cut k k' b b' : key_cmp k k' = Lt -> clt (Fin (k, b)) (Fin (k', b')).
Proof. unfold clt, ccmp, pos_cmp; cbn. now intros ->. Qed.

Lemma proper_range min max imin imax :
  proper (Range min max imin imax) <->
  (min = None -> imin = false) /\ (max = None -> imax = false)
  /\ b_cmp (lower_bound min) (upper_bound max) = Lt.
Proof. reflexivity. Qed.

Lemma proper_lt i : proper i -> clt (lo i) (hi i).
Proof.
  destruct i as [v|min max imin imax].
  - intros _. cbn. apply cut_step, cle_refl.
  - intros (_ & _ & H). unfold lo, hi; cbn.
    destruct min as [m|], max as [M|]; cbn in *; try reflexivity.
    apply key_lt_cut. exact H.
Qed.

(** A range with ordered ends has either strictly ordered bounds or is the
    closed range on one version. *)
Lemma ends_ordered min max imin imax :
  (min = None -> imin = false) -> (max = None -> imax = false) ->
  clt (lo (Range min max imin imax)) (hi (Range min max imin imax)) ->
  proper (Range min max imin imax) \/
  exists v w, min = Some v /\ max = Some w /\ key v = key w /\ imin = true /\ imax = true.
Proof.
  intros H1 H2. cbn. unfold lo, hi, i_exclude_min; cbn.
  destruct min as [m|], max as [M|]; cbn; auto.
  unfold clt, ccmp, pos_cmp; cbn. unfold b_cmp; cbn. rewrite v_cmp_key.
  destruct (key_cmp (key m) (key M)) eqn:E; cbn; [|auto|congruence].
  destruct imin, imax; cbn; try congruence. intros _. right.
  apply (cmp_eq lawful_key) in E. eauto 8.
Qed.

Lemma proper_not_point min max imin imax v :
  proper (Range min max imin imax) ->
  ~ (lo (Range min max imin imax) = lo (Point v) /\ hi (Range min max imin imax) = hi (Point v)).
Proof.
  intros (_ & _ & H) (E1 & E2). revert E1 E2 H. unfold lo, hi; cbn.
  destruct min as [m|], max as [M|]; cbn; try congruence.
  intros E1 E2. assert (EK : key m = key M) by congruence.
  unfold b_cmp; cbn. rewrite v_cmp_key, EK.
  rewrite (cmp_refl lawful_key). congruence.
Qed.

Lemma range_new_proper min max imin imax :
  proper (Range min max imin imax) -> range_new min max imin imax = Ok (Range min max imin imax).
Proof.
  intros (H1 & H2 & H3). unfold range_new.
  destruct min, max; rewrite ?(H1 eq_refl), ?(H2 eq_refl); now rewrite H3.
Qed.

Lemma range_new_valid min max imin imax r :
  range_new min max imin imax = Ok r -> r = Range min max imin imax /\ valid_item r.
Proof.
  unfold range_new.
  destruct min as [m|], max as [M|]; destruct imin, imax; cbn; try congruence;
    try (intros H; inversion H; subst; cbn; repeat split; congruence).
  all: unfold b_cmp; cbn; destruct (v_cmp m M) eqn:E; cbn; intros H; inversion H; subst;
    unfold valid_item, b_cmp; cbn; rewrite E; repeat split; congruence.
Qed.

(** ** Inclusion and overlap *)

Definition overlap (s o : item) : Prop := clt (lo s) (hi o) /\ clt (lo o) (hi s).

Lemma item_intersects_iff s o :
  proper s -> proper o -> item_intersects s o = true <-> overlap s o.
Proof.
  intros Ps Po. unfold overlap. destruct s as [v|smin smax simin simax].
  - cbn [item_intersects]. rewrite item_contains_iff by now apply proper_valid.
    rewrite point_lo, point_hi, cut_step. tauto.
  - destruct o as [w|omin omax oimin oimax]; cbn [item_intersects].
    + rewrite item_contains_iff by now apply proper_valid.
      rewrite point_lo, point_hi, cut_step. tauto.
    + unfold intersects_range. rewrite andb_true_iff, !negb_true_iff.
      rewrite (bool_iff _ _ (is_strictly_lower_iff _ _ Po Ps)).
      rewrite (bool_iff _ _ (is_strictly_higher_iff _ _ Po Ps)).
      rewrite !not_cle. tauto.
Qed.

Lemma item_is_empty_proper i : proper i -> item_is_empty i = false.
Proof.
  destruct i as [v|min max imin imax]; [reflexivity|].
  intros (_ & _ & H). unfold item_is_empty, is_empty_or_point, comparable_min, comparable_max; cbn.
  now rewrite H.
Qed.

Lemma item_is_point_proper min max imin imax :
  proper (Range min max imin imax) -> item_is_point (Range min max imin imax) = false.
Proof.
  intros (_ & _ & H). unfold item_is_point, is_empty_or_point, comparable_min, comparable_max; cbn.
  now rewrite H.
Qed.

Lemma item_includes_iff s o :
  proper s -> proper o ->
  item_includes s o = true <-> cle (lo s) (lo o) /\ cle (hi o) (hi s).
Proof.
  intros Ps Po. destruct s as [v|smin smax simin simax].
  - unfold item_includes. rewrite (item_is_empty_proper _ Po). cbn [orb].
    destruct o as [w|omin omax oimin oimax].
    + rewrite v_eq_key, !point_lo, !point_hi. split; [intros ->; split; apply cle_refl|].
      intros [H1 H2]. rewrite cut_step' in H2. rewrite <- cut_step in H1.
      assert (H3 : cle (Fin (key v, true)) (Fin (key w, true))).
      { rewrite cut_step'. rewrite <- (cut_step') in H2. rewrite cut_step in H1.
        eapply cle_lt_trans; [exact H1|]. apply cut_step, cle_refl. }
      rewrite <- cut_step' in H2.
      pose proof (cle_antisym _ _ H2 H3). congruence.
    + split; [congruence|]. intros [H1 H2]. exfalso.
      pose proof (proper_lt _ Po) as L. rewrite point_lo in H1. rewrite point_hi in H2.
      assert (L1 : clt (lo (Range omin omax oimin oimax)) (Fin (key v, true)))
        by (eapply clt_le_trans; eassumption).
      rewrite cut_step in L1. pose proof (cle_antisym _ _ H1 L1) as E1.
      assert (L2 : clt (Fin (key v, false)) (hi (Range omin omax oimin oimax)))
        by (eapply cle_lt_trans; eassumption).
      rewrite <- cut_step' in L2. pose proof (cle_antisym _ _ H2 L2) as E2.
      now apply (proper_not_point _ _ _ _ v Po).
  - destruct o as [w|omin omax oimin oimax]; cbn [item_includes].
    + rewrite item_contains_iff by now apply proper_valid.
      rewrite point_lo, point_hi, cut_step'. reflexivity.
    + rewrite andb_true_iff, !negb_true_iff.
      rewrite (bool_iff _ _ (is_lower_iff _ _ Po Ps)), (bool_iff _ _ (is_higher_iff _ _ Po Ps)).
      rewrite !not_clt. reflexivity.
Qed.

(** ** Least and greatest of two cuts *)

Definition cmin (x y : cut) : cut := match ccmp x y with Gt => y | _ => x end.
Definition cmax (x y : cut) : cut := match ccmp x y with Gt => x | _ => y end.

Lemma cmin_spec x y : cle x y /\ cmin x y = x \/ clt y x /\ cmin x y = y.
Proof.
  unfold cmin. destruct (clt_cle_dec y x) as [H|H]; [right|left]; split; auto.
  - unfold clt in H. apply (cmp_gt_lt lawful_cut) in H. now rewrite H.
  - unfold cle in H. now destruct (ccmp x y).
Qed.
Lemma cmax_spec x y : cle x y /\ cmax x y = y \/ clt y x /\ cmax x y = x.
Proof.
  unfold cmax. destruct (clt_cle_dec y x) as [H|H]; [right|left]; split; auto.
  - unfold clt in H. apply (cmp_gt_lt lawful_cut) in H. now rewrite H.
  - unfold cle in H. now destruct (ccmp x y).
Qed.

Ltac cminmax :=
  repeat match goal with
  | |- context [cmin ?x ?y] =>
      let E := fresh "E" in destruct (cmin_spec x y) as [[? E]|[? E]]; rewrite E in *; clear E
  | |- context [cmax ?x ?y] =>
      let E := fresh "E" in destruct (cmax_spec x y) as [[? E]|[? E]]; rewrite E in *; clear E
  | H : context [cmin ?x ?y] |- _ =>
      let E := fresh "E" in destruct (cmin_spec x y) as [[? E]|[? E]]; rewrite E in *; clear E
  | H : context [cmax ?x ?y] |- _ =>
      let E := fresh "E" in destruct (cmax_spec x y) as [[? E]|[? E]]; rewrite E in *; clear E
  end.

Definition lo_of (m : option version) (incl : bool) : cut :=
  match m with None => NegInf | Some v => Fin (key v, negb incl) end.
Definition hi_of (m : option version) (incl : bool) : cut :=
  match m with None => PosInf | Some v => Fin (key v, incl) end.

Lemma range_lo min max imin imax : lo (Range min max imin imax) = lo_of min imin.
Proof. reflexivity. Qed.
Lemma range_hi min max imin imax : hi (Range min max imin imax) = hi_of max imax.
Proof. reflexivity. Qed.

(** ** Intersection of items *)

Lemma item_intersection_spec s o :
  proper s -> proper o ->
  (overlap s o /\ exists r, item_intersection s o = Ok (Item r) /\ proper r
     /\ lo r = cmax (lo s) (lo o) /\ hi r = cmin (hi s) (hi o))
  \/ (~ overlap s o /\ item_intersection s o = Ok Empty).
Proof.
  intros Ps Po.
  destruct (item_intersects s o) eqn:EI.
  2:{ right. pose proof (proj1 (bool_iff _ _ (item_intersects_iff _ _ Ps Po)) EI) as NO.
      split; [exact NO|].
      destruct s as [v|smin smax simin simax].
      - cbn [item_intersects item_intersection] in EI |- *. now rewrite EI.
      - destruct o as [w|omin omax oimin oimax].
        + cbn [item_intersects item_intersection] in EI |- *. now rewrite EI.
        + unfold item_intersection.
          set (s := Range smin smax simin simax) in *. set (o := Range omin omax oimin oimax) in *.
          destruct (is_lower s o) eqn:EL; cbn [negb andb].
          * apply (is_lower_iff _ _ Ps Po) in EL.
            assert (H : is_strictly_lower s o = true).
            { apply (is_strictly_lower_iff _ _ Ps Po).
              pose proof (proper_lt _ Po). unfold overlap in NO.
              destruct (clt_cle_dec (lo o) (hi s)) as [H1|H1]; [|exact H1].
              exfalso. apply NO. split; [corder|exact H1]. }
            now rewrite H.
          * apply (bool_iff _ _ (is_lower_iff _ _ Ps Po)) in EL.
            assert (H : is_strictly_higher s o = true).
            { apply (is_strictly_higher_iff _ _ Ps Po).
              pose proof (proper_lt _ Ps). unfold overlap in NO.
              destruct (clt_cle_dec (lo s) (hi o)) as [H1|H1]; [|exact H1].
              exfalso. apply NO. split; [exact H1|corder]. }
            now rewrite H. }
  left. pose proof (proj1 (item_intersects_iff _ _ Ps Po) EI) as OV. split; [exact OV|].
  destruct OV as [OV1 OV2].
  destruct s as [v|smin smax simin simax].
  - exists (Point v). cbn [item_intersects item_intersection] in EI |- *. rewrite EI. split; [reflexivity|]. split; [exact I|].
    apply (item_contains_iff _ _ (proper_valid _ Po)) in EI as [H1 H2].
    unfold at_version in *. rewrite <- cut_step' in H2. rewrite point_lo, point_hi.
    cminmax; split; try reflexivity; corder.
  - destruct o as [w|omin omax oimin oimax].
    + exists (Point w). cbn [item_intersects item_intersection] in EI |- *. rewrite EI. split; [reflexivity|]. split; [exact I|].
      apply (item_contains_iff _ _ (proper_valid _ Ps)) in EI as [H1 H2].
      unfold at_version in *. rewrite <- cut_step' in H2. rewrite point_lo, point_hi.
      cminmax; split; try reflexivity; corder.
    + unfold item_intersection.
      set (s := Range smin smax simin simax) in *. set (o := Range omin omax oimin oimax) in *.
      pose proof (proper_lt _ Ps) as Ls. pose proof (proper_lt _ Po) as Lo.
      pose proof Ps as (S1 & S2 & S3). pose proof Po as (O1 & O2 & O3).
      set (A := if is_lower s o then (omin, oimin) else (smin, simin)).
      set (B := if is_higher s o then (omax, oimax) else (smax, simax)).
      assert (E1 : is_lower s o && is_strictly_lower s o = false).
      { apply andb_false_iff. right. apply (bool_iff _ _ (is_strictly_lower_iff _ _ Ps Po)). corder. }
      assert (E2 : negb (is_lower s o) && is_strictly_higher s o = false).
      { apply andb_false_iff. right. apply (bool_iff _ _ (is_strictly_higher_iff _ _ Ps Po)). corder. }
      rewrite E1, E2.
      assert (HA : (fst A = None -> snd A = false) /\
        lo_of (fst A) (snd A) = cmax (lo s) (lo o)).
      { unfold A. destruct (is_lower s o) eqn:EL; cbn [fst snd].
        - apply (is_lower_iff _ _ Ps Po) in EL. split; [exact O1|].
          transitivity (lo o); [reflexivity|]. cminmax; corder.
        - apply (bool_iff _ _ (is_lower_iff _ _ Ps Po)) in EL. split; [exact S1|].
          transitivity (lo s); [reflexivity|]. cminmax; corder. }
      assert (HB : (fst B = None -> snd B = false) /\
        hi_of (fst B) (snd B) = cmin (hi s) (hi o)).
      { unfold B. destruct (is_higher s o) eqn:EL; cbn [fst snd].
        - apply (is_higher_iff _ _ Ps Po) in EL. split; [exact O2|].
          transitivity (hi o); [reflexivity|]. cminmax; corder.
        - apply (bool_iff _ _ (is_higher_iff _ _ Ps Po)) in EL. split; [exact S2|].
          transitivity (hi s); [reflexivity|]. cminmax; corder. }
      destruct A as [a ia], B as [b ib]. cbn [fst snd] in *.
      destruct HA as [A1 A2], HB as [B1 B2].
      assert (L : clt (lo (Range a b ia ib)) (hi (Range a b ia ib))).
      { rewrite range_lo, range_hi, A2, B2. cminmax; corder. }
      destruct (ends_ordered _ _ _ _ A1 B1 L) as [P|(v & w & -> & -> & EK & -> & ->)].
      * exists (Range a b ia ib). rewrite (range_new_proper _ _ _ _ P). cbn [bind].
        rewrite (item_is_point_proper _ _ _ _ P). auto.
      * exists (Point v).
        assert (EC : v_cmp v w = Eq) by (unfold v_cmp; rewrite EK; apply (cmp_refl lawful_key)).
        unfold range_new, lower_bound, upper_bound, b_cmp; cbn. rewrite EC. cbn.
        unfold item_is_point, is_empty_or_point, comparable_min, comparable_max, b_cmp; cbn.
        rewrite EC. cbn. unfold is_empty_or_point, comparable_min, comparable_max, b_cmp; cbn.
        rewrite ?EC; cbn. split; [reflexivity|]. split; [exact I|].
        rewrite <- A2, <- B2. unfold lo, hi; cbn. rewrite EK. auto.
Qed.
