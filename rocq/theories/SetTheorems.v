(** The operations on version sets, in the vocabulary of [Spec.v]. *)

From Coq Require Import List ZArith NArith String Bool Lia Permutation.
From Verif Require Import Py Segments Version Regex Patterns VersionSets Orders Cuts SetItems SetChains SetMerge SetOps Spec OrderFacts Density SetVersions.
Import ListNotations.
Open Scope Z_scope.

Local Opaque key.

(** ** The exceptional cases in terms of cuts *)

Lemma starts_after_cut r v : starts_after r v <-> lo r = Fin (key v, true).
Proof.
  destruct r as [w|[m|] M [] b]; cbn [starts_after]; unfold lo, i_exclude_min; cbn; split; try discriminate; try tauto.
  - rewrite eq_key. congruence.
  - rewrite eq_key. congruence.
Qed.

Lemma above_min_cut m M b c v : (m = None -> b = false) ->
  above_min m b v <-> cle (lo (Range m M b c)) (Fin (key v, false)).
Proof.
  intros H. unfold above_min, lo, i_exclude_min. cbn. destruct m as [m|]; [|split; intros; [apply cneg_le|exact I]].
  rewrite cut_le_iff. destruct b; cbn.
  - rewrite v_le_iff. intuition discriminate.
  - intuition discriminate.
Qed.

Lemma below_max_cut m M b c v :
  below_max M true v <-> cle (Fin (key v, false)) (hi (Range m M b c)).
Proof.
  unfold below_max, hi. cbn. destruct M as [M|]; [|split; intros; [apply cpos_ge|exact I]].
  rewrite cut_le_iff, v_le_iff. intuition.
Qed.

Lemma reaches_touches x v : proper x -> reaches x v <-> touches x (key v).
Proof.
  intros P. destruct x as [w|m M b c]; cbn [reaches]; unfold touches; cbn [is_range]; [tauto|].
  rewrite (above_min_cut m M b c), (below_max_cut m M b c); [tauto|apply P].
Qed.

Lemma clash_stuck xs : Forall proper xs -> clash xs <-> stuck xs.
Proof.
  intros F. unfold clash, stuck. rewrite Forall_forall in F.
  split; intros (v & r & I1 & I2 & S & T); exists v, r; split; auto; split; auto; split; auto.
  - now apply starts_after_cut.
  - intros x Ix Tx. apply (T x Ix). apply reaches_touches; auto.
  - now apply starts_after_cut.
  - intros x Ix Tx. apply (T x Ix). apply reaches_touches in Tx; auto.
Qed.

Lemma union_clash_stuck a b : canon a -> canon b -> union_clash a b <-> union_stuck a b.
Proof.
  intros Ca Cb.
  assert (F : Forall proper (extract a ++ extract b)) by (apply Forall_app; split; now apply canon_proper).
  destruct a as [|i|xs], b as [|j|ys]; cbn [union_clash union_stuck]; try (destruct i; reflexivity); try reflexivity.
  - unfold stuck_pair. destruct i as [v|? ? ? ?]; cbn [is_range]; [|tauto].
    rewrite starts_after_cut, point_hi. split; [intros ->; split; auto|intros [_ E]; auto].
  - destruct i; now apply clash_stuck.
  - now apply clash_stuck.
  - now apply clash_stuck.
Qed.

Lemma covers_cut x s : covers_item x s <-> covers x s.
Proof.
  unfold covers_item, covers, lo, hi, i_exclude_min.
  assert (S : forall v w, v_eq v w = v_eq w v) by apply total_order.
  assert (A : match i_min x, i_min s with
    | None, _ => True
    | Some _, None => False
    | Some m, Some n => v_lt m n = true \/ v_eq m n = true /\ (i_include_min x = true \/ i_include_min s = false)
    end <-> cle (match i_min x with Some v => Fin (key v, negb (i_include_min x)) | None => NegInf end)
                (match i_min s with Some v => Fin (key v, negb (i_include_min s)) | None => NegInf end)).
  { destruct (i_min x) as [m|], (i_min s) as [n|].
    - rewrite cut_le_iff, negb_false_iff, negb_true_iff. reflexivity.
    - split; [tauto|]. intros H. exfalso. apply H. reflexivity.
    - split; intros; [apply cneg_le|exact I].
    - split; intros; [apply cneg_le|exact I]. }
  assert (B : match i_max x, i_max s with
    | None, _ => True
    | Some _, None => False
    | Some m, Some n => v_lt n m = true \/ v_eq m n = true /\ (i_include_max x = true \/ i_include_max s = false)
    end <-> cle (match i_max s with Some v => Fin (key v, i_include_max s) | None => PosInf end)
                (match i_max x with Some v => Fin (key v, i_include_max x) | None => PosInf end)).
  { destruct (i_max x) as [m|], (i_max s) as [n|].
    - rewrite cut_le_iff, (S n m). intuition.
    - split; [tauto|]. intros H. exfalso. apply H. reflexivity.
    - split; intros; [apply cpos_ge|exact I].
    - split; intros; [apply cpos_ge|exact I]. }
  now rewrite A, B.
Qed.

Lemma unchanged_keeps a b : difference_unchanged a b <-> difference_keeps a b.
Proof.
  destruct a as [|[v|? ? ? ?]|xs], b as [|j|ys]; cbn [difference_unchanged difference_keeps]; try reflexivity.
  rewrite Exists_exists. split; intros (x & Ix & H); exists x; split; auto; now apply covers_cut.
Qed.

(** ** Operations *)

Lemma contains_member a v : canon a -> contains a v = true <-> dset a (at_version v).
Proof. apply contains_iff. Qed.

Lemma member a v : canon a -> in_set a v <-> dset a (at_version v).
Proof. intros C. rewrite <- in_set_contains. now apply contains_iff. Qed.

Lemma intersection_versions a b : canonical a -> canonical b ->
  exists r, intersection a b = Ok r /\ canonical r
    /\ forall v, contains r v = true <-> in_set a v /\ in_set b v.
Proof.
  rewrite !canonical_canon. intros Ca Cb. destruct (intersection_spec a b Ca Cb) as (r & E & C & D).
  exists r. split; auto. split; [now apply canonical_canon|].
  intros v. rewrite contains_iff, !member by assumption. apply D.
Qed.

Lemma union_versions a b : canonical a -> canonical b ->
  (~ union_clash a b -> exists r, union a b = Ok r /\ canonical r
    /\ forall v, contains r v = true <-> in_set a v \/ in_set b v)
  /\ (union_clash a b -> union a b = Err RecursionError).
Proof.
  rewrite !canonical_canon. intros Ca Cb. rewrite union_clash_stuck by assumption.
  destruct (union_spec a b Ca Cb) as [U S]. split; auto. intros N.
  destruct (U N) as (r & E & C & D). exists r. split; auto. split; [now apply canonical_canon|].
  intros v. rewrite contains_iff, !member by assumption. apply D.
Qed.

Lemma difference_versions a b : canonical a -> canonical b ->
  (~ difference_unchanged a b -> ~ difference_lost a b -> exists r, difference a b = Ok r /\ canonical r
    /\ forall v, contains r v = true <-> in_set a v /\ ~ in_set b v)
  /\ (difference_unchanged a b -> difference a b = Ok a)
  /\ (difference_lost a b -> difference a b = Ok Empty).
Proof.
  rewrite !canonical_canon. intros Ca Cb. rewrite unchanged_keeps.
  destruct (difference_spec a b Ca Cb) as (D1 & D2 & D3). split; [|split; auto].
  intros N1 N2. destruct (D1 N1 N2) as (r & E & C & D). exists r. split; auto. split; [now apply canonical_canon|].
  intros v. rewrite contains_iff, !member by assumption. apply D.
Qed.

Lemma complement_versions a : canonical a ->
  exists r, complement a = Ok r /\ canonical r
    /\ (forall v, contains r v = true <-> ~ in_set a v)
    /\ exists b, complement r = Ok b /\ set_eqb b a = true.
Proof.
  rewrite canonical_canon. intros Ca. destruct (complement_spec a Ca) as (r & E & C & D).
  exists r. split; auto. split; [now apply canonical_canon|]. split.
  - intros v. rewrite contains_iff, member, D by assumption. split; [tauto|]. intros H. split; auto. apply cpos_gt.
  - destruct (complement_spec r C) as (b & E' & C' & D'). exists b. split; auto.
    apply set_eqb_iff; auto. intros c. rewrite D', D. destruct (dset_dec a c); [|tauto].
    assert (clt c PosInf); [|tauto]. destruct H as (x & Ix & X1 & X2). pose proof (cpos_ge (hi x)). corder.
Qed.

Lemma symmetric_difference_versions a b : canonical a -> canonical b ->
  match a with
  | Empty => symmetric_difference a b = Ok b
  | Union _ => symmetric_difference a b = Err AttributeError
  | Item _ =>
      ~ union_clash a b ->
      exists u n, union a b = Ok u /\ intersection a b = Ok n
        /\ (~ (n = Empty /\ exists items, u = Union items) ->
              exists r, symmetric_difference a b = Ok r /\ canonical r
                /\ forall v, contains r v = true <-> in_set a v /\ ~ in_set b v \/ ~ in_set a v /\ in_set b v)
        /\ (n = Empty -> (exists items, u = Union items) -> symmetric_difference a b = Ok Empty)
  end.
Proof.
  rewrite !canonical_canon. intros Ca Cb. destruct a as [|i|xs]; [reflexivity| |reflexivity].
  intros NS. rewrite union_clash_stuck in NS by assumption.
  destruct (symmetric_difference_spec i b Ca Cb NS) as (u & n & EU & EN & CU & CN & S1 & S2).
  assert (LU : (2 <= List.length (extract u))%nat <-> exists items, u = Union items).
  { destruct u as [|j|us]; cbn.
    - split; [lia|intros (? & ?); discriminate].
    - split; [lia|intros (? & ?); discriminate].
    - split; [eauto|]. intros _. apply CU. }
  exists u, n. split; auto. split; auto. split.
  - intros N. destruct S1 as (r & E & C & D); [rewrite LU; exact N|].
    exists r. split; auto. split; [now apply canonical_canon|].
    intros v. rewrite contains_iff, !member by assumption. rewrite dset_item. apply D.
  - intros E1 E2. apply S2. rewrite LU. auto.
Qed.

Lemma includes_sound a b : canonical a -> canonical b -> includes a b = true ->
  forall v, in_set b v -> in_set a v.
Proof.
  rewrite !canonical_canon. intros Ca Cb H v. rewrite !member by assumption.
  now apply includes_spec.
Qed.

Lemma includes_worded a b : canonical a -> canonical b -> Forall worded (bounds a) -> Forall worded (bounds b) ->
  includes a b = true <-> forall v, worded v -> in_set b v -> in_set a v.
Proof.
  rewrite !canonical_canon. intros Ca Cb Wa Wb.
  rewrite (includes_good worded worded_exists next_epoch_worded worded_between a b Ca Cb (worded_good a Wa) (worded_good b Wb)).
  split; intros H v Wv; specialize (H v Wv); rewrite !in_set_contains in *; exact H.
Qed.

Lemma includes_written a b : canonical a -> canonical b -> Forall written (bounds a) -> Forall written (bounds b) ->
  includes a b = true <-> forall v, wf v -> in_set b v -> in_set a v.
Proof.
  rewrite !canonical_canon. intros Ca Cb Wa Wb.
  rewrite (includes_good wf wf_exists next_epoch_wf wf_between a b Ca Cb (written_good a Wa) (written_good b Wb)).
  split; intros H v Wv; specialize (H v Wv); rewrite !in_set_contains in *; exact H.
Qed.

Lemma intersects_intersection a b : canonical a -> canonical b ->
  intersects a b = true <-> exists r, intersection a b = Ok r /\ is_empty r = false.
Proof.
  rewrite !canonical_canon. intros Ca Cb. rewrite (intersects_spec a b Ca Cb).
  destruct (intersection_spec a b Ca Cb) as (r & E & C & D). split.
  - intros (c & H). exists r. split; auto. destruct (is_empty r) eqn:X; auto.
    apply is_empty_canon in X; auto. subst r. apply D in H. now apply dset_empty in H.
  - intros (r' & E' & N). rewrite E in E'. injection E' as <-.
    destruct (dset_lo r C) as (c & H); [intros ->; discriminate|]. exists c. now apply D.
Qed.

Lemma intersects_complete a b v : canonical a -> canonical b -> in_set a v -> in_set b v -> intersects a b = true.
Proof.
  rewrite !canonical_canon. intros Ca Cb. rewrite !member by assumption. intros H1 H2.
  apply intersects_spec; auto. eauto.
Qed.

Lemma intersects_worded a b : canonical a -> canonical b -> Forall worded (bounds a) -> Forall worded (bounds b) ->
  intersects a b = true <-> exists v, worded v /\ in_set a v /\ in_set b v.
Proof.
  rewrite !canonical_canon. intros Ca Cb Wa Wb.
  rewrite (intersects_good worded worded_exists next_epoch_worded worded_between a b Ca Cb (worded_good a Wa) (worded_good b Wb)).
  split; intros (v & H); exists v; rewrite !in_set_contains in *; exact H.
Qed.

Lemma intersects_written a b : canonical a -> canonical b -> Forall written (bounds a) -> Forall written (bounds b) ->
  intersects a b = true <-> exists v, wf v /\ in_set a v /\ in_set b v.
Proof.
  rewrite !canonical_canon. intros Ca Cb Wa Wb.
  rewrite (intersects_good wf wf_exists next_epoch_wf wf_between a b Ca Cb (written_good a Wa) (written_good b Wb)).
  split; intros (v & H); exists v; rewrite !in_set_contains in *; exact H.
Qed.

Lemma contains_eq_iff a b v : contains a v = contains b v <-> (in_set a v <-> in_set b v).
Proof.
  rewrite <- !in_set_contains. destruct (contains a v), (contains b v); intuition discriminate.
Qed.

Lemma equal_sound a b : canonical a -> canonical b -> set_eqb a b = true -> forall v, in_set a v <-> in_set b v.
Proof.
  rewrite !canonical_canon. intros Ca Cb H v. rewrite !member by assumption. now apply set_eqb_iff.
Qed.

Lemma equal_worded a b : canonical a -> canonical b -> Forall worded (bounds a) -> Forall worded (bounds b) ->
  set_eqb a b = true <-> forall v, worded v -> (in_set a v <-> in_set b v).
Proof.
  rewrite !canonical_canon. intros Ca Cb Wa Wb.
  rewrite (equal_good worded worded_exists next_epoch_worded worded_between a b Ca Cb (worded_good a Wa) (worded_good b Wb)).
  split; intros H v Wv; specialize (H v Wv); now apply contains_eq_iff.
Qed.

Lemma equal_written a b : canonical a -> canonical b -> Forall written (bounds a) -> Forall written (bounds b) ->
  set_eqb a b = true <-> forall v, wf v -> (in_set a v <-> in_set b v).
Proof.
  rewrite !canonical_canon. intros Ca Cb Wa Wb.
  rewrite (equal_good wf wf_exists next_epoch_wf wf_between a b Ca Cb (written_good a Wa) (written_good b Wb)).
  split; intros H v Wv; specialize (H v Wv); now apply contains_eq_iff.
Qed.

Lemma in_set_false a v : contains a v = false <-> ~ in_set a v.
Proof. rewrite <- in_set_contains. destruct (contains a v); intuition discriminate. Qed.

Lemma empty_worded a : canonical a -> Forall worded (bounds a) ->
  is_empty a = true <-> forall v, worded v -> ~ in_set a v.
Proof.
  rewrite !canonical_canon. intros Ca Wa.
  rewrite (empty_good worded worded_exists next_epoch_worded worded_between a Ca (worded_good a Wa)).
  split; intros H v Wv; specialize (H v Wv); now apply in_set_false.
Qed.
Lemma empty_written a : canonical a -> Forall written (bounds a) ->
  is_empty a = true <-> forall v, wf v -> ~ in_set a v.
Proof.
  rewrite !canonical_canon. intros Ca Wa.
  rewrite (empty_good wf wf_exists next_epoch_wf wf_between a Ca (written_good a Wa)).
  split; intros H v Wv; specialize (H v Wv); now apply in_set_false.
Qed.
Lemma universal_worded a : canonical a -> Forall worded (bounds a) ->
  is_universal a = true <-> forall v, worded v -> in_set a v.
Proof.
  rewrite !canonical_canon. intros Ca Wa.
  rewrite (universal_good worded worded_exists next_epoch_worded worded_between a Ca (worded_good a Wa)).
  split; intros H v Wv; specialize (H v Wv); now apply in_set_contains.
Qed.
Lemma universal_written a : canonical a -> Forall written (bounds a) ->
  is_universal a = true <-> forall v, wf v -> in_set a v.
Proof.
  rewrite !canonical_canon. intros Ca Wa.
  rewrite (universal_good wf wf_exists next_epoch_wf wf_between a Ca (written_good a Wa)).
  split; intros H v Wv; specialize (H v Wv); now apply in_set_contains.
Qed.
