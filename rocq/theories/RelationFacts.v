(** Relations between ranges, in terms of versions. *)

From Coq Require Import List ZArith NArith String Bool Lia.
From Verif Require Import Py Segments Version Regex Patterns VersionSets Orders Cuts SetItems SetChains SetMerge SetOps Spec
  OrderFacts Density SetVersions SetTheorems SetAlgebra Provenance RangeSpec.
Import ListNotations.
Open Scope Z_scope.

Local Opaque key.

Lemma from_min_cut i v : from_min i v <-> cle (lo i) (at_version v).
Proof.
  unfold from_min, above_min, lo, i_exclude_min, at_version. destruct (i_min i) as [m|].
  - rewrite cut_le_iff. destruct (i_include_min i); cbn; [rewrite v_le_iff|]; intuition discriminate.
  - split; intros; [apply cneg_le|exact I].
Qed.

Lemma to_max_cut i v : to_max i v <-> clt (at_version v) (hi i).
Proof.
  unfold to_max, below_max, hi, at_version. destruct (i_max i) as [m|].
  - rewrite cut_lt_iff. destruct (i_include_max i); [rewrite v_le_iff|]; intuition discriminate.
  - split; intros; [apply cpos_gt|exact I].
Qed.

Lemma in_item_cut i v : good_item i -> in_item i v <-> cle (lo i) (at_version v) /\ clt (at_version v) (hi i).
Proof.
  intros G. rewrite <- in_item_contains. apply item_contains_iff. now apply proper_valid, good_item_proper.
Qed.

Lemma lt_at v w : v_lt v w = true <-> clt (at_version v) (at_version w).
Proof. unfold at_version. rewrite cut_lt_iff. intuition discriminate. Qed.
Lemma le_at v w : v_le v w = true <-> cle (at_version v) (at_version w).
Proof. unfold at_version. rewrite cut_le_iff, v_le_iff. intuition. Qed.

(** [gap] for the versions in question, and where bounds come from. *)
Section Relations.
  Variable good ok : version -> Prop.
  Hypothesis gaps : forall L H, good_cut good L -> good_cut good H -> clt L H ->
    exists u, good u /\ cle L (at_version u) /\ clt (at_version u) H.
  Hypothesis oks : forall v, ok v -> good v /\ floor good v.

  Section Two.
    Variable s o : item.
    Hypothesis Gs : good_item s.
    Hypothesis Go : good_item o.
    Hypothesis Ws : Forall ok (item_bounds s).
    Hypothesis Wo : Forall ok (item_bounds o).

    Let Ps : proper s := proj1 (good_item_proper s) Gs.
    Let Po : proper o := proj1 (good_item_proper o) Go.

    Lemma ends_s : good_cut good (lo s) /\ good_cut good (hi s).
    Proof. exact (good_ends_of good ok s oks Ws). Qed.
    Lemma ends_o : good_cut good (lo o) /\ good_cut good (hi o).
    Proof. exact (good_ends_of good ok o oks Wo). Qed.

    Lemma lower_reaches : is_lower s o = true <-> exists v, good v /\ from_min s v /\ ~ from_min o v.
    Proof.
      rewrite is_lower_iff by assumption. split.
      - intros L. destruct (gaps _ _ (proj1 ends_s) (proj1 ends_o) L) as (u & Gu & U1 & U2).
        exists u. split; auto. rewrite !from_min_cut. split; auto. corder.
      - intros (v & _ & A & B). rewrite from_min_cut in A, B. corder.
    Qed.

    Lemma higher_reaches : is_higher s o = true <-> exists v, good v /\ to_max s v /\ ~ to_max o v.
    Proof.
      rewrite is_higher_iff by assumption. split.
      - intros L. destruct (gaps _ _ (proj2 ends_o) (proj2 ends_s) L) as (u & Gu & U1 & U2).
        exists u. split; auto. rewrite !to_max_cut. split; auto. corder.
      - intros (v & _ & A & B). rewrite to_max_cut in A, B. corder.
    Qed.

    Lemma some_s : exists u, good u /\ cle (lo s) (at_version u) /\ clt (at_version u) (hi s).
    Proof. apply gaps; [apply ends_s..|]. now apply proper_lt. Qed.
    Lemma some_o : exists u, good u /\ cle (lo o) (at_version u) /\ clt (at_version u) (hi o).
    Proof. apply gaps; [apply ends_o..|]. now apply proper_lt. Qed.

    Lemma strictly_lower_means : is_strictly_lower s o = true <->
      forall v w, good v -> good w -> in_item s v -> in_item o w -> v_lt v w = true.
    Proof.
      rewrite is_strictly_lower_iff by assumption. split.
      - intros L v w _ _. rewrite !in_item_cut, lt_at by assumption. intros [A B] [C D]. corder.
      - intros H. destruct (clt_cle_dec (lo o) (hi s)) as [C|C]; auto. exfalso.
        pose proof (proper_lt _ Ps) as Ls. pose proof (proper_lt _ Po) as Lo.
        destruct (clt_cle_dec (lo s) (lo o)) as [D|D].
        + (* o begins inside s *)
          destruct (clt_cle_dec (hi s) (hi o)) as [E|E].
          * destruct (gaps (lo o) (hi s)) as (u & Gu & U1 & U2); [apply ends_o|apply ends_s|auto|].
            assert (X : v_lt u u = true). { apply H; auto; apply in_item_cut; auto; split; auto; corder. }
            apply lt_at in X. eapply clt_irrefl. exact X.
          * destruct (gaps (lo o) (hi o)) as (u & Gu & U1 & U2); [apply ends_o|apply ends_o|auto|].
            assert (X : v_lt u u = true). { apply H; auto; apply in_item_cut; auto; split; auto; corder. }
            apply lt_at in X. eapply clt_irrefl. exact X.
        + destruct (clt_cle_dec (lo s) (hi o)) as [E|E].
          * destruct (clt_cle_dec (hi s) (hi o)) as [F|F].
            -- destruct some_s as (u & Gu & U1 & U2).
               assert (X : v_lt u u = true). { apply H; auto; apply in_item_cut; auto; split; auto; corder. }
               apply lt_at in X. eapply clt_irrefl. exact X.
            -- destruct (gaps (lo s) (hi o)) as (u & Gu & U1 & U2); [apply ends_s|apply ends_o|auto|].
               assert (X : v_lt u u = true). { apply H; auto; apply in_item_cut; auto; split; auto; corder. }
               apply lt_at in X. eapply clt_irrefl. exact X.
          * destruct some_s as (u & Gu & U1 & U2). destruct some_o as (w & Gw & W1 & W2).
            assert (X : v_lt u w = true). { apply H; auto; apply in_item_cut; auto. }
            apply lt_at in X. corder.
    Qed.

    Lemma left_adjacent_means : is_left_adjacent s o = true <->
      forall v, good v -> (to_max s v <-> ~ from_min o v).
    Proof.
      rewrite is_left_adjacent_cut, is_eq_ceq by now apply proper_valid. split.
      - intros E v _. rewrite to_max_cut, from_min_cut, E. symmetry. apply not_cle.
      - intros H. destruct (clt_total (hi s) (lo o)) as [C|[C|C]]; auto; exfalso.
        + destruct (gaps (hi s) (lo o)) as (u & Gu & U1 & U2); [apply ends_s|apply ends_o|auto|].
          specialize (H u Gu). rewrite to_max_cut, from_min_cut in H.
          assert (X : clt (at_version u) (hi s)) by (apply H; corder). corder.
        + destruct (gaps (lo o) (hi s)) as (u & Gu & U1 & U2); [apply ends_o|apply ends_s|auto|].
          specialize (H u Gu). rewrite to_max_cut, from_min_cut in H. apply H in U2. corder.
    Qed.

    Lemma apart_cut : apart good s o <-> cle (hi s) (lo o) \/ cle (hi o) (lo s).
    Proof.
      pose proof (proper_lt _ Ps) as Ls. pose proof (proper_lt _ Po) as Lo. split.
      - intros A. destruct (clt_cle_dec (lo o) (hi s)) as [C|C]; auto.
        destruct (clt_cle_dec (lo s) (hi o)) as [D|D]; auto. exfalso.
        destruct (gaps (cmax (lo s) (lo o)) (cmin (hi s) (hi o))) as (u & Gu & U1 & U2).
        + destruct (cmax_spec (lo s) (lo o)) as [[_ E]|[_ E]]; rewrite E; [apply ends_o|apply ends_s].
        + destruct (cmin_spec (hi s) (hi o)) as [[_ E]|[_ E]]; rewrite E; [apply ends_s|apply ends_o].
        + cminmax; corder.
        + apply (A u Gu). rewrite !in_item_cut by assumption. split; split; cminmax; corder.
      - intros [C|C] v _; rewrite !in_item_cut by assumption; intros [[A B] [D E]]; corder.
    Qed.

    Lemma adjacent_means : is_adjacent s o = true <-> apart good s o /\ gapless good s o.
    Proof.
      pose proof (proper_lt _ Ps) as Ls. pose proof (proper_lt _ Po) as Lo.
      rewrite is_adjacent_iff, apart_cut by assumption. split.
      - intros E. split; [destruct E as [E|E]; [left; rewrite E|right; rewrite E]; apply cle_refl|].
        intros u v w _ _ _. rewrite !in_item_cut, !le_at by assumption. intros A B C D.
        destruct E as [E|E].
        + destruct (clt_cle_dec (at_version v) (hi s)) as [X|X]; [left|right]; split; auto; destruct A as [[A A']|[A A']], B as [[B B']|[B B']]; corder.
        + destruct (clt_cle_dec (at_version v) (hi o)) as [X|X]; [right|left]; split; auto; destruct A as [[A A']|[A A']], B as [[B B']|[B B']]; corder.
      - intros [A G]. destruct some_s as (u & Gu & U1 & U2). destruct some_o as (w & Gw & W1 & W2).
        destruct A as [A|A]; [left|right].
        + destruct (clt_cle_dec (hi s) (lo o)) as [C|C]; [exfalso|corder].
          destruct (gaps (hi s) (lo o)) as (x & Gx & X1 & X2); [apply ends_s|apply ends_o|auto|].
          destruct (G u x w) as [K|K]; auto; rewrite ?in_item_cut, ?le_at in * by assumption; try corder; auto.
        + destruct (clt_cle_dec (hi o) (lo s)) as [C|C]; [exfalso|corder].
          destruct (gaps (hi o) (lo s)) as (x & Gx & X1 & X2); [apply ends_o|apply ends_s|auto|].
          destruct (G w x u) as [K|K]; auto; rewrite ?in_item_cut, ?le_at in * by assumption; try corder; auto.
    Qed.
  End Two.
End Relations.

(** ** For versions with words in their local part, and for those that can be written *)

Definition gaps_worded := gap worded worded_exists next_epoch_worded worded_between.
Definition gaps_written := gap wf wf_exists next_epoch_wf wf_between.

Lemma ok_worded v : worded v -> worded v /\ floor worded v.
Proof.
  intros W. split; auto. exists (set_epoch v (v_epoch v - 1)). split; [exact W|]. apply epoch_lt. cbn. lia.
Qed.

Lemma ok_written v : written v -> wf v /\ floor wf v.
Proof.
  intros [W N]. split; auto. exists lowest. split; [apply lowest_wf|]. destruct (lowest_le v W) as [L|L]; auto. congruence.
Qed.

Lemma three_ways s o : good_item s -> good_item o ->
  (is_strictly_lower s o = true /\ is_strictly_lower o s = false /\ intersects_range s o = false)
  \/ (is_strictly_lower s o = false /\ is_strictly_lower o s = true /\ intersects_range s o = false)
  \/ (is_strictly_lower s o = false /\ is_strictly_lower o s = false /\ intersects_range s o = true).
Proof.
  intros Gs Go. apply good_item_proper in Gs, Go. unfold intersects_range.
  pose proof (proper_lt _ Gs). pose proof (proper_lt _ Go).
  assert (A := is_strictly_lower_iff s o). assert (B := is_strictly_lower_iff o s). assert (C := is_strictly_higher_iff o s).
  destruct (is_strictly_lower s o), (is_strictly_lower o s), (is_strictly_higher o s); cbn [negb andb]; intuition (try discriminate); exfalso; corder.
Qed.

Lemma higher_lower s o : good_item s -> good_item o -> is_strictly_higher s o = is_strictly_lower o s.
Proof.
  intros Gs Go. apply good_item_proper in Gs, Go. apply eq_true_iff_eq. now rewrite is_strictly_higher_iff, is_strictly_lower_iff.
Qed.

(** ** One range *)

Section Contiguous.
  Variable good ok : version -> Prop.
  Hypothesis gaps : forall L H, good_cut good L -> good_cut good H -> clt L H ->
    exists u, good u /\ cle L (at_version u) /\ clt (at_version u) H.
  Hypothesis oks : forall v, ok v -> good v /\ floor good v.

  Lemma single_contiguous a : canonical a -> Forall ok (bounds a) ->
    (exists i, a = Item i) <-> (exists v, good v /\ in_set a v) /\ contiguous good a.
  Proof.
    intros C B. split.
    - intros (i & ->). cbn [canonical bounds] in *. split.
      + destruct (some_s good ok gaps oks i C B) as (u & Gu & U1 & U2). exists u. split; auto. cbn [in_set]. apply in_item_cut; auto.
      + intros u v w _ _ _. cbn [in_set]. rewrite !in_item_cut, !le_at by assumption. intros [U1 U2] [W1 W2] L1 L2. split; corder.
    - intros ((v & Gv & V) & G). destruct a as [|i|items]; [destruct V|eauto|]. exfalso.
      apply canonical_canon in C. destruct C as [C L]. destruct items as [|x [|y items]]; [cbn in L; lia..|]. clear L.
      assert (E : good_set good (Union (x :: y :: items))) by now apply (good_set_of good ok). unfold good_set in E. cbn [extract] in E.
      apply Forall_cons_iff in E as [[E1 E2] E]. apply Forall_cons_iff in E as [[E3 E4] _].
      cbn [chain chain_from] in C. destruct C as (Px & Py & Sep & C).
      pose proof (proper_lt _ Px) as Lx. pose proof (proper_lt _ Py) as Ly.
      destruct (gaps (lo x) (hi x)) as (u & Gu & U1 & U2); auto.
      destruct (gaps (hi x) (lo y)) as (m & Gm & M1 & M2); auto.
      destruct (gaps (lo y) (hi y)) as (w & Gw & W1 & W2); auto.
      assert (K : in_set (Union (x :: y :: items)) m).
      { apply (G u m w); auto.
        - left. apply in_item_cut; [now apply good_item_proper|auto].
        - right. left. apply in_item_cut; [now apply good_item_proper|auto].
        - apply le_at. corder.
        - apply le_at. corder. }
      apply in_set_contains, contains_iff in K; [|split; [cbn; auto|cbn; lia]]. 
      destruct K as (z & Iz & Z1 & Z2). cbn [extract] in Iz. destruct Iz as [<-|[<-|Iz]]; [corder|corder|].
      pose proof (chain_from_lb _ _ _ C Iz). corder.
  Qed.

  Lemma union_single s o r : good_item s -> good_item o -> Forall ok (item_bounds s) -> Forall ok (item_bounds o) ->
    union (Item s) (Item o) = Ok r -> (exists i, r = Item i) <-> gapless good s o.
  Proof.
    intros Gs Go Bs Bo E. destruct (union_versions (Item s) (Item o) Gs Go) as [U S].
    assert (N : ~ union_clash (Item s) (Item o)) by (intros X; apply S in X; congruence).
    destruct (U N) as (r' & E' & C & D). rewrite E in E'. injection E' as <-.
    assert (B : Forall ok (bounds r)).
    { apply Forall_forall. intros v I. apply (union_bounds _ _ _ E) in I. apply in_app_or in I. rewrite Forall_forall in Bs, Bo. destruct I; auto. }
    rewrite (single_contiguous r C B).
    assert (M : forall v, in_set r v <-> in_item s v \/ in_item o v) by (intros v; rewrite <- in_set_contains; apply D).
    split.
    - intros [_ G] u v w Gu Gv Gw. rewrite <- !M. now apply G.
    - intros G. split.
      + destruct (some_s good ok gaps oks s Gs Bs) as (u & Gu & U1 & U2). exists u. split; auto. apply M. left. apply in_item_cut; [exact Gs|split; assumption].
      + intros u v w Gu Gv Gw. rewrite !M. now apply G.
  Qed.

  Lemma gapless_iff s o : good_item s -> good_item o -> Forall ok (item_bounds s) -> Forall ok (item_bounds o) ->
    gapless good s o <-> intersects (Item s) (Item o) = true \/ is_adjacent s o = true.
  Proof.
    intros Gs Go Bs Bo. rewrite (adjacent_means good ok gaps oks s o Gs Go Bs Bo).
    assert (I : intersects (Item s) (Item o) = true <-> ~ apart good s o).
    { rewrite (apart_cut good ok gaps oks s o Gs Go Bs Bo). rewrite intersects_spec by now apply good_item_proper.
      apply good_item_proper in Gs, Go. pose proof (proper_lt _ Gs). pose proof (proper_lt _ Go). setoid_rewrite dset_item. unfold den. split.
      - intros (c & [A1 A2] & B1 & B2) [K|K]; corder.
      - intros N. destruct (clt_cle_dec (lo o) (hi s)) as [C|C]; [|tauto]. destruct (clt_cle_dec (lo s) (hi o)) as [D|D]; [|tauto].
        destruct (clt_cle_dec (lo s) (lo o)); [exists (lo o)|exists (lo s)]; repeat split; try apply cle_refl; auto; corder. }
    rewrite I. split.
    - intros G. destruct (clt_cle_dec (lo o) (hi s)) as [C|C]; [destruct (clt_cle_dec (lo s) (hi o)) as [D|D]|].
      + left. rewrite (apart_cut good ok gaps oks s o Gs Go Bs Bo). intros [K|K]; corder.
      + right. split; auto. rewrite (apart_cut good ok gaps oks s o Gs Go Bs Bo). auto.
      + right. split; auto. rewrite (apart_cut good ok gaps oks s o Gs Go Bs Bo). auto.
    - intros [N|[_ G]]; auto. intros u v w _ _ _. rewrite !in_item_cut, !le_at by assumption.
      rewrite (apart_cut good ok gaps oks s o Gs Go Bs Bo) in N. intros A B L1 L2.
      assert (C : clt (lo o) (hi s)) by (destruct (clt_cle_dec (lo o) (hi s)); tauto).
      assert (D : clt (lo s) (hi o)) by (destruct (clt_cle_dec (lo s) (hi o)); tauto).
      destruct (clt_cle_dec (at_version v) (lo s)), (clt_cle_dec (at_version v) (lo o)), (clt_cle_dec (at_version v) (hi s)), (clt_cle_dec (at_version v) (hi o));
        first [left; split; assumption | right; split; assumption | exfalso; destruct A as [[A A']|[A A']], B as [[B B']|[B B']]; corder].
  Qed.
End Contiguous.

(** ** Everything but a version *)

Lemma excludes items : canonical (Union items) ->
  exists r, exclude_version items = Ok r
    /\ (forall u, r = Some u -> forall v, in_set (Union items) v <-> v_eq u v = false)
    /\ (Forall worded (bounds (Union items)) -> (exists u, worded u /\ forall v, worded v -> (in_set (Union items) v <-> v_eq u v = false)) -> r <> None).
Proof.
  intros C. destruct (complement_versions _ C) as (r & E & Cr & D & _). unfold exclude_version. rewrite E. cbn [bind].
  assert (B := complement_bounds _ _ E).
  assert (N : forall v, in_set (Union items) v <-> ~ in_set r v).
  { intros v. rewrite <- (in_set_contains r), D. rewrite <- in_set_contains. destruct (contains (Union items) v); intuition. }
  exists (match r with Item (Point v) => Some v | _ => None end). split; [now destruct r as [|[]|]|]. split.
  - intros u U v. destruct r as [|[w|]|]; try discriminate. injection U as ->. rewrite N. cbn. destruct (v_eq u v); intuition discriminate.
  - intros W (u & Wu & H) U.
    assert (Q : set_eqb r (Item (Point u)) = true).
    { apply equal_worded; auto; [exact I| |now constructor|].
      - apply Forall_forall. intros v Iv. apply B in Iv. rewrite Forall_forall in W. now apply W.
      - intros v Wv. specialize (H v Wv). rewrite N in H. rewrite <- in_set_contains in *. cbn. 
        destruct (contains r v), (v_eq u v); intuition discriminate. }
    destruct r as [|j|]; cbn [set_eqb] in Q; try discriminate. destruct j as [w|min max imin imax]; [discriminate|].
    apply canonical_canon in Cr. apply item_eqb_iff in Q; [|exact (proper_valid _ Cr)|exact I].
    destruct Q as [Q1 Q2]. apply (inside_range (Point u) (Range min max imin imax)); try exact I; try exact Cr; rewrite ?Q1, ?Q2; apply cle_refl.
Qed.

Lemma written_relations s o : good_item s -> good_item o -> Forall written (item_bounds s) -> Forall written (item_bounds o) ->
  (is_lower s o = true <-> exists v, wf v /\ from_min s v /\ ~ from_min o v)
  /\ (is_higher s o = true <-> exists v, wf v /\ to_max s v /\ ~ to_max o v)
  /\ (is_strictly_lower s o = true <-> forall v w, wf v -> wf w -> in_item s v -> in_item o w -> v_lt v w = true)
  /\ (is_left_adjacent s o = true <-> forall v, wf v -> (to_max s v <-> ~ from_min o v))
  /\ (is_adjacent s o = true <-> apart wf s o /\ gapless wf s o).
Proof.
  intros Gs Go Bs Bo.
  exact (conj (lower_reaches wf written gaps_written ok_written s o Gs Go Bs Bo)
        (conj (higher_reaches wf written gaps_written ok_written s o Gs Go Bs Bo)
        (conj (strictly_lower_means wf written gaps_written ok_written s o Gs Go Bs Bo)
        (conj (left_adjacent_means wf written gaps_written ok_written s o Gs Go Bs Bo)
              (adjacent_means wf written gaps_written ok_written s o Gs Go Bs Bo))))).
Qed.
