(** What open, closed, bounded and unbounded say about the members of a range. *)

From Coq Require Import List ZArith NArith String Bool Lia.
From Verif Require Import Py Segments Version Regex Patterns VersionSets Orders Cuts SetItems SetChains SetMerge SetOps Spec
  OrderFacts Density SetVersions SetTheorems SetAlgebra Provenance RangeSpec RelationFacts.
Import ListNotations.
Open Scope Z_scope.

Local Opaque key.

Lemma min_bound i m : i_min i = Some m -> In m (item_bounds i).
Proof. destruct i as [p|a b c d]; cbn; intros E; [left; congruence|]. rewrite E. now left. Qed.
Lemma max_bound i m : i_max i = Some m -> In m (item_bounds i).
Proof. destruct i as [p|a b c d]; cbn; intros E; [left; congruence|]. rewrite E. apply in_or_app. right. now left. Qed.
Lemma closed_min i : good_item i -> i_include_min i = true -> i_min i <> None.
Proof. destruct i as [p|a b c d]; cbn; [discriminate|]. intros (H & _) C E. rewrite (H E) in C. discriminate. Qed.
Lemma closed_max i : good_item i -> i_include_max i = true -> i_max i <> None.
Proof. destruct i as [p|a b c d]; cbn; [discriminate|]. intros (_ & H & _) C E. rewrite (H E) in C. discriminate. Qed.

Section Shape.
  Variable good ok : version -> Prop.
  Hypothesis gaps : forall L H, good_cut good L -> good_cut good H -> clt L H ->
    exists u, good u /\ cle L (at_version u) /\ clt (at_version u) H.
  Hypothesis oks : forall v, ok v -> good v /\ floor good v.

  Variable i : item.
  Hypothesis G : good_item i.
  Hypothesis W : Forall ok (item_bounds i).

  Let P : proper i := proj1 (good_item_proper i) G.

  Lemma cut_after v : good v -> good_cut good (Fin (key v, true)).
  Proof. intros H. exists v. split; auto. split; auto. discriminate. Qed.
  Lemma cut_at v : good v -> floor good v -> good_cut good (at_version v).
  Proof. intros H F. exists v. auto. Qed.

  Lemma after_lt v c : clt (at_version v) c -> c <> Fin (key v, true) -> clt (Fin (key v, true)) c.
  Proof.
    intros L N. apply cut_step', cle_lt_eq in L as [L|L]; [exact L|congruence].
  Qed.

  Lemma bound_min m : i_min i = Some m -> ok m.
  Proof.
    intros E. apply (proj1 (Forall_forall _ _) W). now apply min_bound.
  Qed.
  Lemma bound_max m : i_max i = Some m -> ok m.
  Proof.
    intros E. apply (proj1 (Forall_forall _ _) W). now apply max_bound.
  Qed.

  Lemma member : exists u, good u /\ in_item i u.
  Proof.
    destruct (some_s good ok gaps oks i G W) as (u & A & B & C). exists u. split; auto. apply in_item_cut; auto.
  Qed.

  Lemma left_closed_least : is_left_closed i = true -> exists v, least good i v.
  Proof.
    unfold is_left_closed. intros C. destruct (i_min i) as [m|] eqn:E.
    - exists m. assert (L : lo i = at_version m). { unfold lo, at_version, i_exclude_min. now rewrite E, C. }
      split; [now apply oks, bound_min|]. split.
      + apply in_item_cut; auto. rewrite <- L. split; [apply cle_refl|now apply proper_lt].
      + intros w _ H. apply in_item_cut in H as [H _]; auto. rewrite L in H. now apply le_at.
    - now apply closed_min in C.
  Qed.

  Lemma right_closed_greatest : is_right_closed i = true -> exists v, greatest good i v.
  Proof.
    unfold is_right_closed. intros C. destruct (i_max i) as [m|] eqn:E.
    - exists m. assert (L : hi i = Fin (key m, true)). { unfold hi. now rewrite E, C. }
      assert (K : forall w, clt (at_version w) (hi i) -> v_le w m = true).
      { intros w H. unfold hi, at_version in H. rewrite E in H. apply cut_lt_iff in H. rewrite C in H. apply v_le_iff. tauto. }
      split; [now apply oks, bound_max|]. split.
      + apply in_item_cut; auto. rewrite L. split; [|apply cut_step, cle_refl].
        pose proof (proper_lt _ P) as Q. rewrite L in Q. destruct (clt_cle_dec (at_version m) (lo i)) as [X|X]; [|exact X].
        exfalso. apply after_lt in X; [corder|]. intros Y. rewrite Y in Q. now apply clt_irrefl in Q.
      + intros w _ H. apply in_item_cut in H as [_ H]; auto.
    - now apply closed_max in C.
  Qed.

  Lemma greatest_right_closed v : greatest good i v -> is_right_closed i = true.
  Proof.
    intros (Gv & Iv & H). destruct (is_right_closed i) eqn:E; auto. exfalso. unfold is_right_closed in E.
    apply in_item_cut in Iv as [A B]; auto.
    assert (N : hi i <> Fin (key v, true)).
    { unfold hi. destruct (i_max i); [|discriminate]. rewrite E. congruence. }
    pose proof (after_lt v (hi i) B N) as L.
    destruct (gaps (Fin (key v, true)) (hi i)) as (u & Gu & U1 & U2); [now apply cut_after|apply (ends_s good ok oks i W)|exact L|].
    assert (X : clt (at_version v) (at_version u)).
    { destruct (clt_cle_dec (at_version v) (at_version u)) as [X|X]; auto. exfalso.
      assert (Y : clt (at_version v) (Fin (key v, true))) by (apply cut_step, cle_refl). corder. }
    assert (Y : v_le u v = true). { apply H; auto. apply in_item_cut; auto. split; auto. corder. }
    apply le_at in Y. corder.
  Qed.

  Hypothesis all_floor : forall v, good v -> floor good v.

  Lemma least_left_closed v : least good i v -> is_left_closed i = true.
  Proof.
    intros (Gv & Iv & H). destruct (is_left_closed i) eqn:E; auto. exfalso. unfold is_left_closed in E.
    apply in_item_cut in Iv as [A B]; auto.
    assert (L : clt (lo i) (at_version v)).
    { destruct (clt_total (lo i) (at_version v)) as [X|[X|X]]; auto; [|corder]. exfalso.
      unfold lo, i_exclude_min, at_version in X. rewrite E in X. destruct (i_min i); [|discriminate]. cbn [negb] in X. congruence. }
    destruct (gaps (lo i) (at_version v)) as (u & Gu & U1 & U2); [apply (ends_s good ok oks i W)|now apply cut_at; auto|exact L|].
    assert (Y : v_le v u = true). { apply H; auto. apply in_item_cut; auto. split; auto. corder. }
    apply le_at in Y. corder.
  Qed.

  Lemma left_unbounded_downward : is_left_unbounded i = true <-> downward good i.
  Proof.
    unfold is_left_unbounded. split.
    - destruct (i_min i) eqn:E; [discriminate|]. intros _ v w Gv Gw Iw L. apply in_item_cut in Iw as [A B]; auto. apply in_item_cut; auto.
      apply le_at in L. split; [|corder]. unfold lo. rewrite E. apply cneg_le.
    - intros D. destruct (i_min i) as [m|] eqn:E; auto. exfalso. destruct member as (u & Gu & Iu).
      destruct (all_floor m (proj1 (oks m (bound_min m E)))) as (x & Gx & Lx).
      assert (M : cle (at_version m) (lo i)).
      { unfold lo, at_version. rewrite E. destruct (i_exclude_min i); [|apply cle_refl]. apply clt_le, cut_step, cle_refl. }
      apply lt_at in Lx. pose proof Iu as Iu'. apply in_item_cut in Iu' as [A B]; auto.
      assert (X : in_item i x). { apply (D x u); auto. apply le_at. corder. }
      apply in_item_cut in X as [X _]; auto. corder.
  Qed.

  Hypothesis all_above : forall v, good v -> exists u, good u /\ v_lt v u = true.

  Lemma right_unbounded_upward : is_right_unbounded i = true <-> upward good i.
  Proof.
    unfold is_right_unbounded. split.
    - destruct (i_max i) eqn:E; [discriminate|]. intros _ v w Gv Gw Iv L. apply in_item_cut in Iv as [A B]; auto. apply in_item_cut; auto.
      apply le_at in L. split; [corder|]. unfold hi. rewrite E. apply cpos_gt.
    - intros D. destruct (i_max i) as [m|] eqn:E; auto. exfalso. destruct member as (u & Gu & Iu).
      destruct (all_above m (proj1 (oks m (bound_max m E)))) as (x & Gx & Lx).
      apply in_item_cut in Iu as Iu'; auto. destruct Iu' as [A B].
      assert (K : forall w, clt (at_version w) (hi i) -> v_le w m = true).
      { intros w H. unfold hi, at_version in H. rewrite E in H. apply cut_lt_iff in H. apply v_le_iff. tauto. }
      pose proof (K u B) as Lu. apply le_at in Lu. apply lt_at in Lx.
      assert (X : in_item i x). { apply (D u x); auto. apply le_at. corder. }
      apply in_item_cut in X as [_ X]; auto. apply K, le_at in X. corder.
  Qed.
End Shape.

Lemma worded_floor v : worded v -> floor worded v.
Proof. intros W. apply ok_worded; auto. Qed.

(** ** The predicates *)

Section Worded.
  Variable i : item.
  Hypothesis G : good_item i.
  Hypothesis W : Forall worded (item_bounds i).

  Theorem left_closed_means : is_left_closed i = true <-> exists v, least worded i v.
  Proof.
    split; [exact (left_closed_least worded worded ok_worded i G W)|]. intros (v & H).
    exact (least_left_closed worded worded gaps_worded ok_worded i G W worded_floor v H).
  Qed.
  Theorem right_closed_means : is_right_closed i = true <-> exists v, greatest worded i v.
  Proof.
    split; [exact (right_closed_greatest worded worded ok_worded i G W)|]. intros (v & H).
    exact (greatest_right_closed worded worded gaps_worded ok_worded i G W v H).
  Qed.
  Theorem left_unbounded_means : is_left_unbounded i = true <-> downward worded i.
  Proof. exact (left_unbounded_downward worded worded gaps_worded ok_worded i G W worded_floor). Qed.
  Theorem right_unbounded_means : is_right_unbounded i = true <-> upward worded i.
  Proof. exact (right_unbounded_upward worded worded gaps_worded ok_worded i G W next_epoch_worded). Qed.

  Theorem shape :
    (is_left_closed i = true <-> exists v, least worded i v) /\ (is_right_closed i = true <-> exists v, greatest worded i v)
    /\ (is_closed i = true <-> (exists v, least worded i v) /\ exists v, greatest worded i v)
    /\ (is_left_open i = true <-> ~ exists v, least worded i v) /\ (is_right_open i = true <-> ~ exists v, greatest worded i v)
    /\ (is_open i = true <-> (~ exists v, least worded i v) /\ ~ exists v, greatest worded i v).
  Proof.
    pose proof left_closed_means as A. pose proof right_closed_means as B.
    unfold is_closed, is_open, is_left_open, is_right_open, i_exclude_min, i_exclude_max.
    change (i_include_min i) with (is_left_closed i). change (i_include_max i) with (is_right_closed i).
    rewrite !andb_true_iff, !negb_true_iff, <- A, <- B. destruct (is_left_closed i), (is_right_closed i); intuition congruence.
  Qed.

  Theorem bounded :
    (is_left_unbounded i = true <-> downward worded i) /\ (is_right_unbounded i = true <-> upward worded i)
    /\ (is_unbounded i = true <-> downward worded i /\ upward worded i)
    /\ (is_left_bounded i = true <-> ~ downward worded i) /\ (is_right_bounded i = true <-> ~ upward worded i)
    /\ (is_bounded i = true <-> ~ downward worded i /\ ~ upward worded i).
  Proof.
    pose proof left_unbounded_means as A. pose proof right_unbounded_means as B.
    assert (C : is_left_bounded i = negb (is_left_unbounded i)) by (unfold is_left_bounded, is_left_unbounded; now destruct (i_min i)).
    assert (D : is_right_bounded i = negb (is_right_unbounded i)) by (unfold is_right_bounded, is_right_unbounded; now destruct (i_max i)).
    unfold is_bounded, is_unbounded. rewrite C, D, !andb_true_iff, !negb_true_iff, <- A, <- B.
    destruct (is_left_unbounded i), (is_right_unbounded i); intuition congruence.
  Qed.
End Worded.

(** Any range the constructor accepts, with equal bounds too. *)
Theorem empty_or_point i : made i -> Forall worded (item_bounds i) ->
  is_empty_or_point i = true <-> forall u v, worded u -> worded v -> in_item i u -> in_item i v -> v_eq u v = true.
Proof.
  intros M W. split.
  - intros E u v _ _ U V. destruct i as [p|a b c d].
    + cbn in U, V. rewrite eq_key in *. congruence.
    + unfold is_empty_or_point, comparable_min, comparable_max in E. cbn in E. destruct a as [a|], b as [b|]; try discriminate. cbn in E, U, V.
      assert (X : v_eq a b = true) by exact E. apply eq_key in X. apply eq_key.
      destruct U as [U1 U2], V as [V1 V2].
      assert (K : forall w, (if c then v_le a w = true else v_lt a w = true) -> (if d then v_le w b = true else v_lt w b = true) -> key w = key b).
      { intros w A B. assert (A' : v_le a w = true) by (destruct c; auto; apply v_le_iff; auto).
        assert (B' : v_le w b = true) by (destruct d; auto; apply v_le_iff; auto).
        apply le_at in A', B'. unfold at_version in A', B'. rewrite X in A'.
        assert (Y : Fin (key w, false) = Fin (key b, false)) by corder. congruence. }
      rewrite (K u U1 U2), (K v V1 V2). reflexivity.
  - intros H. destruct (is_empty_or_point i) eqn:E; auto. exfalso.
    assert (G : good_item i).
    { destruct i as [p|a b c d]; [exact I|]. cbn in M. unfold range_new in M.
      destruct (match a with None => c | _ => false end) eqn:A; [discriminate|].
      destruct (match b with None => d | _ => false end) eqn:B; [discriminate|].
      destruct (is_gt (b_cmp (lower_bound a) (upper_bound b))) eqn:C; [discriminate|].
      split; [intros ->; exact A|]. split; [intros ->; exact B|]. destruct a as [a|], b as [b|]; auto.
      unfold is_empty_or_point, comparable_min, comparable_max in E. cbn in E, C. unfold v_lt.
      destruct (v_cmp a b); [discriminate|reflexivity|discriminate]. }
    assert (P : proper i) by now apply good_item_proper.
    destruct i as [p|a b c d].
    { unfold is_empty_or_point, comparable_min, comparable_max in E. cbn in E. unfold v_cmp in E. rewrite (cmp_refl lawful_key) in E. discriminate. }
    destruct (some_s worded worded gaps_worded ok_worded _ G W) as (u & Gu & U1 & U2).
    assert (N : exists w, worded w /\ in_item (Range a b c d) w /\ key u <> key w).
    { destruct (clt_cle_dec (Fin (key u, true)) (hi (Range a b c d))) as [X|X].
      - destruct (gaps_worded (Fin (key u, true)) (hi (Range a b c d))) as (w & Gw & W1 & W2); [now apply cut_after|apply (ends_s worded worded ok_worded _ W)|exact X|].
        exists w. split; auto. assert (Y : clt (at_version u) (Fin (key u, true))) by (apply cut_step, cle_refl). split.
        + apply in_item_cut; auto. split; auto. corder.
        + intros K. unfold at_version in *. rewrite <- K in W1. corder.
      - assert (L : clt (lo (Range a b c d)) (at_version u)).
        { destruct (clt_total (lo (Range a b c d)) (at_version u)) as [L|[L|L]]; auto; [|corder]. exfalso.
          unfold lo, hi in L, X. cbn in L, X. destruct a as [a|]; [|discriminate]. destruct b as [b|]; [|destruct X; reflexivity].
          cbn in G. destruct G as (_ & _ & G). unfold at_version, i_exclude_min in L. cbn in L.
          assert (K : key a = key u /\ negb c = false) by (split; congruence). destruct K as [K _].
          apply lt_at in G. unfold at_version in G. rewrite K in G. cbn in X.
          assert (Z : clt (Fin (key u, true)) (Fin (key b, d))); [|corder].
          destruct (clt_cle_dec (Fin (key u, true)) (Fin (key b, false))) as [Q|Q].
          - destruct d; [eapply clt_trans; [exact Q|]; apply cut_step, cle_refl|exact Q].
          - exfalso. apply after_lt in G; [corder|congruence]. }
        destruct (gaps_worded (lo (Range a b c d)) (at_version u)) as (w & Gw & W1 & W2); [apply (ends_s worded worded ok_worded _ W)|apply cut_at; auto; now apply worded_floor|exact L|].
        exists w. split; auto. split.
        + apply in_item_cut; auto. split; auto. corder.
        + intros K. unfold at_version in *. rewrite K in W2. now apply clt_irrefl in W2. }
    destruct N as (w & Gw & Iw & K). apply K. apply eq_key. apply H; auto. apply in_item_cut; auto.
Qed.

Lemma closed_at a b v : v_eq a b = true -> (v_le a v = true /\ v_le v b = true <-> v_eq a v = true).
Proof.
  rewrite !eq_key, !le_at. unfold at_version. intros X. rewrite <- X. split.
  - intros [A B]. assert (Y : Fin (key a, false) = Fin (key v, false)) by corder. congruence.
  - intros ->. split; apply cle_refl.
Qed.

Lemma open_at a b c d v : v_eq a b = true -> c && d = false -> above_min (Some a) c v -> below_max (Some b) d v -> False.
Proof.
  rewrite eq_key. intros X N A B. destruct c, d; try discriminate; cbn in A, B; rewrite ?le_at, ?lt_at in *; unfold at_version in *; rewrite X in *; corder.
Qed.

(** Which of these ranges are points and which are empty, and what their version is. *)
Theorem point_or_empty i : made i -> Forall worded (item_bounds i) ->
  (item_is_point i = true <-> exists u, worded u /\ forall v, worded v -> (in_item i v <-> v_eq u v = true))
  /\ (item_is_empty i = true <-> forall v, worded v -> ~ in_item i v)
  /\ (forall u, item_version i = Ok u -> worded u /\ item_is_point i = true /\ in_item i u)
  /\ (forall e, item_version i = Err e <-> e = ValueError /\ item_is_point i = false).
Proof.
  intros M W. destruct i as [p | a b c d].
  - cbn in W. inversion W as [| ? ? Wp]. cbn [item_is_point item_is_empty item_version in_item].
    assert (R : v_eq p p = true) by (apply eq_key; reflexivity). split; [| split; [| split]].
    + split; auto. intros _. exists p. split; [exact Wp | reflexivity].
    + split; [discriminate |]. intros N. exfalso. now apply (N p).
    + intros u X. injection X as <-. auto.
    + intros e. split; [discriminate | intros [_ X]; discriminate].
  - pose proof (empty_or_point _ M W) as E. cbn [item_is_point item_is_empty item_version].
    destruct (is_empty_or_point (Range a b c d)) eqn:K.
    + pose proof K as K'. unfold is_empty_or_point, comparable_min, comparable_max in K'. cbn in K'.
      destruct a as [a |], b as [b |]; try discriminate. assert (X : v_eq a b = true) by exact K'.
      cbn in W. inversion W as [| ? ? Wa]. unfold is_closed, is_left_closed, is_right_closed. cbn [i_include_min i_include_max andb].
      destruct (c && d) eqn:CD.
      * apply andb_true_iff in CD as [-> ->]. cbn [negb]. split; [| split; [| split]].
        -- split; auto. intros _. exists a. split; [exact Wa |]. intros v _. cbn. now apply closed_at.
        -- split; [discriminate |]. intros N. exfalso. apply (N a Wa). cbn. apply closed_at; auto. now apply eq_key.
        -- intros u Y. injection Y as <-. split; [exact Wa |]. split; [reflexivity |]. cbn. apply closed_at; auto. now apply eq_key.
        -- intros e. split; [discriminate | intros [_ Y]; discriminate].
      * cbn [negb]. split; [| split; [| split]].
        -- split; [discriminate |]. intros (u & Wu & Hu). exfalso. assert (R : v_eq u u = true) by now apply eq_key.
           apply (Hu u Wu) in R as [A B]. now apply (open_at a b c d u).
        -- split; auto. intros _ v _ [A B]. now apply (open_at a b c d v).
        -- discriminate.
        -- intros e. split; [intros Y; injection Y as <-; auto | intros [-> _]; reflexivity].
    + cbn [andb]. split; [| split; [| split]].
      * split; [discriminate |]. intros (u & Wu & Hu). apply E. intros v w Wv Ww V' W'. apply (Hu v Wv) in V'. apply (Hu w Ww) in W'.
        rewrite eq_key in *. congruence.
      * split; [discriminate |]. intros N. apply E. intros v w Wv _ V' _. exfalso. now apply (N v).
      * discriminate.
      * intros e. split; [intros Y; injection Y as <-; auto | intros [-> _]; reflexivity].
Qed.
