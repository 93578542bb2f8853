(** Lemmas for C108: unions made without checks, of any items that the
    constructors accept. *)

From Coq Require Import List ZArith NArith Bool Arith Lia Sorting.Permutation Sorting.Sorted.
From Verif Require Import Py Segments Version VersionSets Orders Spec OrderFacts Cuts SetItems SetChains SetMerge SetVersions SetTheorems SetAlgebra Density LooseSpec LooseFacts.
Import ListNotations.
Local Opaque key.

(** ** Items with versions *)

Definition solid (i : item) : Prop := valid_item i /\ clt (lo i) (hi i).

Lemma solid_valid i : solid i -> valid_item i.
Proof. now intros []. Qed.
Lemma solid_lt i : solid i -> clt (lo i) (hi i).
Proof. now intros []. Qed.
Lemma solid_point v : solid (Point v).
Proof. split; [exact I |]. rewrite point_lo, point_hi. apply point_lt. Qed.
Lemma solid_iff i : solid i <-> made i /\ item_is_empty i = false.
Proof.
  split.
  - intros [V L]. split; [now apply valid_made | now apply nonempty_iff].
  - intros [M E]. apply made_valid in M. split; [exact M | now apply nonempty_iff].
Qed.

Lemma s_lower_iff s o : solid s -> solid o -> is_lower s o = true <-> clt (lo s) (lo o).
Proof. intros [] []. now apply lower_iff. Qed.
Lemma s_higher_iff s o : solid s -> solid o -> is_higher s o = true <-> clt (hi o) (hi s).
Proof. intros [] []. now apply higher_iff. Qed.
Lemma s_adjacent_iff s o : solid s -> solid o -> is_adjacent s o = true <-> hi s = lo o \/ lo s = hi o.
Proof. intros [] []. now apply adjacent_iff. Qed.
Lemma s_intersects_iff s o : solid s -> solid o -> item_intersects s o = true <-> overlap s o.
Proof.
  intros [Vs Ls] [Vo Lo]. destruct s as [v|a b c d].
  - cbn [item_intersects]. rewrite item_contains_iff by exact Vo. unfold overlap. rewrite point_lo, point_hi. unfold at_version. rewrite <- cut_step. tauto.
  - destruct o as [w|a' b' c' d'].
    + cbn [item_intersects]. rewrite item_contains_iff by exact Vs. unfold overlap. rewrite point_lo, point_hi. unfold at_version. rewrite <- cut_step. tauto.
    + now apply ranges_intersect_iff.
Qed.

Lemma s_lt_cases x y : solid x -> solid y -> (item_lt x y = true -> below x y) /\ (item_lt x y = false -> below y x).
Proof.
  intros [Px _] [Py _]. unfold item_lt, below, cle. rewrite item_compare_cut by assumption.
  rewrite (law_anti lawful_cut (lo x) (lo y)).
  destruct (ccmp (lo x) (lo y)) eqn:E; cbn; split; congruence.
Qed.

Lemma s_insert_sorted x ys :
  solid x -> Forall solid ys -> StronglySorted below ys -> StronglySorted below (insert x ys).
Proof.
  intros Px Fy S. induction S as [|y ys S IH L]; cbn.
  - repeat constructor.
  - inversion Fy as [|? ? Py Fy']; subst.
    destruct (s_lt_cases y x Py Px) as [H1 H2].
    destruct (item_lt y x).
    + constructor; [now apply IH|]. apply Forall_forall. intros z I.
      eapply Permutation_in in I; [|apply insert_perm]. destruct I as [<-|I]; [now apply H1|].
      rewrite Forall_forall in L. now apply L.
    + specialize (H2 eq_refl). repeat constructor; auto.
      rewrite Forall_forall in L |- *. intros z I. specialize (L z I). unfold below in *. corder.
Qed.
Lemma s_sort_sorted xs : Forall solid xs -> StronglySorted below (sort xs).
Proof.
  induction 1 as [|x xs P F IH]; cbn; [constructor|].
  apply s_insert_sorted; auto. eapply Permutation_Forall; [apply Permutation_sym, sort_perm|exact F].
Qed.

Lemma s_range_union_min s o :
  is_range s -> is_range o -> solid s -> solid o ->
  forall m i, (if is_lower s o then (i_min s, i_include_min s) else (i_min o, i_include_min o)) = (m, i) ->
  lo_of m i = cmin (lo s) (lo o) /\ (m = None -> i = false).
Proof.
  intros Rs Ro Ps Po m i. destruct (is_lower s o) eqn:E; intros [= <- <-].
  - apply (s_lower_iff _ _ Ps Po) in E. split.
    + change (lo_of (i_min s) (i_include_min s)) with (lo s). cminmax; corder.
    + destruct s; [destruct Rs|]. apply (solid_valid _ Ps).
  - apply (bool_iff _ _ (s_lower_iff _ _ Ps Po)) in E. split.
    + change (lo_of (i_min o) (i_include_min o)) with (lo o). cminmax; corder.
    + destruct o; [destruct Ro|]. apply (solid_valid _ Po).
Qed.
Lemma s_range_union_max s o :
  is_range s -> is_range o -> solid s -> solid o ->
  forall m i, (if is_higher s o then (i_max s, i_include_max s) else (i_max o, i_include_max o)) = (m, i) ->
  hi_of m i = cmax (hi s) (hi o) /\ (m = None -> i = false).
Proof.
  intros Rs Ro Ps Po m i. destruct (is_higher s o) eqn:E; intros [= <- <-].
  - apply (s_higher_iff _ _ Ps Po) in E. split.
    + change (hi_of (i_max s) (i_include_max s)) with (hi s). cminmax; corder.
    + destruct s; [destruct Rs|]. apply (solid_valid _ Ps).
  - apply (bool_iff _ _ (s_higher_iff _ _ Ps Po)) in E. split.
    + change (hi_of (i_max o) (i_include_max o)) with (hi o). cminmax; corder.
    + destruct o; [destruct Ro|]. apply (solid_valid _ Po).
Qed.

(** Touching items, no stuck pair, the first not above the second. *)
Lemma s_item_union_touching f s o :
  solid s -> solid o -> below s o -> cle (lo o) (hi s) -> ~ stuck_pair s o ->
  exists r, item_union (S f) s o = Ok (Item r) /\ solid r
    /\ lo r = lo s /\ hi r = cmax (hi s) (hi o)
    /\ (is_range r <-> is_range s \/ is_range o)
    /\ (~ is_range r -> r = s).
Proof.
  unfold below. intros Ps Po B T NS.
  pose proof (solid_lt _ Ps) as Ls. pose proof (solid_lt _ Po) as Lo.
  destruct s as [v|smin smax simin simax].
  - assert (T' : clt (lo o) (hi (Point v))).
    { apply cle_lt_eq in T as [T|T]; auto. exfalso. apply NS. split; cbn; auto. }
    assert (E0 : lo o = Fin (key v, false)).
    { apply cle_antisym; [apply cut_step, T'|exact B]. }
    destruct o as [w|omin omax oimin oimax].
    + rewrite point_lo in E0. assert (EK : key v = key w) by congruence.
      exists (Point v). cbn [item_union]. rewrite (proj2 (v_eq_key v w) EK).
      split; [reflexivity|]. split; [apply solid_point |]. rewrite !point_hi, EK. cbn [is_range].
      repeat split; try tauto. cminmax; reflexivity.
    + exists (Range omin omax oimin oimax).
      assert (EC : item_contains (Range omin omax oimin oimax) v = true).
      { apply item_contains_iff; [now apply solid_valid|]. unfold at_version. rewrite <- E0.
        split; [apply cle_refl|exact Lo]. }
      cbn [item_union]. rewrite EC. split; [reflexivity|]. split; [exact Po|].
      split; [exact E0|]. split; [|cbn; tauto].
      assert (clt (lo (Range omin omax oimin oimax)) (hi (Range omin omax oimin oimax))) by exact Lo.
      rewrite E0 in *. rewrite point_hi in *. rewrite <- cut_step' in Lo. cminmax; corder.
  - destruct o as [w|omin omax oimin oimax].
    + cbn [item_union]. destruct (item_contains (Range smin smax simin simax) w) eqn:EC.
      * exists (Range smin smax simin simax). split; [reflexivity|]. split; [exact Ps|].
        split; [reflexivity|]. split; [|cbn; tauto].
        apply item_contains_iff in EC as [C1 C2]; [|now apply solid_valid].
        unfold at_version in *. rewrite <- cut_step' in C2. rewrite point_hi. cminmax; corder.
      * assert (EH : hi (Range smin smax simin simax) = Fin (key w, false)).
        { apply cle_antisym; [|exact T].
          pose proof (bool_iff _ _ (item_contains_iff _ w (solid_valid _ Ps))) as X.
          apply X in EC. unfold at_version in EC. apply not_clt. intros Y. apply EC.
          split; [exact B|exact Y]. }
        rewrite range_hi in EH. unfold hi_of in EH. destruct smax as [M|]; [|discriminate].
        assert (EK : key w = key M) by congruence. assert (simax = false) by congruence. subst simax.
        assert (E1 : o_eq (Some w) smin = false).
        { destruct smin as [m|]; [|reflexivity]. destruct (o_eq (Some w) (Some m)) eqn:E; auto.
          exfalso. apply v_eq_key in E. clear - Ls E EK. rewrite range_lo, range_hi in Ls. cbn [lo_of hi_of] in Ls. rewrite <- E, <- EK in Ls.
          pose proof (point_lt (key w)). destruct simin; cbn [negb] in Ls; corder. }
        rewrite E1. assert (E2 : o_eq (Some w) (Some M) = true) by (apply v_eq_key; exact EK).
        rewrite E2.
        assert (PV : valid_item (Range smin (Some M) simin true)).
        { destruct Ps as ((P1 & P2 & P3) & _). split; [exact P1 |]. split; [discriminate | exact P3]. }
        assert (PR : solid (Range smin (Some M) simin true)).
        { split; [exact PV |]. rewrite range_lo, range_hi in Ls |- *. cbn [hi_of] in Ls |- *. pose proof (point_lt (key M)). corder. }
        rewrite (range_new_ok _ _ _ _ PV). cbn [bind]. eexists. split; [reflexivity|].
        split; [exact PR|]. split; [reflexivity|]. split; [|cbn; tauto].
        rewrite !range_hi, point_hi. unfold hi_of. rewrite EK. pose proof (point_lt (key M)).
        cminmax; corder.
    + cbn [item_union]. set (s := Range smin smax simin simax) in *.
      set (o := Range omin omax oimin oimax) in *.
      assert (EB : negb (is_adjacent s o) && negb (item_intersects s o) = false).
      { apply andb_false_iff. rewrite !negb_false_iff.
        rewrite (s_adjacent_iff _ _ Ps Po), (s_intersects_iff _ _ Ps Po).
        apply cle_lt_eq in T as [T|T]; [right|left; left; auto].
        split; [corder|exact T]. }
      rewrite EB.
      destruct (if is_lower s o then (smin, simin) else (omin, oimin)) as [um ui] eqn:EU.
      destruct (s_range_union_min s o I I Ps Po _ _ EU) as [U1 U2].
      destruct (if is_higher s o then (smax, simax) else (omax, oimax)) as [uM uI] eqn:EV.
      destruct (s_range_union_max s o I I Ps Po _ _ EV) as [V1 V2].
      assert (L1 : lo_of um ui = lo s) by (rewrite U1; cminmax; corder).
      assert (LT : clt (lo (Range um uM ui uI)) (hi (Range um uM ui uI))).
      { rewrite range_lo, range_hi, L1, V1. cminmax; corder. }
      assert (PV : valid_item (Range um uM ui uI)).
      { destruct (ends_ordered um uM ui uI U2 V2 LT) as [P|(x & y & -> & -> & K & -> & ->)]; [now apply proper_valid |].
        split; [discriminate |]. split; [discriminate |]. cbn. rewrite v_cmp_key, K, (cmp_refl lawful_key). discriminate. }
      assert (PR : solid (Range um uM ui uI)) by (split; assumption).
      rewrite (range_new_ok _ _ _ _ PV). cbn [bind]. eexists. split; [reflexivity|].
      split; [exact PR|]. split; [exact L1|]. split; [exact V1|]. cbn. tauto.
Qed.

Lemma s_stuck_pair_shape s o :
  solid o -> stuck_pair s o -> exists v, s = Point v /\ is_range o /\ lo o = Fin (key v, true).
Proof.
  intros Po [R E]. apply point_ends in R as [v ->]. exists v. rewrite point_hi in E.
  repeat split; auto. eapply lo_true_range; eauto.
Qed.

Lemma s_merge_loop_stuck_pair f v o :
  solid o -> lo o = Fin (key v, true) -> item_union f (Point v) o = Err RecursionError.
Proof.
  intros Po E. assert (R : is_range o) by (eapply lo_true_range; eauto).
  induction f as [|f IH]; [reflexivity|]. destruct o as [|omin omax oimin oimax]; [destruct R|].
  cbn [item_union]. set (o := Range omin omax oimin oimax) in *.
  assert (EC : item_contains o v = false).
  { apply (bool_iff _ _ (item_contains_iff o v (solid_valid _ Po))). intros [X _].
    rewrite E in X. unfold at_version in X. rewrite <- cut_step in X. now apply clt_irrefl in X. }
  rewrite EC. unfold merge_with. cbn [flat_map extract app existsb item_is_universal orb].
  assert (EU : is_unbounded o = false).
  { revert E. unfold o, lo, is_unbounded; cbn. destruct omin; [reflexivity|discriminate]. }
  change (item_is_universal o) with (is_unbounded o). rewrite EU.
  assert (ES : sort [Point v; o] = [Point v; o]).
  { cbn [sort fold_right insert]. assert (X : item_lt o (Point v) = false); [| now rewrite X].
    unfold item_lt. rewrite item_compare_cut by (exact I || apply (solid_valid _ Po)).
    assert (L : clt (lo (Point v)) (lo o)) by (rewrite E, point_lo; apply point_lt). unfold clt in L. apply (cmp_lt_gt lawful_cut) in L. now rewrite L. }
  rewrite ES. cbn [merge_loop].
  assert (EA : is_adjacent (Point v) o = true).
  { apply s_adjacent_iff; [apply solid_point|exact Po|]. left. now rewrite E. }
  rewrite EA, orb_true_r, IH. reflexivity.
Qed.

Lemma s_merge_loop_spec f rest : forall cur,
  Forall solid (cur :: rest) -> StronglySorted below (cur :: rest) ->
  (~ stuck (cur :: rest) ->
     exists ys, merge_loop (item_union (S f)) cur rest = Ok ys /\ Forall solid ys
       /\ ys <> [] /\ forall c, dens ys c <-> dens (cur :: rest) c)
  /\ (stuck (cur :: rest) -> merge_loop (item_union (S f)) cur rest = Err RecursionError).
Proof.
  induction rest as [|x rest IH]; intros cur F S.
  - split.
    + intros _. exists [cur]. cbn [merge_loop]. repeat split; auto; congruence.
    + intros (v & r & [I1|[]] & [I2|[]] & E & _). exfalso. subst cur r.
      rewrite point_lo in E. congruence.
  - inversion F as [|? ? Pc F']; subst. inversion F' as [|? ? Px Fr]; subst.
    inversion S as [|? ? S' Bc]; subst. inversion S' as [|? ? Sr Bx]; subst.
    inversion Bc as [|? ? Bcx Bcr]; subst.
    pose proof (solid_lt _ Pc) as Lc. pose proof (solid_lt _ Px) as Lx.
    rewrite Forall_forall in Bx, Bcr. unfold below in *.
    cbn [merge_loop].
    destruct (item_intersects cur x || is_adjacent cur x) eqn:ET.
    + assert (T : cle (lo x) (hi cur)).
      { apply orb_true_iff in ET as [E|E].
        - apply (s_intersects_iff _ _ Pc Px) in E as [E1 E2]. corder.
        - apply (s_adjacent_iff _ _ Pc Px) in E as [E|E]; corder. }
      assert (SD : stuck_pair cur x \/ ~ stuck_pair cur x).
      { unfold stuck_pair. destruct (range_dec cur); [right; tauto|].
        destruct (clt_total (hi cur) (lo x)) as [L|[L|L]]; [right|left; tauto|right];
          intros [_ E]; corder. }
      destruct SD as [SP|NSP].
      * destruct (s_stuck_pair_shape _ _ Px SP) as (v & -> & Rx & Ex).
        split.
        -- intros NS. exfalso. apply NS. exists v, x. cbn [In]. repeat split; auto.
           intros y [<-|[<-|I]] (R & T1 & T2).
           ++ exact R.
           ++ rewrite Ex in T1. pose proof (point_lt (key v)). corder.
           ++ pose proof (Bx y I). rewrite Ex in *. pose proof (point_lt (key v)). corder.
        -- intros _. rewrite s_merge_loop_stuck_pair by assumption. reflexivity.
      * destruct (s_item_union_touching f cur x Pc Px Bcx T NSP) as (r & -> & Pr & Lr & Hr & Rr & Qr).
        cbn [bind].
        assert (Fr' : Forall solid (r :: rest)) by (constructor; auto).
        assert (Sr' : StronglySorted below (r :: rest)).
        { constructor; auto. apply Forall_forall. intros y I. unfold below. rewrite Lr. now apply Bcr. }
        assert (ST : stuck (r :: rest) <-> stuck (cur :: x :: rest)).
        { split; intros (v & q & Iv & Iq & Eq & NT).
          - assert (Iq' : In q rest).
            { destruct Iq as [<-|]; auto. exfalso. destruct Iv as [->|Iv].
              - rewrite point_lo in Eq. congruence.
              - pose proof (Bcr _ Iv) as X. rewrite point_lo, <- Lr, Eq, <- cut_step in X.
                now apply clt_irrefl in X. }
            destruct Iv as [->|Iv].
            + exists v, q. rewrite <- (Qr (fun f => f)). cbn [In]. repeat split; auto.
              intros y [<-|[<-|I]] Ty.
              * destruct Ty as [[] _].
              * destruct Ty as [Ty _]. destruct (proj2 Rr (or_intror Ty)).
              * apply (NT y); cbn; auto.
            + exists v, q. cbn [In]. repeat split; auto.
              intros y [<-|[<-|I]] (R1 & R2 & R3).
              * apply (NT r); [cbn; auto|]. split; [apply Rr; auto|]. rewrite Lr, Hr.
                split; [exact R2|]. cminmax; corder.
              * apply (NT r); [cbn; auto|]. split; [apply Rr; auto|]. rewrite Lr, Hr.
                split; [corder|]. cminmax; corder.
              * apply (NT y); cbn; auto. repeat split; auto.
          - assert (SH : In (Point v) rest \/ cur = Point v \/ x = Point v) by (cbn in Iv; tauto).
            pose proof (point_lt (key v)) as PL.
            assert (NR : cur = Point v \/ x = Point v -> r = cur /\ lo cur = Fin (key v, false) /\ ~ is_range cur /\ ~ is_range x).
            { intros [->| ->].
              - assert (NX : ~ is_range x).
                { intros Rx. apply (NT x); [cbn; auto|]. split; [exact Rx|].
                  rewrite point_hi, point_lo in *.
                  assert (E : cle (lo x) (Fin (key v, false))).
                  { apply cut_step. apply cle_lt_eq in T as [T|T]; auto. exfalso. apply NSP.
                    split; cbn; auto. }
                  split; [exact E|]. corder. }
                assert (NR : ~ is_range r) by (rewrite Rr; cbn; tauto).
                rewrite (Qr NR). cbn; auto.
              - assert (NC : ~ is_range cur).
                { intros Rc. apply (NT cur); [cbn; auto|]. split; [exact Rc|].
                  rewrite point_lo in *. split; [exact Bcx|exact T]. }
                assert (NR : ~ is_range r) by (rewrite Rr; cbn; tauto).
                rewrite (Qr NR). destruct (point_ends _ NC) as [u ->]. rewrite point_lo, point_hi in *.
                split; [reflexivity|]. split; [|cbn; tauto].
                apply cle_antisym; [exact Bcx|].
                apply cut_step. apply cle_lt_eq in T as [T|T]; auto. congruence. }
            assert (Iq' : In q rest).
            { destruct Iq as [<-|[<-|]]; auto; exfalso.
              - destruct SH as [I1|SH].
                + pose proof (Bcr _ I1) as X. rewrite point_lo in X. rewrite Eq in *. corder.
                + destruct (NR SH) as (_ & E & _). congruence.
              - destruct SH as [I1|SH].
                + pose proof (Bx _ I1) as X. rewrite point_lo in X. rewrite Eq in *. corder.
                + destruct (NR SH) as (_ & E & _ & N). apply N. eapply lo_true_range; eauto. }
            destruct SH as [I1|SH].
            + exists v, q. cbn [In]. repeat split; auto.
              intros y [<-|I] (R1 & R2 & R3).
              2:{ apply (NT y); cbn; auto. repeat split; auto. }
              pose proof (Bcr _ I1) as X1. pose proof (Bx _ I1) as X2. rewrite point_lo in X1, X2.
              rewrite Hr in R3.
              assert (RC : is_range cur -> clt (hi cur) (Fin (key v, false))).
              { intros Rc. apply not_cle. intros Y. apply (NT cur); [cbn; auto|]. repeat split; auto. }
              assert (RX : is_range x -> clt (hi x) (Fin (key v, false))).
              { intros Rx. apply not_cle. intros Y. apply (NT x); [cbn; auto|]. repeat split; auto. }
              destruct (range_dec cur) as [Rc|Rc], (range_dec x) as [Rx|Rx].
              * specialize (RC Rc). specialize (RX Rx). cminmax; corder.
              * specialize (RC Rc). clear RX. destruct (point_ends _ Rx) as [u ->]. rewrite point_lo, point_hi in *.
                assert (E : clt (Fin (key u, false)) (Fin (key v, false))) by corder.
                rewrite <- cut_step' in E.
                assert (E2 : hi cur <> Fin (key u, true) \/ True) by auto.
                assert (clt (Fin (key u, true)) (Fin (key v, false)) \/ Fin (key u, true) = Fin (key v, false)) by (now apply cle_lt_eq).
                destruct H as [H|H]; [cminmax; corder|congruence].
              * specialize (RX Rx). clear RC. destruct (point_ends _ Rc) as [u ->]. rewrite point_lo, point_hi in *.
                assert (E : clt (Fin (key u, false)) (Fin (key v, false))) by corder.
                rewrite <- cut_step' in E.
                assert (clt (Fin (key u, true)) (Fin (key v, false)) \/ Fin (key u, true) = Fin (key v, false)) by (now apply cle_lt_eq).
                destruct H as [H|H]; [cminmax; corder|congruence].
              * exfalso. apply Rr in R1. tauto.
            + destruct (NR SH) as (-> & E & N1 & N2). destruct (point_ends _ N1) as [u ->].
              exists u, q. rewrite point_lo in E. assert (EK : key u = key v) by congruence.
              rewrite EK. cbn [In]. repeat split; auto. intros y [<-|I] Ty; [destruct Ty as [[] _]|].
              apply (NT y); cbn; auto. }
        destruct (IH r Fr' Sr') as [IH1 IH2]. split.
        -- intros NS. rewrite <- ST in NS. destruct (IH1 NS) as (ys & E & C & NE & D).
           exists ys. repeat split; auto.
           ++ intros Dc. apply D in Dc. rewrite !dens_cons in *. unfold den in *. rewrite Lr, Hr in Dc.
              destruct Dc as [[D1 D2]|]; auto.
              destruct (clt_cle_dec c (hi cur)) as [Y|Y]; [left; auto|]. right. left.
              split; [corder|]. revert D2. cminmax; intros; corder.
           ++ intros Dc. apply D. rewrite !dens_cons in *. unfold den in *. rewrite Lr, Hr.
              destruct Dc as [[D1 D2]|[[D1 D2]|]]; auto; left.
              ** split; [auto|]. cminmax; corder.
              ** split; [corder|]. cminmax; corder.
        -- intros SK. apply IH2, ST, SK.
    + apply orb_false_iff in ET as [E1 E2].
      assert (G : clt (hi cur) (lo x)).
      { apply (bool_iff _ _ (s_intersects_iff _ _ Pc Px)) in E1.
        apply (bool_iff _ _ (s_adjacent_iff _ _ Pc Px)) in E2. unfold overlap in E1.
        destruct (clt_cle_dec (hi cur) (lo x)) as [Y|Y]; auto. exfalso.
        apply cle_lt_eq in Y as [Y|Y]; [|now apply E2; left]. apply E1. split; [corder|exact Y]. }
      assert (ST : stuck (x :: rest) <-> stuck (cur :: x :: rest)).
      { split; intros (v & q & Iv & Iq & Eq & NT); exists v, q.
        - split; [now right|]. split; [now right|]. split; [exact Eq|]. intros y [<-|I] (R1 & R2 & R3); [|apply (NT y); auto; repeat split; auto].
          destruct Iv as [->|I1].
          + rewrite point_lo in *. corder.
          + pose proof (Bx _ I1) as X. rewrite point_lo in X. corder.
        - pose proof (point_lt (key v)) as PL.
          assert (Hc : cur <> Point v).
          { intros ->. rewrite point_hi in *.
            assert (X : cle (lo x) (lo q)).
            { destruct Iq as [<-|[<-|I1]]; [rewrite point_lo in Eq; congruence|apply cle_refl|now apply Bx]. }
            rewrite Eq in X. corder. }
          assert (Iv' : In (Point v) (x :: rest)) by (destruct Iv; tauto).
          assert (Hq : cur <> q).
          { intros ->. rewrite Eq in *. destruct Iv' as [->|I1].
            - rewrite point_lo in *. corder.
            - pose proof (Bcr _ I1) as X. rewrite point_lo in X. corder. }
          repeat split; auto.
          + destruct Iq as [|Iq]; [contradiction|exact Iq].
          + intros y I. apply NT. now right. }
      destruct (IH x F' S') as [IH1 IH2]. split.
      * intros NS. rewrite <- ST in NS. destruct (IH1 NS) as (ys & E & C & NE & D).
        rewrite E. cbn [bind]. exists (cur :: ys).
        split; [reflexivity|]. split; [now constructor |].
        split; [congruence|]. intros c. now rewrite !dens_cons, D, dens_cons.
      * intros SK. rewrite <- ST in SK. now rewrite (IH2 SK).
Qed.

(** ** Merging any items with versions *)

Lemma s_reaches_touches x v : solid x -> reaches x v <-> touches x (key v).
Proof.
  intros P. destruct x as [w|m M b c]; cbn [reaches]; unfold touches; cbn [is_range]; [tauto|].
  rewrite (above_min_cut m M b c), (below_max_cut m M b c); [tauto|apply (solid_valid _ P)].
Qed.

Lemma s_clash_stuck xs : Forall solid xs -> clash xs <-> stuck xs.
Proof.
  intros F. unfold clash, stuck. rewrite Forall_forall in F.
  split; intros (v & r & I1 & I2 & S & T); exists v, r; split; auto; split; auto; split; auto.
  - now apply starts_after_cut.
  - intros x Ix Tx. apply (T x Ix). apply s_reaches_touches; auto.
  - now apply starts_after_cut.
  - intros x Ix Tx. apply (T x Ix). apply s_reaches_touches in Tx; auto.
Qed.

Lemma solid_in i v : solid i -> in_item i v <-> den i (at_version v).
Proof. intros P. apply member_iff. now apply solid_valid. Qed.

Lemma dens_in xs v : Forall solid xs -> dens xs (at_version v) <-> Exists (fun i => in_item i v) xs.
Proof.
  intros F. rewrite Exists_exists. rewrite Forall_forall in F. split; intros (x & I & D); exists x; (split; [exact I |]); apply (solid_in x v (F x I)); exact D.
Qed.

Lemma exists_extract sets v : Exists (fun i => in_item i v) (flat_map extract sets) <-> Exists (fun a => in_set a v) sets.
Proof.
  induction sets as [|a sets IH]; cbn [flat_map]; [now rewrite !Exists_nil |]. rewrite Exists_app, Exists_cons, IH.
  assert (H : Exists (fun i => in_item i v) (extract a) <-> in_set a v); [| now rewrite H].
  destruct a as [|i|xs]; cbn [extract in_set].
  - apply Exists_nil.
  - rewrite Exists_cons, Exists_nil. tauto.
  - reflexivity.
Qed.

Lemma in_extract a v : in_set a v <-> Exists (fun i => in_item i v) (extract a).
Proof. rewrite <- (app_nil_r (extract a)). change (extract a ++ []) with (flat_map extract [a]). rewrite exists_extract, Exists_cons, Exists_nil. tauto. Qed.

Lemma merge_with_solid f sets : Forall solid (flat_map extract sets) ->
  (~ clash (flat_map extract sets) ->
     exists r, merge_with (item_union (S f)) sets = Ok r /\ Forall solid (extract r) /\ forall v, contains r v = true <-> Exists (fun a => in_set a v) sets)
  /\ (clash (flat_map extract sets) -> merge_with (item_union (S f)) sets = Err RecursionError).
Proof.
  intros F. rewrite (s_clash_stuck _ F).
  assert (G : (~ stuck (flat_map extract sets) -> exists r, merge_with (item_union (S f)) sets = Ok r /\ Forall solid (extract r)
                 /\ forall v, Exists (fun i => in_item i v) (extract r) <-> Exists (fun i => in_item i v) (flat_map extract sets))
              /\ (stuck (flat_map extract sets) -> merge_with (item_union (S f)) sets = Err RecursionError)).
  2:{ destruct G as [G1 G2]. split; [| exact G2]. intros N. destruct (G1 N) as (r & E & S & M). exists r. split; [exact E |]. split; [exact S |].
      intros v. rewrite in_set_contains, in_extract, M. apply exists_extract. }
  unfold merge_with. revert F. generalize (flat_map extract sets). intros xs F.
  destruct xs as [|x0 xs0] eqn:EX.
  { split; [| intros (v & q & [] & _)]. intros _. exists Empty. split; [reflexivity |]. split; [constructor | reflexivity]. }
  rewrite <- EX in *.
  destruct (existsb item_is_universal xs) eqn:EU.
  - apply existsb_exists in EU as (u & I & E). pose proof F as F'. rewrite Forall_forall in F'.
    apply item_universal_iff in E as [E1 E2]; [|now apply solid_valid, F'].
    split.
    + intros _. exists UNIVERSAL_SET. split; [reflexivity |]. split; [constructor; [split; [| reflexivity] | constructor]; split; [reflexivity |]; split; [reflexivity | discriminate] |].
      intros v. cbn [extract UNIVERSAL_SET]. rewrite Exists_cons, Exists_nil. split; [| cbn; tauto]. intros _. apply Exists_exists. exists u. split; [exact I |].
      apply (solid_in u v (F' u I)). unfold den. rewrite E1, E2. split; [apply cneg_le | reflexivity].
    + intros (v & q & I1 & I2 & Eq & N). exfalso. apply (N u I). repeat split.
      * destruct u; cbn; auto. discriminate.
      * rewrite E1. apply cneg_le.
      * rewrite E2. apply cpos_ge.
  - assert (P := sort_perm xs). assert (Fs : Forall solid (sort xs)).
    { eapply Permutation_Forall; [apply Permutation_sym, P|exact F]. }
    assert (SS := s_sort_sorted _ F).
    destruct (sort xs) as [|x rest] eqn:ES.
    { exfalso. apply Permutation_nil in P. congruence. }
    destruct (s_merge_loop_spec f rest x Fs SS) as [H1 H2]. split.
    + intros NS. assert (NS' : ~ stuck (x :: rest)) by (rewrite (stuck_perm _ _ P); exact NS).
      destruct (H1 NS') as (ys & E & C & NE & D). rewrite E. cbn [bind].
      exists (of_items ys). split; [destruct ys as [|y [|y' ys]]; [congruence|reflexivity|reflexivity]|].
      rewrite extract_of_items. split; [exact C |]. intros v. rewrite <- !dens_in by assumption. rewrite D. now apply dens_perm.
    + intros SK. rewrite <- (stuck_perm _ _ P) in SK. now rewrite (H2 SK).
Qed.

Lemma solid_sets sets : Forall (fun a => Forall made (extract a) /\ Forall (fun i => item_is_empty i = false) (extract a)) sets -> Forall solid (flat_map extract sets).
Proof.
  intros F. apply Forall_flat_map. apply (Forall_impl _ (P := fun a => Forall made (extract a) /\ Forall (fun i => item_is_empty i = false) (extract a))); [| exact F].
  intros a [M E]. rewrite Forall_forall in *. intros i I. apply solid_iff. auto.
Qed.

(** ** Merging invents no versions *)

Definition sound_union (u : item -> item -> result vset) : Prop :=
  forall s o r, made s -> made o -> u s o = Ok r -> Forall made (extract r) /\ forall v, in_set r v -> in_item s v \/ in_item o v.

Lemma merge_loop_sound u rest : sound_union u -> forall cur ys, Forall made (cur :: rest) -> merge_loop u cur rest = Ok ys ->
  Forall made ys /\ forall v, Exists (fun i => in_item i v) ys -> Exists (fun i => in_item i v) (cur :: rest).
Proof.
  intros U. induction rest as [|x rest IH]; intros cur ys F E; cbn [merge_loop] in E.
  - injection E as <-. auto.
  - inversion F as [|? ? Mc F']; subst. inversion F' as [|? ? Mx Fr]; subst. destruct (item_intersects cur x || is_adjacent cur x).
    + destruct (u cur x) as [r|e] eqn:EU; [| discriminate]. cbn [bind] in E. destruct r as [|i|l]; try discriminate.
      destruct (U cur x (Item i) Mc Mx EU) as [Mi Hi]. cbn [extract in_set] in Mi, Hi. inversion Mi; subst.
      destruct (IH i ys) as [My Hy]; [now constructor | exact E |]. split; [exact My |]. intros v V. apply Hy in V. rewrite !Exists_cons in *. destruct V as [V|V]; [apply Hi in V; tauto | tauto].
    + destruct (merge_loop u x rest) as [out|e] eqn:EO; [| discriminate]. cbn [bind] in E. injection E as <-.
      destruct (IH x out F' EO) as [My Hy]. split; [now constructor |]. intros v V. rewrite Exists_cons in V |- *. destruct V as [V|V]; [tauto | right; now apply Hy].
Qed.

Lemma merge_with_sound u sets r : sound_union u -> Forall made (flat_map extract sets) -> merge_with u sets = Ok r ->
  Forall made (extract r) /\ forall v, in_set r v -> Exists (fun i => in_item i v) (flat_map extract sets).
Proof.
  intros U F E. unfold merge_with in E. revert F E. generalize (flat_map extract sets). intros xs F E.
  destruct xs as [|x0 xs0] eqn:EX.
  { injection E as <-. split; [constructor |]. intros v []. }
  rewrite <- EX in *. clear EX.
  destruct (existsb item_is_universal xs) eqn:EU.
  - injection E as <-. split; [constructor; [reflexivity | constructor] |]. intros v _. apply existsb_exists in EU as (x & I & Ux). apply Exists_exists. exists x. split; [exact I |].
    rewrite Forall_forall in F. pose proof (made_valid x (F x I)) as V. apply item_universal_iff in Ux as [E1 E2]; [| exact V]. apply member_iff; [exact V |]. rewrite E1, E2. split; [apply cneg_le | reflexivity].
  - pose proof (sort_perm xs) as P. destruct (sort xs) as [|x rest]; [injection E as <-; split; [constructor |]; intros v [] |].
    destruct (merge_loop u x rest) as [ys|e] eqn:EL; [| discriminate]. cbn [bind] in E.
    destruct (merge_loop_sound u rest U x ys) as [My Hy]; [eapply Permutation_Forall; [apply Permutation_sym, P | exact F] | exact EL |].
    assert (X : extract r = ys) by (destruct ys as [|y [|y' ys]]; [discriminate | injection E as <-; reflexivity | injection E as <-; reflexivity]).
    rewrite X. split; [exact My |]. intros v V. apply in_extract in V. rewrite X in V. apply Hy in V. rewrite Exists_exists in *. destruct V as (i & I & V). exists i. split; [| exact V]. eapply Permutation_in; eauto.
Qed.

Lemma range_new_made m M a b i : range_new m M a b = Ok i -> made i.
Proof.
  intros E. assert (X : i = Range m M a b); [| subst i; exact E].
  unfold range_new in E. destruct (match m with None => a | _ => false end); [discriminate |]. destruct (match M with None => b | _ => false end); [discriminate |].
  destruct (is_gt _); [discriminate |]. now injection E as <-.
Qed.

Lemma merge_loop_made u rest : (forall s o r, made s -> made o -> u s o = Ok r -> Forall made (extract r)) ->
  forall cur ys, Forall made (cur :: rest) -> merge_loop u cur rest = Ok ys -> Forall made ys.
Proof.
  intros U. induction rest as [|x rest IH]; intros cur ys F E; cbn [merge_loop] in E.
  - injection E as <-. auto.
  - inversion F as [|? ? Mc F']; subst. inversion F' as [|? ? Mx Fr]; subst. destruct (item_intersects cur x || is_adjacent cur x).
    + destruct (u cur x) as [r|e] eqn:EU; [| discriminate]. cbn [bind] in E. destruct r as [|i|l]; try discriminate.
      pose proof (U cur x (Item i) Mc Mx EU) as Mi. cbn [extract] in Mi. inversion Mi; subst. apply (IH i ys); [now constructor | exact E].
    + destruct (merge_loop u x rest) as [out|e] eqn:EO; [| discriminate]. cbn [bind] in E. injection E as <-. constructor; [exact Mc |]. exact (IH x out F' EO).
Qed.

Lemma merge_with_made u sets r : (forall s o r, made s -> made o -> u s o = Ok r -> Forall made (extract r)) ->
  Forall made (flat_map extract sets) -> merge_with u sets = Ok r -> Forall made (extract r).
Proof.
  intros U F E. unfold merge_with in E. revert F E. generalize (flat_map extract sets). intros xs F E.
  destruct xs as [|x0 xs0] eqn:EX; [injection E as <-; constructor |]. rewrite <- EX in *. clear EX.
  destruct (existsb item_is_universal xs); [injection E as <-; constructor; [reflexivity | constructor] |].
  pose proof (sort_perm xs) as P. destruct (sort xs) as [|x rest]; [injection E as <-; constructor |].
  destruct (merge_loop u x rest) as [ys|e] eqn:EL; [| discriminate]. cbn [bind] in E.
  assert (X : extract r = ys) by (destruct ys as [|y [|y' ys]]; [discriminate | injection E as <-; reflexivity | injection E as <-; reflexivity]).
  rewrite X. apply (merge_loop_made u rest U x ys); [eapply Permutation_Forall; [apply Permutation_sym, P | exact F] | exact EL].
Qed.

Lemma item_union_made f : forall s o r, made s -> made o -> item_union f s o = Ok r -> Forall made (extract r).
Proof.
  induction f as [|f IH]; intros s o r Ms Mo E; [discriminate |].
  assert (U : merge_with (item_union f) [Item s; Item o] = Ok r -> Forall made (extract r)).
  { intros X. apply (merge_with_made _ _ _ IH) in X; [exact X |]. cbn. auto. }
  assert (R : forall m M a b, (let* x := range_new m M a b in Ok (Item x)) = Ok r -> Forall made (extract r)).
  { intros m M a b X. destruct (range_new m M a b) as [i|e] eqn:N; [| discriminate]. cbn [bind] in X. injection X as <-. constructor; [exact (range_new_made _ _ _ _ _ N) | constructor]. }
  assert (S1 : Ok (Item s) = Ok r -> Forall made (extract r)) by (intros [= <-]; constructor; [exact Ms | constructor]).
  assert (S2 : Ok (Item o) = Ok r -> Forall made (extract r)) by (intros [= <-]; constructor; [exact Mo | constructor]).
  destruct s as [v|smin smax simin simax], o as [w|omin omax oimin oimax]; cbn [item_union] in E.
  - destruct (v_eq v w); auto.
  - destruct (item_contains _ v); auto.
  - destruct (item_contains _ w); [auto |]. destruct (o_eq _ smin); [eauto |]. destruct (o_eq _ smax); eauto.
  - destruct (negb _ && negb _); [auto |]. destruct (is_lower _ _), (is_higher _ _); eauto.
Qed.

Lemma item_union_sound f : sound_union (item_union (S (S f))).
Proof.
  intros s o r Ms Mo E. split; [exact (item_union_made _ s o r Ms Mo E) |]. intros v V. apply in_set_contains in V.
  destruct (loose_union_at f s o Ms Mo) as (A & B & C).
  assert (D : union_clash (Item s) (Item o) \/ ~ union_clash (Item s) (Item o)).
  { destruct s as [u|? ? ? ?]; cbn [union_clash]; [| tauto]. destruct o as [|[m|] ? [] ?]; cbn [starts_after]; try tauto. destruct (v_eq m u); [left; reflexivity | right; discriminate]. }
  destruct D as [D|D]; [rewrite (A D) in E; discriminate |].
  assert (L : union_lost s o \/ ~ union_lost s o).
  { destruct s as [u|[m|] [M|] ? []], o as [w|[m'|] [M'|] [] []]; cbn [union_lost]; try tauto.
    - destruct (v_eq u m'), (v_eq u M'); auto; right; intros []; discriminate.
    - destruct (v_eq w m), (v_eq w M); auto; right; intros []; discriminate. }
  destruct L as [L|L].
  - destruct (B L) as (r' & E' & N). rewrite E in E'. injection E' as <-. rewrite N in V. discriminate.
  - destruct (C D L) as (r' & E' & N). rewrite E in E'. injection E' as <-. now apply N.
Qed.

Theorem raw_merge_sound sets r v : Forall (fun a => Forall made (extract a)) sets -> merge sets = Ok r -> in_set r v -> Exists (fun a => in_set a v) sets.
Proof.
  intros F E V. apply exists_extract. destruct (merge_with_sound (item_union (S (S 298))) sets r (item_union_sound 298)) as [_ H]; [now apply Forall_flat_map | exact E |]. now apply H.
Qed.

Theorem raw_merge_made sets r : Forall (fun a => Forall made (extract a)) sets -> merge sets = Ok r -> Forall made (extract r).
Proof.
  intros F E. apply (merge_with_made (item_union (S (S 298))) sets r (item_union_made _)); [now apply Forall_flat_map | exact E].
Qed.

Theorem raw_merge sets : Forall (fun a => Forall made (extract a) /\ Forall (fun i => item_is_empty i = false) (extract a)) sets ->
  (~ clash (flat_map extract sets) -> exists r, merge sets = Ok r /\ forall v, contains r v = true <-> Exists (fun a => in_set a v) sets)
  /\ (clash (flat_map extract sets) -> merge sets = Err RecursionError).
Proof.
  intros F. destruct (merge_with_solid (S 298) sets (solid_sets sets F)) as [A B]. split; [| exact B]. intros N. destruct (A N) as (r & E & _ & M). exists r. auto.
Qed.

(** ** Tests and intersections *)

Lemma item_includes_sets s o : item_includes s o = includes (Item s) (Item o).
Proof. destruct s, o; reflexivity. Qed.

Lemma includes_loop_sound selfs : forall items, includes_loop selfs items = true -> Forall (fun i => Exists (fun s => item_includes s i = true) selfs) items.
Proof.
  induction selfs as [|s selfs IH]; [intros [|i items]; [constructor | discriminate] |].
  induction items as [|i items IHi]; [constructor |]. cbn. destruct (item_includes s i) eqn:E.
  - intros H. constructor; [now left |]. now apply IHi.
  - intros H. apply IH in H. apply (Forall_impl _ (P := fun i => Exists (fun s => item_includes s i = true) selfs)); [| exact H]. intros j J. now right.
Qed.

Theorem raw_includes_sound a b v : Forall made (extract a) -> Forall made (extract b) -> includes a b = true -> in_set b v -> in_set a v.
Proof.
  intros Ma Mb H V. apply in_extract in V. apply in_extract. apply Exists_exists in V as (i & I & V). rewrite Forall_forall in Ma, Mb. pose proof (Mb i I) as Mi.
  assert (G : Exists (fun s => includes (Item s) (Item i) = true) (extract a)).
  { destruct a as [|s|selfs]; cbn [extract].
    - exfalso. cbn [includes] in H. destruct b as [|j|l]; [destruct I | | discriminate]. destruct I as [<-|[]]. cbn in H.
      destruct (loose_empty_sound j Mi H v V).
    - constructor. destruct s as [u|? ? ? ?].
      + destruct b as [|j|l]; [destruct I | destruct I as [<-|[]]; exact H | discriminate].
      + destruct b as [|j|l]; [destruct I | destruct I as [<-|[]]; exact H |]. cbn [includes] in H. rewrite forallb_forall in H. rewrite <- item_includes_sets. now apply H.
    - cbn [includes] in H. apply includes_loop_sound in H. rewrite Forall_forall in H. specialize (H i I). rewrite Exists_exists in *. destruct H as (s & Is & H). exists s. now rewrite <- item_includes_sets. }
  apply Exists_exists in G as (s & Is & G). apply Exists_exists. exists s. split; [exact Is |]. exact (loose_includes s i (Ma s Is) Mi G v V).
Qed.

Lemma item_intersects_sets s o : item_intersects s o = intersects (Item s) (Item o).
Proof. destruct s, o; reflexivity. Qed.

Lemma intersects_loop_sound selfs : forall items, intersects_loop selfs items = true -> Exists (fun s => Exists (fun i => item_intersects s i = true) items) selfs.
Proof.
  induction selfs as [|s selfs IH]; [discriminate |].
  induction items as [|i items IHi]; [discriminate |]. cbn. destruct (item_intersects s i) eqn:E; [intros _; left; now left |].
  destruct (is_higher i s).
  - intros H. right. now apply IH.
  - intros H. apply IHi in H. rewrite Exists_exists in *. destruct H as (x & Ix & H). exists x. split; [exact Ix |]. now right.
Qed.

Theorem raw_intersects_sound a b :
  Forall made (extract a) -> Forall made (extract b) -> Forall worded (bounds a) -> Forall worded (bounds b) ->
  Forall (fun i => item_is_empty i = false) (extract a) -> Forall (fun i => item_is_empty i = false) (extract b) ->
  intersects a b = true -> exists v, worded v /\ in_set a v /\ in_set b v.
Proof.
  intros Ma Mb Wa Wb Ea Eb H. rewrite bounds_extract in Wa, Wb.
  assert (G : Exists (fun s => Exists (fun i => intersects (Item s) (Item i) = true) (extract b)) (extract a)).
  { destruct a as [|s|selfs]; cbn [extract].
    - discriminate.
    - constructor. destruct s as [u|? ? ? ?].
      + cbn [intersects] in H. apply in_set_contains, in_extract in H. rewrite Exists_exists in *. destruct H as (i & I & H). exists i. split; [exact I |]. cbn [intersects contains]. now apply in_item_contains.
      + destruct b as [|j|l]; [discriminate | constructor; exact H |]. cbn [intersects] in H. apply existsb_exists in H as (i & I & H). apply Exists_exists. exists i. now rewrite <- item_intersects_sets.
    - cbn [intersects] in H. apply intersects_loop_sound in H. rewrite Exists_exists in *. destruct H as (s & Is & H). exists s. split; [exact Is |]. rewrite Exists_exists in *. destruct H as (i & I & H). exists i. now rewrite <- item_intersects_sets. }
  apply Exists_exists in G as (s & Is & G). apply Exists_exists in G as (i & Ii & G). rewrite Forall_forall in Ma, Mb, Ea, Eb.
  assert (Ws : Forall worded (item_bounds s)) by (apply Forall_forall; intros x Ix; rewrite Forall_forall in Wa; apply Wa, in_flat_map; eauto).
  assert (Wi : Forall worded (item_bounds i)) by (apply Forall_forall; intros x Ix; rewrite Forall_forall in Wb; apply Wb, in_flat_map; eauto).
  apply (loose_intersects_exact s i (Ma s Is) (Mb i Ii) Ws Wi (Ea s Is) (Eb i Ii)) in G as (v & Wv & A & B).
  exists v. split; [exact Wv |]. rewrite !in_extract, !Exists_exists. split; [exists s | exists i]; auto.
Qed.

Lemma item_intersection_sets s o : item_intersection s o = intersection (Item s) (Item o).
Proof. destruct s, o; reflexivity. Qed.

Lemma intersection_loop_sound selfs : Forall made selfs -> forall items xs, Forall made items -> intersection_loop selfs items = Ok xs ->
  Forall made xs /\ forall v, Exists (fun i => in_item i v) xs -> Exists (fun i => in_item i v) selfs /\ Exists (fun i => in_item i v) items.
Proof.
  induction selfs as [|s selfs IH]; intros Ms; [intros items xs _ [= <-]; split; [constructor |]; intros v V; inversion V |].
  inversion Ms as [|? ? M1 M2]; subst. specialize (IH M2).
  induction items as [|i items IHi]; intros xs Mi E; [cbn in E; injection E as <-; split; [constructor |]; intros v V; inversion V |].
  inversion Mi as [|? ? N1 N2]; subst. cbn in E. rewrite item_intersection_sets in E.
  destruct (loose_intersection s i M1 N1) as (r & Er & Hm & _ & Hr). rewrite Er in E. cbn [bind] in E.
  match type of E with bind ?x _ = _ => destruct x as [rest|e] eqn:ER end; [| discriminate]. cbn [bind] in E. injection E as <-.
  assert (G : Forall made rest /\ forall v, Exists (fun i => in_item i v) rest -> Exists (fun i => in_item i v) (s :: selfs) /\ Exists (fun i => in_item i v) (i :: items)).
  { destruct (is_higher i s).
    - destruct (IH (i :: items) rest Mi ER) as [A B]. split; [exact A |]. intros v V. apply B in V as [V1 V2]. split; [now right | exact V2].
    - destruct (IHi rest N2 ER) as [A B]. split; [exact A |]. intros v V. apply B in V as [V1 V2]. split; [exact V1 | now right]. }
  destruct G as [G1 G2]. destruct r as [|x|l]; [split; assumption | | split; assumption]. split; [constructor; [now apply Hm | exact G1] |].
  intros v V. rewrite Exists_cons in V. destruct V as [V|V]; [| now apply G2]. apply in_item_contains in V. apply (Hr v) in V as [V1 V2]. split; now left.
Qed.

Lemma union_intersection_sound selfs b r v : Forall made selfs -> Forall made (extract b) -> union_intersection selfs b = Ok r ->
  in_set r v -> Exists (fun i => in_item i v) selfs /\ in_set b v.
Proof.
  intros Ms Mb E V. unfold union_intersection in E. destruct (intersection_loop selfs (extract b)) as [xs|e] eqn:EL; [| discriminate]. cbn [bind] in E.
  destruct (intersection_loop_sound selfs Ms (extract b) xs Mb EL) as [Mx Hx]. rewrite in_extract. apply Hx.
  apply (raw_merge_sound (map Item xs) r v) in E; [| | exact V].
  - rewrite Exists_exists in *. destruct E as (a & Ia & A). apply in_map_iff in Ia as (i & <- & Ii). exists i. auto.
  - apply Forall_forall. intros a Ia. apply in_map_iff in Ia as (i & <- & Ii). rewrite Forall_forall in Mx. constructor; [now apply Mx | constructor].
Qed.

Theorem raw_intersection_sound a b r v : Forall made (extract a) -> Forall made (extract b) -> intersection a b = Ok r -> in_set r v -> in_set a v /\ in_set b v.
Proof.
  intros Ma Mb E V. destruct a as [|s|selfs]; cbn [intersection] in E.
  - injection E as <-. destruct V.
  - cbn [extract] in Ma. inversion Ma as [|? ? Ms _]; subst. destruct s as [u|m M c d].
    + destruct (contains b u) eqn:C; injection E as <-; [| destruct V]. split; [exact V |]. apply in_set_contains in C. apply in_extract in C. apply in_extract. rewrite Exists_exists in *. destruct C as (i & Ii & C).
      exists i. split; [exact Ii |]. rewrite Forall_forall in Mb. apply (member_eq i u v); [now apply made_valid, Mb | exact V | exact C].
    + destruct b as [|o|l].
      * injection E as <-. destruct V.
      * cbn [extract] in Mb. inversion Mb as [|? ? Mo _]; subst. rewrite item_intersection_sets in E. destruct (loose_intersection _ o Ms Mo) as (r' & E' & _ & _ & H). rewrite E in E'. injection E' as <-. apply H. now apply in_set_contains.
      * destruct (union_intersection_sound l (Item (Range m M c d)) r v Mb Ma E V) as [A B]. auto.
  - now apply (union_intersection_sound selfs b r v).
Qed.

Theorem raw_item_intersects s b v : made s -> Forall made (extract b) -> in_item s v -> in_set b v -> intersects (Item s) b = true.
Proof.
  intros Ms Mb A B. apply in_extract, Exists_exists in B as (i & Ii & B). rewrite Forall_forall in Mb. pose proof (loose_intersects s i v Ms (Mb i Ii) A B) as H.
  destruct s as [u|? ? ? ?].
  - cbn [intersects]. apply in_set_contains, in_extract, Exists_exists. exists i. split; [exact Ii |]. cbn [intersects contains] in H. now apply in_item_contains.
  - destruct b as [|j|l]; [destruct Ii | destruct Ii as [<-|[]]; exact H |]. cbn [intersects]. apply existsb_exists. exists i. split; [exact Ii |]. now rewrite item_intersects_sets.
Qed.

Theorem raw_range_includes s b : is_range s -> made s -> Forall made (extract b) -> Forall worded (item_bounds s) -> Forall worded (bounds b) ->
  Forall (fun i => item_is_empty i = false) (extract b) ->
  includes (Item s) b = true <-> forall v, worded v -> in_set b v -> in_item s v.
Proof.
  intros R Ms Mb Ws Wb Eb. split.
  - intros H v _ V. apply (raw_includes_sound (Item s) b v); auto. constructor; [exact Ms | constructor].
  - intros H. rewrite bounds_extract in Wb.
    assert (G : forall i, In i (extract b) -> item_includes s i = true).
    { intros i Ii. rewrite item_includes_sets. rewrite Forall_forall in Mb, Eb. apply loose_includes_exact; auto.
      - apply Forall_forall. intros x Ix. rewrite Forall_forall in Wb. apply Wb, in_flat_map. eauto.
      - destruct s as [|? ? ? ?]; [destruct R |]. specialize (Eb i Ii). destruct i; cbn [includes_blind]; [tauto |]. rewrite Eb. discriminate.
      - intros v Wv V. apply H; [exact Wv |]. apply in_extract, Exists_exists. eauto. }
    destruct s as [|m M c d]; [destruct R |]. destruct b as [|j|l]; [reflexivity | apply G; now left |]. cbn [includes]. now apply forallb_forall.
Qed.
