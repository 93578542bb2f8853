(** Merging lists of proper items: when it succeeds and what it gives. *)

From Coq Require Import List ZArith NArith Bool Arith Sorting.Permutation Sorting.Sorted.
From Verif Require Import Py Segments Version VersionSets Orders Cuts SetItems SetChains.
Import ListNotations.
Local Opaque key.

Definition is_range (i : item) : Prop := match i with Point _ => False | _ => True end.

(** A point together with a range open at it from below: [Point.union] cannot
    join them. *)
Definition stuck_pair (s o : item) : Prop := ~ is_range s /\ hi s = lo o.

(** [x] is a range containing the version at [k] or ending just before it. *)
Definition touches (x : item) (k : vkey) : Prop :=
  is_range x /\ cle (lo x) (Fin (k, false)) /\ cle (Fin (k, false)) (hi x).

Definition stuck (xs : list item) : Prop :=
  exists v r, In (Point v) xs /\ In r xs /\ lo r = Fin (key v, true)
    /\ forall x, In x xs -> ~ touches x (key v).

Lemma point_ends i : ~ is_range i -> exists v, i = Point v.
Proof. destruct i; cbn; [eauto|tauto]. Qed.
Lemma range_dec i : is_range i \/ ~ is_range i.
Proof. destruct i; cbn; tauto. Qed.

Lemma lo_true_range r k : lo r = Fin (k, true) -> is_range r.
Proof. destruct r; cbn; [unfold lo; cbn; congruence|auto]. Qed.
Lemma point_lt k : clt (Fin (k, false)) (Fin (k, true)).
Proof. apply cut_step, cle_refl. Qed.

Lemma range_union_min s o :
  is_range s -> is_range o -> proper s -> proper o ->
  forall m i, (if is_lower s o then (i_min s, i_include_min s) else (i_min o, i_include_min o)) = (m, i) ->
  lo_of m i = cmin (lo s) (lo o) /\ (m = None -> i = false).
Proof.
  intros Rs Ro Ps Po m i. destruct (is_lower s o) eqn:E; intros [= <- <-].
  - apply (is_lower_iff _ _ Ps Po) in E. split.
    + change (lo_of (i_min s) (i_include_min s)) with (lo s). cminmax; corder.
    + destruct s; [destruct Rs|]. apply Ps.
  - apply (bool_iff _ _ (is_lower_iff _ _ Ps Po)) in E. split.
    + change (lo_of (i_min o) (i_include_min o)) with (lo o). cminmax; corder.
    + destruct o; [destruct Ro|]. apply Po.
Qed.
Lemma range_union_max s o :
  is_range s -> is_range o -> proper s -> proper o ->
  forall m i, (if is_higher s o then (i_max s, i_include_max s) else (i_max o, i_include_max o)) = (m, i) ->
  hi_of m i = cmax (hi s) (hi o) /\ (m = None -> i = false).
Proof.
  intros Rs Ro Ps Po m i. destruct (is_higher s o) eqn:E; intros [= <- <-].
  - apply (is_higher_iff _ _ Ps Po) in E. split.
    + change (hi_of (i_max s) (i_include_max s)) with (hi s). cminmax; corder.
    + destruct s; [destruct Rs|]. apply Ps.
  - apply (bool_iff _ _ (is_higher_iff _ _ Ps Po)) in E. split.
    + change (hi_of (i_max o) (i_include_max o)) with (hi o). cminmax; corder.
    + destruct o; [destruct Ro|]. apply Po.
Qed.

(** Something strictly inside: not the closed range on one version. *)
Lemma wide_proper min max imin imax i :
  (min = None -> imin = false) -> (max = None -> imax = false) ->
  is_range i -> proper i ->
  cle (lo (Range min max imin imax)) (lo i) -> cle (hi i) (hi (Range min max imin imax)) ->
  proper (Range min max imin imax).
Proof.
  intros H1 H2 R P L1 L2. pose proof (proper_lt _ P) as L.
  destruct (ends_ordered min max imin imax H1 H2) as [|(v & w & -> & -> & EK & -> & ->)]; auto.
  { corder. }
  exfalso. destruct i as [|imn imx ii1 ii2]; [exact R|].
  assert (E1 : lo (Range (Some v) (Some w) true true) = lo (Point v)) by reflexivity.
  assert (E2 : hi (Range (Some v) (Some w) true true) = hi (Point v)).
  { unfold hi; cbn. now rewrite EK. }
  rewrite E1 in L1. rewrite E2 in L2. apply (proper_not_point _ _ _ _ v P).
  rewrite point_lo, point_hi in *. split.
  - apply cle_antisym; [|exact L1]. apply cut_step. corder.
  - apply cle_antisym; [exact L2|]. apply cut_step'. corder.
Qed.

(** Touching items, no stuck pair, the first not above the second. *)
Lemma item_union_touching f s o :
  proper s -> proper o -> below s o -> cle (lo o) (hi s) -> ~ stuck_pair s o ->
  exists r, item_union (S f) s o = Ok (Item r) /\ proper r
    /\ lo r = lo s /\ hi r = cmax (hi s) (hi o)
    /\ (is_range r <-> is_range s \/ is_range o)
    /\ (~ is_range r -> r = s).
Proof.
  unfold below. intros Ps Po B T NS.
  pose proof (proper_lt _ Ps) as Ls. pose proof (proper_lt _ Po) as Lo.
  destruct s as [v|smin smax simin simax].
  - assert (T' : clt (lo o) (hi (Point v))).
    { apply cle_lt_eq in T as [T|T]; auto. exfalso. apply NS. split; cbn; auto. }
    assert (E0 : lo o = Fin (key v, false)).
    { apply cle_antisym; [apply cut_step, T'|exact B]. }
    destruct o as [w|omin omax oimin oimax].
    + rewrite point_lo in E0. assert (EK : key v = key w) by congruence.
      exists (Point v). cbn [item_union]. rewrite (proj2 (v_eq_key v w) EK).
      split; [reflexivity|]. rewrite !point_hi, EK. cbn [is_range proper].
      repeat split; try tauto. cminmax; reflexivity.
    + exists (Range omin omax oimin oimax).
      assert (EC : item_contains (Range omin omax oimin oimax) v = true).
      { apply item_contains_iff; [now apply proper_valid|]. unfold at_version. rewrite <- E0.
        split; [apply cle_refl|exact Lo]. }
      cbn [item_union]. rewrite EC. split; [reflexivity|]. split; [exact Po|].
      split; [exact E0|]. split; [|cbn; tauto].
      assert (clt (lo (Range omin omax oimin oimax)) (hi (Range omin omax oimin oimax))) by exact Lo.
      rewrite E0 in *. rewrite point_hi in *. rewrite <- cut_step' in Lo. cminmax; corder.
  - destruct o as [w|omin omax oimin oimax].
    + cbn [item_union]. destruct (item_contains (Range smin smax simin simax) w) eqn:EC.
      * exists (Range smin smax simin simax). split; [reflexivity|]. split; [exact Ps|].
        split; [reflexivity|]. split; [|cbn; tauto].
        apply item_contains_iff in EC as [C1 C2]; [|now apply proper_valid].
        unfold at_version in *. rewrite <- cut_step' in C2. rewrite point_hi. cminmax; corder.
      * assert (EH : hi (Range smin smax simin simax) = Fin (key w, false)).
        { apply cle_antisym; [|exact T].
          pose proof (bool_iff _ _ (item_contains_iff _ w (proper_valid _ Ps))) as X.
          apply X in EC. unfold at_version in EC. apply not_clt. intros Y. apply EC.
          split; [exact B|exact Y]. }
        rewrite range_hi in EH. unfold hi_of in EH. destruct smax as [M|]; [|discriminate].
        assert (EK : key w = key M) by congruence. assert (simax = false) by congruence. subst simax.
        assert (E1 : o_eq (Some w) smin = false).
        { destruct smin as [m|]; [|reflexivity]. destruct (o_eq (Some w) (Some m)) eqn:E; auto.
          exfalso. apply v_eq_key in E. destruct Ps as (_ & _ & Ps). revert Ps.
          unfold b_cmp; cbn. rewrite v_cmp_key, <- E, <- EK, (cmp_refl lawful_key). congruence. }
        rewrite E1. assert (E2 : o_eq (Some w) (Some M) = true) by (apply v_eq_key; exact EK).
        rewrite E2.
        assert (PR : proper (Range smin (Some M) simin true)).
        { destruct Ps as (P1 & P2 & P3). repeat split; auto. congruence. }
        rewrite (range_new_proper _ _ _ _ PR). cbn [bind]. eexists. split; [reflexivity|].
        split; [exact PR|]. split; [reflexivity|]. split; [|cbn; tauto].
        rewrite !range_hi, point_hi. unfold hi_of. rewrite EK. pose proof (point_lt (key M)).
        cminmax; corder.
    + cbn [item_union]. set (s := Range smin smax simin simax) in *.
      set (o := Range omin omax oimin oimax) in *.
      assert (EB : negb (is_adjacent s o) && negb (item_intersects s o) = false).
      { apply andb_false_iff. rewrite !negb_false_iff.
        rewrite (is_adjacent_iff _ _ Ps Po), (item_intersects_iff _ _ Ps Po).
        apply cle_lt_eq in T as [T|T]; [right|left; left; auto].
        split; [corder|exact T]. }
      rewrite EB.
      destruct (if is_lower s o then (smin, simin) else (omin, oimin)) as [um ui] eqn:EU.
      destruct (range_union_min s o I I Ps Po _ _ EU) as [U1 U2].
      destruct (if is_higher s o then (smax, simax) else (omax, oimax)) as [uM uI] eqn:EV.
      destruct (range_union_max s o I I Ps Po _ _ EV) as [V1 V2].
      assert (L1 : lo_of um ui = lo s) by (rewrite U1; cminmax; corder).
      assert (PR : proper (Range um uM ui uI)).
      { apply (wide_proper _ _ _ _ s); auto; [exact I|..].
        - rewrite range_lo, L1. apply cle_refl.
        - rewrite range_hi, V1. cminmax; corder. }
      rewrite (range_new_proper _ _ _ _ PR). cbn [bind]. eexists. split; [reflexivity|].
      split; [exact PR|]. split; [exact L1|]. split; [exact V1|]. cbn. tauto.
Qed.

Lemma stuck_pair_shape s o :
  proper o -> stuck_pair s o -> exists v, s = Point v /\ is_range o /\ lo o = Fin (key v, true).
Proof.
  intros Po [R E]. apply point_ends in R as [v ->]. exists v. rewrite point_hi in E.
  repeat split; auto. eapply lo_true_range; eauto.
Qed.

Lemma merge_loop_stuck_pair f v o :
  proper o -> lo o = Fin (key v, true) -> item_union f (Point v) o = Err RecursionError.
Proof.
  intros Po E. assert (R : is_range o) by (eapply lo_true_range; eauto).
  induction f as [|f IH]; [reflexivity|]. destruct o as [|omin omax oimin oimax]; [destruct R|].
  cbn [item_union]. set (o := Range omin omax oimin oimax) in *.
  assert (EC : item_contains o v = false).
  { apply (bool_iff _ _ (item_contains_iff o v (proper_valid _ Po))). intros [X _].
    rewrite E in X. unfold at_version in X. rewrite <- cut_step in X. now apply clt_irrefl in X. }
  rewrite EC. unfold merge_with. cbn [flat_map extract app existsb item_is_universal orb].
  assert (EU : is_unbounded o = false).
  { revert E. unfold o, lo, is_unbounded; cbn. destruct omin; [reflexivity|discriminate]. }
  change (item_is_universal o) with (is_unbounded o). rewrite EU.
  assert (ES : sort [Point v; o] = [Point v; o]).
  { change (sort [Point v; o]) with (insert (Point v) [o]).
    apply insert_first; [exact I|cbn; auto|]. intros y [<-|[]]. rewrite E, point_lo. apply point_lt. }
  rewrite ES. cbn [merge_loop].
  assert (EA : is_adjacent (Point v) o = true).
  { apply is_adjacent_iff; [exact I|exact Po|]. left. now rewrite E. }
  rewrite EA, orb_true_r, IH. reflexivity.
Qed.

Lemma merge_loop_spec f rest : forall cur,
  Forall proper (cur :: rest) -> StronglySorted below (cur :: rest) ->
  (~ stuck (cur :: rest) ->
     exists ys, merge_loop (item_union (S f)) cur rest = Ok ys /\ chain ys
       /\ (forall d, clt d (lo cur) -> chain_from d ys)
       /\ ys <> [] /\ forall c, dens ys c <-> dens (cur :: rest) c)
  /\ (stuck (cur :: rest) -> merge_loop (item_union (S f)) cur rest = Err RecursionError).
Proof.
  induction rest as [|x rest IH]; intros cur F S.
  - split.
    + intros _. exists [cur]. inversion F; subst. cbn [merge_loop chain chain_from]. repeat split; auto; congruence.
    + intros (v & r & [I1|[]] & [I2|[]] & E & _). exfalso. subst cur r.
      rewrite point_lo in E. congruence.
  - inversion F as [|? ? Pc F']; subst. inversion F' as [|? ? Px Fr]; subst.
    inversion S as [|? ? S' Bc]; subst. inversion S' as [|? ? Sr Bx]; subst.
    inversion Bc as [|? ? Bcx Bcr]; subst.
    pose proof (proper_lt _ Pc) as Lc. pose proof (proper_lt _ Px) as Lx.
    rewrite Forall_forall in Bx, Bcr. unfold below in *.
    cbn [merge_loop].
    destruct (item_intersects cur x || is_adjacent cur x) eqn:ET.
    + assert (T : cle (lo x) (hi cur)).
      { apply orb_true_iff in ET as [E|E].
        - apply (item_intersects_iff _ _ Pc Px) in E as [E1 E2]. corder.
        - apply (is_adjacent_iff _ _ Pc Px) in E as [E|E]; corder. }
      assert (SD : stuck_pair cur x \/ ~ stuck_pair cur x).
      { unfold stuck_pair. destruct (range_dec cur); [right; tauto|].
        destruct (clt_total (hi cur) (lo x)) as [L|[L|L]]; [right|left; tauto|right];
          intros [_ E]; corder. }
      destruct SD as [SP|NSP].
      * destruct (stuck_pair_shape _ _ Px SP) as (v & -> & Rx & Ex).
        split.
        -- intros NS. exfalso. apply NS. exists v, x. cbn [In]. repeat split; auto.
           intros y [<-|[<-|I]] (R & T1 & T2).
           ++ exact R.
           ++ rewrite Ex in T1. pose proof (point_lt (key v)). corder.
           ++ pose proof (Bx y I). rewrite Ex in *. pose proof (point_lt (key v)). corder.
        -- intros _. rewrite merge_loop_stuck_pair by assumption. reflexivity.
      * destruct (item_union_touching f cur x Pc Px Bcx T NSP) as (r & -> & Pr & Lr & Hr & Rr & Qr).
        cbn [bind].
        assert (Fr' : Forall proper (r :: rest)) by (constructor; auto).
        assert (Sr' : StronglySorted below (r :: rest)).
        { constructor; auto. apply Forall_forall. intros y I. unfold below. rewrite Lr. now apply Bcr. }
        assert (ST : stuck (r :: rest) <-> stuck (cur :: x :: rest)).
        { split; intros (v & q & Iv & Iq & Eq & NT).
          - assert (Iq' : In q rest).
            { destruct Iq as [<-|]; auto. exfalso. destruct Iv as [->|Iv].
              - rewrite point_lo in Eq. congruence.
              - pose proof (Bcr _ Iv) as X. rewrite point_lo, <- Lr, Eq, <- cut_step in X.
                now apply clt_irrefl in X. }
            destruct Iv as [->|Iv].
            + exists v, q. rewrite <- (Qr (fun f => f)). cbn [In]. repeat split; auto.
              intros y [<-|[<-|I]] Ty.
              * destruct Ty as [[] _].
              * destruct Ty as [Ty _]. destruct (proj2 Rr (or_intror Ty)).
              * apply (NT y); cbn; auto.
            + exists v, q. cbn [In]. repeat split; auto.
              intros y [<-|[<-|I]] (R1 & R2 & R3).
              * apply (NT r); [cbn; auto|]. split; [apply Rr; auto|]. rewrite Lr, Hr.
                split; [exact R2|]. cminmax; corder.
              * apply (NT r); [cbn; auto|]. split; [apply Rr; auto|]. rewrite Lr, Hr.
                split; [corder|]. cminmax; corder.
              * apply (NT y); cbn; auto. repeat split; auto.
          - assert (SH : In (Point v) rest \/ cur = Point v \/ x = Point v) by (cbn in Iv; tauto).
            pose proof (point_lt (key v)) as PL.
            assert (NR : cur = Point v \/ x = Point v -> r = cur /\ lo cur = Fin (key v, false) /\ ~ is_range cur /\ ~ is_range x).
            { intros [->| ->].
              - assert (NX : ~ is_range x).
                { intros Rx. apply (NT x); [cbn; auto|]. split; [exact Rx|].
                  rewrite point_hi, point_lo in *.
                  assert (E : cle (lo x) (Fin (key v, false))).
                  { apply cut_step. apply cle_lt_eq in T as [T|T]; auto. exfalso. apply NSP.
                    split; cbn; auto. }
                  split; [exact E|]. corder. }
                assert (NR : ~ is_range r) by (rewrite Rr; cbn; tauto).
                rewrite (Qr NR). cbn; auto.
              - assert (NC : ~ is_range cur).
                { intros Rc. apply (NT cur); [cbn; auto|]. split; [exact Rc|].
                  rewrite point_lo in *. split; [exact Bcx|exact T]. }
                assert (NR : ~ is_range r) by (rewrite Rr; cbn; tauto).
                rewrite (Qr NR). destruct (point_ends _ NC) as [u ->]. rewrite point_lo, point_hi in *.
                split; [reflexivity|]. split; [|cbn; tauto].
                apply cle_antisym; [exact Bcx|].
                apply cut_step. apply cle_lt_eq in T as [T|T]; auto. congruence. }
            assert (Iq' : In q rest).
            { destruct Iq as [<-|[<-|]]; auto; exfalso.
              - destruct SH as [I1|SH].
                + pose proof (Bcr _ I1) as X. rewrite point_lo in X. rewrite Eq in *. corder.
                + destruct (NR SH) as (_ & E & _). congruence.
              - destruct SH as [I1|SH].
                + pose proof (Bx _ I1) as X. rewrite point_lo in X. rewrite Eq in *. corder.
                + destruct (NR SH) as (_ & E & _ & N). apply N. eapply lo_true_range; eauto. }
            destruct SH as [I1|SH].
            + exists v, q. cbn [In]. repeat split; auto.
              intros y [<-|I] (R1 & R2 & R3).
              2:{ apply (NT y); cbn; auto. repeat split; auto. }
              pose proof (Bcr _ I1) as X1. pose proof (Bx _ I1) as X2. rewrite point_lo in X1, X2.
              rewrite Hr in R3.
              assert (RC : is_range cur -> clt (hi cur) (Fin (key v, false))).
              { intros Rc. apply not_cle. intros Y. apply (NT cur); [cbn; auto|]. repeat split; auto. }
              assert (RX : is_range x -> clt (hi x) (Fin (key v, false))).
              { intros Rx. apply not_cle. intros Y. apply (NT x); [cbn; auto|]. repeat split; auto. }
              destruct (range_dec cur) as [Rc|Rc], (range_dec x) as [Rx|Rx].
              * specialize (RC Rc). specialize (RX Rx). cminmax; corder.
              * specialize (RC Rc). clear RX. destruct (point_ends _ Rx) as [u ->]. rewrite point_lo, point_hi in *.
                assert (E : clt (Fin (key u, false)) (Fin (key v, false))) by corder.
                rewrite <- cut_step' in E.
                assert (E2 : hi cur <> Fin (key u, true) \/ True) by auto.
                assert (clt (Fin (key u, true)) (Fin (key v, false)) \/ Fin (key u, true) = Fin (key v, false)) by (now apply cle_lt_eq).
                destruct H as [H|H]; [cminmax; corder|congruence].
              * specialize (RX Rx). clear RC. destruct (point_ends _ Rc) as [u ->]. rewrite point_lo, point_hi in *.
                assert (E : clt (Fin (key u, false)) (Fin (key v, false))) by corder.
                rewrite <- cut_step' in E.
                assert (clt (Fin (key u, true)) (Fin (key v, false)) \/ Fin (key u, true) = Fin (key v, false)) by (now apply cle_lt_eq).
                destruct H as [H|H]; [cminmax; corder|congruence].
              * exfalso. apply Rr in R1. tauto.
            + destruct (NR SH) as (-> & E & N1 & N2). destruct (point_ends _ N1) as [u ->].
              exists u, q. rewrite point_lo in E. assert (EK : key u = key v) by congruence.
              rewrite EK. cbn [In]. repeat split; auto. intros y [<-|I] Ty; [destruct Ty as [[] _]|].
              apply (NT y); cbn; auto. }
        destruct (IH r Fr' Sr') as [IH1 IH2]. split.
        -- intros NS. rewrite <- ST in NS. destruct (IH1 NS) as (ys & E & C & CF & NE & D).
           exists ys. repeat split; auto.
           ++ intros d Ld. apply CF. now rewrite Lr.
           ++ intros Dc. apply D in Dc. rewrite !dens_cons in *. unfold den in *. rewrite Lr, Hr in Dc.
              destruct Dc as [[D1 D2]|]; auto.
              destruct (clt_cle_dec c (hi cur)) as [Y|Y]; [left; auto|]. right. left.
              split; [corder|]. revert D2. cminmax; intros; corder.
           ++ intros Dc. apply D. rewrite !dens_cons in *. unfold den in *. rewrite Lr, Hr.
              destruct Dc as [[D1 D2]|[[D1 D2]|]]; auto; left.
              ** split; [auto|]. cminmax; corder.
              ** split; [corder|]. cminmax; corder.
        -- intros SK. apply IH2, ST, SK.
    + apply orb_false_iff in ET as [E1 E2].
      assert (G : clt (hi cur) (lo x)).
      { apply (bool_iff _ _ (item_intersects_iff _ _ Pc Px)) in E1.
        apply (bool_iff _ _ (is_adjacent_iff _ _ Pc Px)) in E2. unfold overlap in E1.
        destruct (clt_cle_dec (hi cur) (lo x)) as [Y|Y]; auto. exfalso.
        apply cle_lt_eq in Y as [Y|Y]; [|now apply E2; left]. apply E1. split; [corder|exact Y]. }
      assert (ST : stuck (x :: rest) <-> stuck (cur :: x :: rest)).
      { split; intros (v & q & Iv & Iq & Eq & NT); exists v, q.
        - split; [now right|]. split; [now right|]. split; [exact Eq|]. intros y [<-|I] (R1 & R2 & R3); [|apply (NT y); auto; repeat split; auto].
          destruct Iv as [->|I1].
          + rewrite point_lo in *. corder.
          + pose proof (Bx _ I1) as X. rewrite point_lo in X. corder.
        - pose proof (point_lt (key v)) as PL.
          assert (Hc : cur <> Point v).
          { intros ->. rewrite point_hi in *.
            assert (X : cle (lo x) (lo q)).
            { destruct Iq as [<-|[<-|I1]]; [rewrite point_lo in Eq; congruence|apply cle_refl|now apply Bx]. }
            rewrite Eq in X. corder. }
          assert (Iv' : In (Point v) (x :: rest)) by (destruct Iv; tauto).
          assert (Hq : cur <> q).
          { intros ->. rewrite Eq in *. destruct Iv' as [->|I1].
            - rewrite point_lo in *. corder.
            - pose proof (Bcr _ I1) as X. rewrite point_lo in X. corder. }
          repeat split; auto.
          + destruct Iq as [|Iq]; [contradiction|exact Iq].
          + intros y I. apply NT. now right. }
      destruct (IH x F' S') as [IH1 IH2]. split.
      * intros NS. rewrite <- ST in NS. destruct (IH1 NS) as (ys & E & C & CF & NE & D).
        rewrite E. cbn [bind]. exists (cur :: ys). specialize (CF _ G).
        split; [reflexivity|]. split; [cbn; auto|]. split; [intros d Ld; cbn; auto|].
        split; [congruence|]. intros c. now rewrite !dens_cons, D, dens_cons.
      * intros SK. rewrite <- ST in SK. now rewrite (IH2 SK).
Qed.

Lemma stuck_perm xs ys : Permutation xs ys -> stuck xs <-> stuck ys.
Proof.
  assert (A : forall xs ys, Permutation xs ys -> stuck xs -> stuck ys).
  { clear. intros xs ys P (v & q & I1 & I2 & E & N). exists v, q.
    repeat split; auto; try (eapply Permutation_in; eauto).
    intros y I. apply N. eapply Permutation_in; [apply Permutation_sym|]; eauto. }
  intros P. split; apply A; auto. now apply Permutation_sym.
Qed.

(** [VersionUnion.of] on proper items. *)
Theorem merge_with_spec f sets :
  Forall proper (flat_map extract sets) ->
  (~ stuck (flat_map extract sets) ->
     exists r, merge_with (item_union (S f)) sets = Ok r /\ canon r
       /\ forall c, dset r c <-> dens (flat_map extract sets) c)
  /\ (stuck (flat_map extract sets) -> merge_with (item_union (S f)) sets = Err RecursionError).
Proof.
  unfold merge_with. generalize (flat_map extract sets). intros xs F.
  destruct xs as [|x0 xs0] eqn:EX.
  { split.
    - intros _. exists Empty. repeat split; auto.
    - intros (v & q & [] & _). }
  rewrite <- EX in *.
  destruct (existsb item_is_universal xs) eqn:EU.
  - apply existsb_exists in EU as (u & I & E). rewrite Forall_forall in F.
    apply item_universal_iff in E as [E1 E2]; [|now apply proper_valid, F].
    split.
    + intros _. exists UNIVERSAL_SET. repeat split; try (cbn; auto; fail).
      * intros H. exists u. split; auto. unfold den. rewrite E1, E2.
        destruct H as (w & [<-|[]] & [_ H]). split; [apply cneg_le|exact H].
      * intros (w & Iw & [H1 H2]). exists UNIVERSAL. split; [cbn; auto|].
        split; [apply cneg_le|]. pose proof (cpos_ge (hi w)).
        change (clt c PosInf). corder.
    + intros (v & q & I1 & I2 & Eq & N). exfalso. apply (N u I). repeat split.
      * destruct u; cbn; auto. discriminate.
      * rewrite E1. apply cneg_le.
      * rewrite E2. apply cpos_ge.
  - assert (P := sort_perm xs). assert (Fs : Forall proper (sort xs)).
    { eapply Permutation_Forall; [apply Permutation_sym, P|exact F]. }
    assert (SS := sort_sorted _ F).
    destruct (sort xs) as [|x rest] eqn:ES.
    { exfalso. apply Permutation_nil in P. congruence. }
    destruct (merge_loop_spec f rest x Fs SS) as [H1 H2]. split.
    + intros NS. assert (NS' : ~ stuck (x :: rest)) by (rewrite (stuck_perm _ _ P); exact NS).
      destruct (H1 NS') as (ys & E & C & _ & NE & D). rewrite E. cbn [bind].
      exists (of_items ys). split; [destruct ys as [|y [|y' ys]]; [congruence|reflexivity|reflexivity]|].
      split; [now apply canon_of_items|]. intros c. unfold dset. rewrite extract_of_items, D.
      now apply dens_perm.
    + intros SK. rewrite <- (stuck_perm _ _ P) in SK. now rewrite (H2 SK).
Qed.
