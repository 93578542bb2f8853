(** The set operations on canonical sets, in terms of cuts. *)

From Coq Require Import List ZArith NArith Bool Arith Lia.
From Verif Require Import Py Segments Version VersionSets Orders Cuts SetItems SetChains SetMerge.
Import ListNotations.
Local Opaque key.

(** ** Union *)

Lemma two_items s o c : dens (flat_map extract [Item s; Item o]) c <-> den s c \/ den o c.
Proof. cbn [flat_map extract app]. rewrite !dens_cons, dens_nil. tauto. Qed.

Lemma dset_item i c : dset (Item i) c <-> den i c.
Proof. unfold dset. cbn [extract]. rewrite dens_cons, dens_nil. tauto. Qed.

Lemma item_union_spec f s o :
  proper s -> proper o ->
  (~ stuck_pair s o -> exists r, item_union (S (S f)) s o = Ok r /\ canon r
      /\ forall c, dset r c <-> den s c \/ den o c)
  /\ (stuck_pair s o -> item_union (S (S f)) s o = Err RecursionError).
Proof.
  intros Ps Po. split.
  2:{ intros SP. destruct (stuck_pair_shape _ _ Po SP) as (v & -> & R & E).
      now apply merge_loop_stuck_pair. }
  intros NS.
  assert (M : ~ stuck (flat_map extract [Item s; Item o]) ->
     exists r, merge_with (item_union (S f)) [Item s; Item o] = Ok r /\ canon r
      /\ forall c, dset r c <-> den s c \/ den o c).
  { intros N. destruct (merge_with_spec f [Item s; Item o]) as [H _]; [cbn; auto|].
    destruct (H N) as (r & E & C & D). exists r. split; [exact E|]. split; [exact C|]. intros c. now rewrite D, two_items. }
  cbn [flat_map extract app] in M.
  destruct s as [v|smin smax simin simax].
  - destruct o as [w|omin omax oimin oimax].
    + cbn [item_union]. destruct (v_eq v w) eqn:E.
      * apply v_eq_key in E. exists (Item (Point v)). split; [reflexivity|]. split; [exact Ps|].
        intros c. rewrite dset_item. unfold den. rewrite !point_lo, !point_hi, E. tauto.
      * apply M. intros (u & q & _ & [<-|[<-|[]]] & X & _); rewrite point_lo in X; congruence.
    + change (item_union (S (S f)) (Point v) (Range omin omax oimin oimax)) with
        (if item_contains (Range omin omax oimin oimax) v then Ok (Item (Range omin omax oimin oimax))
         else merge_with (item_union (S f)) [Item (Point v); Item (Range omin omax oimin oimax)]).
      set (o := Range omin omax oimin oimax) in *.
      destruct (item_contains o v) eqn:E.
      * exists (Item o). split; [reflexivity|]. split; [exact Po|]. intros c. rewrite dset_item.
        split; [auto|].
        apply item_contains_iff in E as [E1 E2]; [|now apply proper_valid].
        unfold at_version in *. rewrite <- cut_step' in E2.
        intros [[H1 H2]|]; auto. rewrite point_lo, point_hi in *. split; corder.
      * apply M. intros (u & q & [I1|[I1|[]]] & [I2|[I2|[]]] & X & _); try discriminate.
        -- subst q. rewrite point_lo in X. congruence.
        -- subst q. injection I1 as <-. apply NS. split; cbn; auto.
  - destruct o as [w|omin omax oimin oimax].
    + change (item_union (S (S f)) (Range smin smax simin simax) (Point w)) with
        (if item_contains (Range smin smax simin simax) w then Ok (Item (Range smin smax simin simax))
         else if o_eq (Some w) smin then
                bind (range_new smin smax true simax) (fun r => Ok (Item r))
              else if o_eq (Some w) smax then
                bind (range_new smin smax simin true) (fun r => Ok (Item r))
              else merge_with (item_union (S f)) [Item (Range smin smax simin simax); Item (Point w)]).
      pose proof Ps as (S1 & S2 & S3).
      set (s := Range smin smax simin simax) in *.
      destruct (item_contains s w) eqn:E.
      * exists (Item s). split; [reflexivity|]. split; [exact Ps|]. intros c. rewrite dset_item.
        split; [auto|].
        apply item_contains_iff in E as [E1 E2]; [|now apply proper_valid].
        unfold at_version in *. rewrite <- cut_step' in E2.
        intros [|[H1 H2]]; auto. rewrite point_lo, point_hi in *. split; corder.
      * apply (bool_iff _ _ (item_contains_iff s w (proper_valid _ Ps))) in E.
        unfold at_version in E. pose proof (proper_lt _ Ps) as L.
        pose proof (point_lt (key w)) as PL.
        destruct (o_eq (Some w) smin) eqn:E1; [|destruct (o_eq (Some w) smax) eqn:E2].
        -- destruct smin as [m|]; [|discriminate]. apply v_eq_key in E1.
           assert (PR : proper (Range (Some m) smax true simax)) by (repeat split; auto; congruence).
           rewrite (range_new_proper _ _ _ _ PR). cbn [bind]. eexists. split; [reflexivity|].
           split; [exact PR|]. intros c. rewrite dset_item. unfold den.
           assert (EL : lo s = Fin (key w, negb simin)) by (unfold s, lo; cbn; now rewrite E1).
           assert (Ei : simin = false).
           { destruct simin; auto. exfalso. cbn [negb] in EL. apply E. rewrite <- EL. split; [apply cle_refl|exact L]. }
           subst simin. cbn [negb] in EL.
           assert (EL' : lo (Range (Some m) smax true simax) = Fin (key w, false)) by (unfold lo; cbn; now rewrite E1).
           change (hi (Range (Some m) smax true simax)) with (hi s).
           rewrite EL', EL, point_lo, point_hi. rewrite EL in L. clear EL EL' E.
           split.
           ++ intros [H1 H2]. destruct (clt_cle_dec c (Fin (key w, true))); auto.
           ++ intros [[H1 H2]|[H1 H2]]; split; corder.
        -- destruct smax as [m|]; [|discriminate]. apply v_eq_key in E2.
           assert (PR : proper (Range smin (Some m) simin true)) by (repeat split; auto; congruence).
           rewrite (range_new_proper _ _ _ _ PR). cbn [bind]. eexists. split; [reflexivity|].
           split; [exact PR|]. intros c. rewrite dset_item. unfold den.
           assert (EL : hi s = Fin (key w, simax)) by (unfold s, hi; cbn; now rewrite E2).
           assert (Ei : simax = false).
           { destruct simax; auto. exfalso. apply E. rewrite EL in *.
             split; [now apply cut_step|exact PL]. }
           subst simax.
           assert (EL' : hi (Range smin (Some m) simin true) = Fin (key w, true)) by (unfold hi; cbn; now rewrite E2).
           change (lo (Range smin (Some m) simin true)) with (lo s).
           rewrite EL', EL, point_lo, point_hi. rewrite EL in L. clear EL EL' E.
           split.
           ++ intros [H1 H2]. destruct (clt_cle_dec c (Fin (key w, false))); auto.
           ++ intros [[H1 H2]|[H1 H2]]; split; corder.
        -- apply M. intros (u & q & [I1|[I1|[]]] & [I2|[I2|[]]] & X & _); try discriminate.
           ++ subst q. injection I1 as <-. unfold s, lo in X; cbn in X.
              destruct smin as [m|]; [|discriminate]. cbn in E1.
              assert (EK : key w = key m) by congruence.
              rewrite (proj2 (v_eq_key _ _) EK) in E1. discriminate.
           ++ subst q. rewrite point_lo in X. congruence.
    + set (s := Range smin smax simin simax) in *. set (o := Range omin omax oimin oimax) in *.
      change (item_union (S (S f)) s o) with
        (if negb (is_adjacent s o) && negb (item_intersects s o)
         then merge_with (item_union (S f)) [Item s; Item o]
         else
           let '(umin, uimin) := if is_lower s o then (smin, simin) else (omin, oimin) in
           let '(umax, uimax) := if is_higher s o then (smax, simax) else (omax, oimax) in
           bind (range_new umin umax uimin uimax) (fun r => Ok (Item r))).
      pose proof (proper_lt _ Ps) as Ls. pose proof (proper_lt _ Po) as Lo.
      destruct (negb (is_adjacent s o) && negb (item_intersects s o)) eqn:EB.
      * apply M. intros (u & q & [I1|[I1|[]]] & _); discriminate.
      * destruct (if is_lower s o then (smin, simin) else (omin, oimin)) as [um ui] eqn:EU.
        destruct (range_union_min s o I I Ps Po _ _ EU) as [U1 U2].
        destruct (if is_higher s o then (smax, simax) else (omax, oimax)) as [uM uI] eqn:EV.
        destruct (range_union_max s o I I Ps Po _ _ EV) as [V1 V2].
        assert (PR : proper (Range um uM ui uI)).
        { apply (wide_proper _ _ _ _ s); auto; [exact I|..].
          - rewrite range_lo, U1. cminmax; corder.
          - rewrite range_hi, V1. cminmax; corder. }
        rewrite (range_new_proper _ _ _ _ PR). cbn [bind]. eexists. split; [reflexivity|].
        split; [exact PR|]. intros c. rewrite dset_item. unfold den. rewrite range_lo, range_hi, U1, V1.
        assert (T : cle (lo s) (hi o) /\ cle (lo o) (hi s)).
        { apply andb_false_iff in EB. rewrite !negb_false_iff in EB.
          rewrite (is_adjacent_iff _ _ Ps Po), (item_intersects_iff _ _ Ps Po) in EB.
          destruct EB as [[E|E]|[E1 E2]]; split; corder. }
        destruct T as [T1 T2]. split.
        -- intros [H1 H2]. destruct (clt_cle_dec c (lo s)) as [X|X].
           { right. split; revert H1 H2; cminmax; intros; corder. }
           destruct (clt_cle_dec c (hi s)) as [Y|Y]; [auto|].
           right. split; revert H1 H2; cminmax; intros; corder.
        -- intros [[H1 H2]|[H1 H2]]; split; cminmax; corder.
Qed.

Lemma chain_no_adjacent xs x y : chain xs -> In x xs -> In y xs -> hi x <> lo y.
Proof.
  intros C Ix Iy E. revert C Ix Iy. induction xs as [|z xs IH]; intros C Ix Iy; [destruct Ix|].
  pose proof (chain_proper _ C) as F. inversion F as [|? ? Pz F']; subst. rewrite Forall_forall in F'.
  destruct C as [_ C]. pose proof (proper_lt _ Pz).
  destruct Ix as [->|Ix], Iy as [->|Iy].
  - corder.
  - pose proof (chain_from_lb _ _ _ C Iy). corder.
  - pose proof (chain_from_lb _ _ _ C Ix). pose proof (proper_lt _ (F' _ Ix)). corder.
  - apply IH; auto. eapply chain_from_chain, C.
Qed.

Lemma chain_not_stuck xs : chain xs -> ~ stuck xs.
Proof.
  intros C (v & q & I1 & I2 & E & _). apply (chain_no_adjacent xs (Point v) q C I1 I2).
  now rewrite E.
Qed.

(** When [a.union(b)] does not return. *)
Definition union_stuck (a b : vset) : Prop :=
  match a, b with
  | Empty, _ | _, Empty => False
  | Item s, Item o => stuck_pair s o
  | _, _ => stuck (extract a ++ extract b)
  end.

Lemma merge_spec sets :
  Forall proper (flat_map extract sets) ->
  (~ stuck (flat_map extract sets) -> exists r, merge sets = Ok r /\ canon r
     /\ forall c, dset r c <-> dens (flat_map extract sets) c)
  /\ (stuck (flat_map extract sets) -> merge sets = Err RecursionError).
Proof. apply (merge_with_spec 299). Qed.

Lemma merge2_spec a b :
  canon a -> canon b ->
  (~ stuck (extract a ++ extract b) -> exists r, merge [a; b] = Ok r /\ canon r
     /\ forall c, dset r c <-> dset a c \/ dset b c)
  /\ (stuck (extract a ++ extract b) -> merge [a; b] = Err RecursionError).
Proof.
  intros Ca Cb. pose proof (merge_spec [a; b]) as M.
  cbn [flat_map] in M. rewrite app_nil_r in M.
  assert (F : Forall proper (extract a ++ extract b)).
  { apply Forall_app. split; now apply canon_proper. }
  destruct (M F) as [M1 M2]. split; auto. intros NS. destruct (M1 NS) as (r & E & C & D).
  exists r. split; [exact E|]. split; [exact C|]. intros c. now rewrite D, dens_app.
Qed.

Theorem union_spec a b :
  canon a -> canon b ->
  (~ union_stuck a b -> exists r, union a b = Ok r /\ canon r
     /\ forall c, dset r c <-> dset a c \/ dset b c)
  /\ (union_stuck a b -> union a b = Err RecursionError).
Proof.
  intros Ca Cb. unfold union.
  assert (E0 : forall c, dset Empty c <-> False) by (intros; apply dens_nil).
  destruct a as [|s|xs].
  - split; [|intros []]. intros _. exists b. split; [reflexivity|]. split; [exact Cb|]. intros c. rewrite E0. tauto.
  - destruct b as [|o|ys].
    + split; [|destruct 1]. intros _. exists (Item s). split; [reflexivity|]. split; [exact Ca|]. intros c. rewrite E0. tauto.
    + destruct (item_union_spec 298 s o Ca Cb) as [H1 H2]. split; [|exact H2].
      intros N. destruct (H1 N) as (r & E & C & D). exists r.
      split; [exact E|]. split; [exact C|]. intros c. now rewrite D, !dset_item.
    + destruct s as [v|smin smax simin simax].
      * destruct (contains (Union ys) v) eqn:EC.
        -- apply contains_iff in EC as EC'; auto. destruct EC' as (x & Ix & [X1 X2]).
           unfold at_version in *.
           assert (Px : proper x).
           { pose proof (canon_proper _ Cb) as F. rewrite Forall_forall in F. auto. }
           split.
           ++ intros _. exists (Union ys). split; [reflexivity|]. split; [exact Cb|]. intros c.
              split; [auto|]. intros [H|H]; auto.
              exists x. split; auto. apply dset_item in H as [H1 H2].
              rewrite point_lo, point_hi in *. rewrite <- cut_step' in X2. split; corder.
           ++ intros (u & q & I1 & I2 & X & NT). exfalso.
              cbn [extract app] in I1, I2, NT.
              assert (Rx : is_range x \/ ~ is_range x) by apply range_dec.
              destruct I1 as [I1|I1].
              { injection I1 as ->. destruct Rx as [Rx|Rx].
                - apply (NT x); [right; auto|]. repeat split; auto. corder.
                - destruct (point_ends _ Rx) as [w ->]. rewrite point_lo, point_hi in *.
                  (* the point is in the chain, next to a range: impossible *)
                  assert (EK : key w = key u).
                  { rewrite <- cut_step' in X2. rewrite <- cut_step in X1.
                    assert (Y : cle (Fin (key u, true)) (Fin (key w, true))) by exact X2.
                    assert (Z : cle (Fin (key w, true)) (Fin (key u, true))).
                    { apply cut_step'. exact X1. }
                    pose proof (cle_antisym _ _ Y Z). congruence. }
                  destruct I2 as [<-|I2]; [rewrite point_lo in X; congruence|].
                  apply (chain_no_adjacent ys (Point w) q); [apply Cb|exact Ix|exact I2|].
                  rewrite point_hi, X, EK. reflexivity. }
              { destruct I2 as [<-|I2]; [rewrite point_lo in X; congruence|].
                apply (chain_no_adjacent ys (Point u) q); [apply Cb|exact I1|exact I2|].
                rewrite point_hi, X. reflexivity. }
        -- apply merge2_spec; auto.
      * pose proof (merge2_spec (Union ys) (Item (Range smin smax simin simax)) Cb Ca) as [M1 M2].
        assert (P : stuck (extract (Item (Range smin smax simin simax)) ++ extract (Union ys))
                    <-> stuck (extract (Union ys) ++ extract (Item (Range smin smax simin simax)))).
        { apply stuck_perm, Permutation.Permutation_app_comm. }
        cbn [union_stuck]. rewrite P. split; [|exact M2]. intros N.
        destruct (M1 N) as (r & E & C & D). exists r. split; [exact E|]. split; [exact C|]. intros c. rewrite D. tauto.
  - destruct b as [|o|ys].
    + split; [|destruct 1]. intros _. pose proof (merge2_spec (Union xs) Empty Ca Cb) as [M _].
      apply M. cbn [extract]. rewrite app_nil_r. apply chain_not_stuck, Ca.
    + apply merge2_spec; auto.
    + apply merge2_spec; auto.
Qed.

(** ** Intersection *)

Lemma intersection_loop_spec selfs : forall items,
  chain selfs -> chain items ->
  exists r, intersection_loop selfs items = Ok r /\ chain r
    /\ (forall d, chain_from d selfs \/ chain_from d items -> chain_from d r)
    /\ forall c, dens r c <-> dens selfs c /\ dens items c.
Proof.
  induction selfs as [|s selfs IHs].
  { intros items _ _. exists []. cbn. repeat split; auto; intros; rewrite dens_nil in *; tauto. }
  induction items as [|i items IHi]; intros Cs Ci.
  { exists []. cbn. repeat split; auto; intros; rewrite dens_nil in *; tauto. }
  change (intersection_loop (s :: selfs) (i :: items)) with
    (bind (item_intersection s i) (fun r =>
       bind (if is_higher i s then intersection_loop selfs (i :: items)
             else intersection_loop (s :: selfs) items) (fun rest =>
       Ok (match r with Item x => x :: rest | _ => rest end)))).
  destruct Cs as [Ps Cs'], Ci as [Pi Ci']. pose proof (proper_lt _ Ps) as Ls.
  pose proof (proper_lt _ Pi) as Li.
  assert (REST : exists rest,
     (if is_higher i s then intersection_loop selfs (i :: items)
      else intersection_loop (s :: selfs) items) = Ok rest
     /\ chain_from (cmin (hi s) (hi i)) rest
     /\ (forall d, chain_from d (s :: selfs) \/ chain_from d (i :: items) -> chain_from d rest)
     /\ forall c, dens rest c <-> clt (cmin (hi s) (hi i)) c /\ dens (s :: selfs) c /\ dens (i :: items) c).
  { destruct (is_higher i s) eqn:EH.
    - apply (is_higher_iff _ _ Pi Ps) in EH.
      destruct (IHs (i :: items)) as (r & E & C & CF & D); [eapply chain_from_chain, Cs'|now split|].
      exists r. split; [exact E|].
      assert (EM : cmin (hi s) (hi i) = hi s) by (cminmax; corder). rewrite EM.
      split; [apply CF; auto|]. split.
      { intros d [H|H]; apply CF; [left|right; exact H]. eapply chain_from_tail, H. }
      intros c. rewrite D, !dens_cons. split.
      + intros [H1 H2]. pose proof (dens_lb _ _ _ Cs' H1). auto.
      + intros (H0 & [[H1 H2]|H1] & H3); [corder|auto].
    - apply (bool_iff _ _ (is_higher_iff _ _ Pi Ps)) in EH.
      destruct IHi as (r & E & C & CF & D); [now split|eapply chain_from_chain, Ci'|].
      exists r. split; [exact E|].
      assert (EM : cmin (hi s) (hi i) = hi i) by (cminmax; corder). rewrite EM.
      split; [apply CF; auto|]. split.
      { intros d [H|H]; apply CF; [left; exact H|right]. eapply chain_from_tail, H. }
      intros c. rewrite D, !dens_cons. split.
      + intros [H1 H2]. pose proof (dens_lb _ _ _ Ci' H2). auto.
      + intros (H0 & H3 & [[H1 H2]|H1]); [corder|auto]. }
  destruct REST as (rest & E & CR & CD & D). rewrite E.
  assert (LOW : forall c, dens (s :: selfs) c -> dens (i :: items) c ->
                clt (cmin (hi s) (hi i)) c \/ (den s c /\ den i c)).
  { intros c H1 H2. rewrite dens_cons in H1, H2.
    destruct H1 as [[S1 S2]|H1], H2 as [[I1 I2]|H2].
    - right. unfold den. auto.
    - left. pose proof (dens_lb _ _ _ Ci' H2). cminmax; corder.
    - left. pose proof (dens_lb _ _ _ Cs' H1). cminmax; corder.
    - left. pose proof (dens_lb _ _ _ Cs' H1). pose proof (dens_lb _ _ _ Ci' H2). cminmax; corder. }
  destruct (item_intersection_spec s i Ps Pi) as [(OV & x & EX & Px & Lx & Hx)|(NO & EX)];
    rewrite EX; cbn [bind].
  - exists (x :: rest). split; [reflexivity|]. rewrite <- Hx in CR.
    split; [cbn; auto|]. split.
    + intros d H. cbn. split; [exact Px|]. split; [|exact CR]. rewrite Lx.
      destruct H as [H|H]; destruct H as (_ & H & _); cminmax; corder.
    + intros c. rewrite dens_cons, D. unfold den at 1. rewrite Lx, Hx. split.
      * intros [[H1 H2]|H]; [|tauto]. rewrite !dens_cons. unfold den.
        split; left; split; revert H1 H2; cminmax; intros; corder.
      * intros [H1 H2]. destruct (LOW c H1 H2) as [H|[[S1 S2] [I1 I2]]]; [right; auto|left].
        split; cminmax; corder.
  - exists rest. split; [reflexivity|]. split; [eapply chain_from_chain, CR|]. split; [exact CD|].
    intros c. rewrite D. split; [tauto|]. intros [H1 H2].
    destruct (LOW c H1 H2) as [H|[[S1 S2] [I1 I2]]]; [auto|].
    exfalso. apply NO. split; corder.
Qed.

Lemma merge_chain xs : chain xs -> merge (map Item xs) = Ok (of_items xs).
Proof.
  intros C. unfold merge. rewrite merge_with_chain; rewrite flat_map_extract_items; auto.
Qed.

Lemma union_intersection_spec selfs b :
  chain selfs -> canon b ->
  exists r, union_intersection selfs b = Ok r /\ canon r
    /\ forall c, dset r c <-> dens selfs c /\ dset b c.
Proof.
  intros Cs Cb. unfold union_intersection.
  destruct (intersection_loop_spec selfs (extract b) Cs (canon_chain _ Cb)) as (r & E & C & _ & D).
  rewrite E. cbn [bind]. rewrite merge_chain by exact C. exists (of_items r).
  split; [reflexivity|]. split; [now apply canon_of_items|]. intros c. unfold dset.
  now rewrite extract_of_items, D.
Qed.

Lemma dset_empty c : dset Empty c <-> False.
Proof. apply dens_nil. Qed.

Lemma item_intersection_dset s o :
  proper s -> proper o -> exists r, item_intersection s o = Ok r /\ canon r
    /\ forall c, dset r c <-> den s c /\ den o c.
Proof.
  intros Ps Po. destruct (item_intersection_spec s o Ps Po) as [(OV & x & EX & Px & Lx & Hx)|(NO & EX)].
  - exists (Item x). split; [exact EX|]. split; [exact Px|]. intros c. rewrite dset_item.
    unfold den. rewrite Lx, Hx. split.
    + intros [H1 H2]. split; split; revert H1 H2; cminmax; intros; corder.
    + intros [[H1 H2] [H3 H4]]. split; cminmax; corder.
  - exists Empty. split; [exact EX|]. split; [exact I|]. intros c. rewrite dset_empty.
    split; [tauto|]. intros [[H1 H2] [H3 H4]]. apply NO. split; corder.
Qed.

(** A point is in a set or outside it: what a set covers at a version, it
    covers just after it unless it ends there, and points have both ends. *)
Lemma den_point v c : den (Point v) c <-> c = at_version v.
Proof.
  unfold den. rewrite point_lo, point_hi, cut_step. split.
  - intros [H1 H2]. apply cle_antisym; auto.
  - intros ->. split; apply cle_refl.
Qed.

Theorem intersection_spec a b :
  canon a -> canon b ->
  exists r, intersection a b = Ok r /\ canon r /\ forall c, dset r c <-> dset a c /\ dset b c.
Proof.
  intros Ca Cb. destruct a as [|s|xs].
  - exists Empty. split; [reflexivity|]. split; [exact I|]. intros c. rewrite dset_empty. tauto.
  - destruct s as [v|smin smax simin simax].
    + cbn [intersection]. destruct (contains b v) eqn:EC; (eexists; split; [reflexivity|]).
      * split; [exact I|]. intros c. rewrite dset_item, den_point.
        apply contains_iff in EC; auto. split; [intros ->; auto|tauto].
      * split; [exact I|]. intros c. rewrite dset_item, den_point, dset_empty.
        apply (bool_iff _ _ (contains_iff b v Cb)) in EC. split; [tauto|]. intros [-> H]. auto.
    + destruct b as [|o|ys].
      * exists Empty. split; [reflexivity|]. split; [exact I|]. intros c. rewrite dset_empty. tauto.
      * destruct (item_intersection_dset _ o Ca Cb) as (r & E & C & D). exists r.
        split; [exact E|]. split; [exact C|]. intros c. now rewrite !dset_item.
      * destruct (union_intersection_spec ys (Item (Range smin smax simin simax))) as (r & E & C & D); auto.
        { apply Cb. }
        exists r. split; [exact E|]. split; [exact C|]. intros c. rewrite D. unfold dset. cbn. tauto.
  - destruct (union_intersection_spec xs b) as (r & E & C & D); auto; [apply Ca|].
    exists r. auto.
Qed.

(** ** Inclusion *)

Lemma includes_item s o :
  proper s -> proper o -> item_includes s o = true <-> forall c, den o c -> den s c.
Proof.
  intros Ps Po. rewrite (item_includes_iff _ _ Ps Po). pose proof (proper_lt _ Ps) as Ls.
  pose proof (proper_lt _ Po) as Lo. split.
  - intros [H1 H2] c [H3 H4]. split; corder.
  - intros H. destruct (H (lo o)) as [H1 H2]; [split; [apply cle_refl|exact Lo]|]. split; [exact H1|].
    destruct (clt_cle_dec (hi s) (hi o)) as [Y|Y]; auto. exfalso.
    destruct (H (hi s)) as [_ X]; [split; [corder|exact Y]|]. corder.
Qed.

Lemma includes_loop_spec selfs : forall items,
  chain selfs -> chain items ->
  includes_loop selfs items = true <-> forall c, dens items c -> dens selfs c.
Proof.
  induction selfs as [|s selfs IHs].
  { intros [|i items] _ Ci; cbn.
    - split; auto.
    - split; [discriminate|]. intros H. exfalso. eapply dens_nil, H.
      apply dens_cons. left. apply den_lo, Ci. }
  induction items as [|i items IHi]; intros Cs Ci.
  { cbn. split; auto. intros _ c H. now apply dens_nil in H. }
  change (includes_loop (s :: selfs) (i :: items)) with
    (if item_includes s i then includes_loop (s :: selfs) items else includes_loop selfs (i :: items)).
  pose proof Cs as [Ps Cs']. pose proof Ci as [Pi Ci'].
  pose proof (proper_lt _ Ps) as Ls. pose proof (proper_lt _ Pi) as Li.
  destruct (item_includes s i) eqn:EI.
  - rewrite (IHi Cs) by (eapply chain_tail, Ci). rewrite (includes_item _ _ Ps Pi) in EI.
    split; intros H c D.
    + apply dens_cons in D as [D|D]; [apply dens_cons; left; auto|now apply H].
    + apply H, dens_cons. auto.
  - rewrite (IHs (i :: items)) by (try exact Ci; eapply chain_tail, Cs).
    apply (bool_iff _ _ (item_includes_iff _ _ Ps Pi)) in EI.
    split; intros H c D; [apply dens_cons; right; now apply H|].
    assert (LI : clt (hi s) (lo i)).
    { assert (X : dens (s :: selfs) (lo i)) by (apply H, dens_cons; left; now apply den_lo).
      apply dens_cons in X as [[X1 X2]|X]; [|exact (dens_lb _ _ _ Cs' X)].
      exfalso. apply EI. split; [exact X1|].
      destruct (clt_cle_dec (hi s) (hi i)) as [Y|Y]; auto. exfalso.
      assert (Z : dens (s :: selfs) (hi s)) by (apply H, dens_cons; left; split; [corder|exact Y]).
      apply dens_cons in Z as [[Z1 Z2]|Z]; [corder|]. pose proof (dens_lb _ _ _ Cs' Z). corder. }
    pose proof (H c D) as X. apply dens_cons in X as [[X1 X2]|X]; auto. exfalso.
    apply dens_cons in D as [[D1 D2]|D]; [corder|]. pose proof (dens_lb _ _ _ Ci' D). corder.
Qed.

Lemma is_empty_canon a : canon a -> is_empty a = true <-> a = Empty.
Proof.
  destruct a as [|i|xs]; cbn; intros C; try (split; congruence).
  rewrite item_is_empty_proper by exact C. split; congruence.
Qed.

Lemma dset_lo a : canon a -> a <> Empty -> exists c, dset a c.
Proof.
  destruct a as [|i|[|x xs]]; intros C N.
  - congruence.
  - exists (lo i). apply dset_item, den_lo, C.
  - destruct C as [_ L]; cbn in L; lia.
  - exists (lo x). apply dens_cons. left. apply den_lo, C.
Qed.

Theorem includes_spec a b :
  canon a -> canon b -> includes a b = true <-> forall c, dset b c -> dset a c.
Proof.
  intros Ca Cb. destruct a as [|s|xs].
  - cbn [includes]. rewrite is_empty_canon by exact Cb. split.
    + intros -> c H. exact H.
    + intros H. destruct b as [|i|ys]; auto;
        destruct (dset_lo _ Cb) as [c D]; try congruence; apply H in D; now apply dset_empty in D.
  - destruct s as [v|smin smax simin simax].
    + cbn [includes]. rewrite orb_true_iff, (is_empty_canon _ Cb). split.
      * intros [->|H] c D; [now apply dset_empty in D|].
        destruct b as [|[w|]|]; try discriminate. apply v_eq_key in H.
        rewrite dset_item in D |- *. unfold den in *. rewrite !point_lo, !point_hi in *. now rewrite H.
      * intros H. destruct b as [|i|ys]; [auto|right|exfalso].
        -- pose proof (proj2 (includes_item (Point v) i Ca Cb)) as X.
           assert (Y : item_includes (Point v) i = true).
           { apply X. intros c D. apply dset_item, H, dset_item, D. }
           cbn in Y. rewrite (item_is_empty_proper _ Cb) in Y. exact Y.
        -- destruct Cb as [Cb L]. destruct ys as [|x [|y ys]]; cbn in L; try lia.
           destruct Cb as (Px & Py & G & _). pose proof (proper_lt _ Px) as Lx.
           assert (D1 : dset (Item (Point v)) (lo x)).
           { apply H, dens_cons. left. now apply den_lo. }
           assert (D2 : dset (Item (Point v)) (lo y)).
           { apply H, dens_cons. right. apply dens_cons. left. now apply den_lo. }
           apply dset_item, den_point in D1, D2. rewrite D1, D2 in *. corder.
    + destruct b as [|o|ys].
      * cbn [includes]. split; auto. intros _ c D. now apply dset_empty in D.
      * change (includes (Item (Range smin smax simin simax)) (Item o))
          with (item_includes (Range smin smax simin simax) o).
        rewrite (includes_item _ _ Ca Cb). split; intros H c D.
        -- apply dset_item, H, dset_item, D.
        -- apply dset_item, H, dset_item, D.
      * cbn [includes]. rewrite forallb_forall. pose proof (canon_proper _ Cb) as F.
        rewrite Forall_forall in F. split.
        -- intros H c (x & I1 & D). apply dset_item. specialize (H x I1).
           exact (proj1 (includes_item _ _ Ca (F x I1)) H c D).
        -- intros H x I1. apply (includes_item _ _ Ca (F x I1)). intros c D.
           apply dset_item, H. exists x. auto.
  - apply (includes_loop_spec xs (extract b)); [apply Ca|now apply canon_chain].
Qed.

(** ** Overlap *)

Lemma intersects_item s o :
  proper s -> proper o -> item_intersects s o = true <-> exists c, den s c /\ den o c.
Proof.
  intros Ps Po. rewrite (item_intersects_iff _ _ Ps Po). pose proof (proper_lt _ Ps) as Ls.
  pose proof (proper_lt _ Po) as Lo. split.
  - intros [H1 H2]. exists (cmax (lo s) (lo o)). unfold den. repeat split; cminmax; corder.
  - intros (c & [H1 H2] & [H3 H4]). split; corder.
Qed.

Lemma intersects_loop_spec selfs : forall items,
  chain selfs -> chain items ->
  intersects_loop selfs items = true <-> exists c, dens selfs c /\ dens items c.
Proof.
  induction selfs as [|s selfs IHs].
  { intros items _ _. cbn. split; [discriminate|]. intros (c & D & _). now apply dens_nil in D. }
  induction items as [|i items IHi]; intros Cs Ci.
  { cbn. split; [discriminate|]. intros (c & _ & D). now apply dens_nil in D. }
  change (intersects_loop (s :: selfs) (i :: items)) with
    (if item_intersects s i then true
     else if is_higher i s then intersects_loop selfs (i :: items)
     else intersects_loop (s :: selfs) items).
  pose proof Cs as [Ps Cs']. pose proof Ci as [Pi Ci'].
  pose proof (proper_lt _ Ps) as Ls. pose proof (proper_lt _ Pi) as Li.
  destruct (item_intersects s i) eqn:EI.
  { split; auto. intros _. apply (intersects_item _ _ Ps Pi) in EI as (c & D1 & D2).
    exists c. rewrite !dens_cons. auto. }
  apply (bool_iff _ _ (intersects_item _ _ Ps Pi)) in EI.
  destruct (is_higher i s) eqn:EH.
  - apply (is_higher_iff _ _ Pi Ps) in EH. rewrite (IHs (i :: items)) by (try exact Ci; eapply chain_tail, Cs).
    split; intros (c & D1 & D2); exists c.
    + rewrite dens_cons. auto.
    + split; auto. apply dens_cons in D1 as [D1|D1]; auto. exfalso.
      apply dens_cons in D2 as [D2|D2]; [eauto|]. pose proof (dens_lb _ _ _ Ci' D2).
      destruct D1 as [D1 D1']. corder.
  - apply (bool_iff _ _ (is_higher_iff _ _ Pi Ps)) in EH.
    rewrite (IHi Cs) by (eapply chain_tail, Ci).
    split; intros (c & D1 & D2); exists c.
    + split; auto. rewrite dens_cons. auto.
    + split; auto. apply dens_cons in D2 as [D2|D2]; auto. exfalso.
      apply dens_cons in D1 as [D1|D1]; [eauto|]. pose proof (dens_lb _ _ _ Cs' D1).
      destruct D2 as [D2 D2']. corder.
Qed.

Theorem intersects_spec a b :
  canon a -> canon b -> intersects a b = true <-> exists c, dset a c /\ dset b c.
Proof.
  intros Ca Cb. destruct a as [|s|xs].
  - cbn. split; [discriminate|]. intros (c & D & _). now apply dset_empty in D.
  - destruct s as [v|smin smax simin simax].
    + cbn [intersects]. rewrite (contains_iff _ _ Cb). split.
      * intros D. exists (at_version v). split; auto. now apply dset_item, den_point.
      * intros (c & D1 & D2). apply dset_item, den_point in D1. now subst c.
    + destruct b as [|o|ys].
      * cbn. split; [discriminate|]. intros (c & _ & D). now apply dset_empty in D.
      * change (intersects (Item (Range smin smax simin simax)) (Item o))
          with (item_intersects (Range smin smax simin simax) o).
        rewrite (intersects_item _ _ Ca Cb). split; intros (c & D1 & D2); exists c;
          split; now apply dset_item.
      * cbn [intersects]. rewrite existsb_exists. pose proof (canon_proper _ Cb) as F.
        rewrite Forall_forall in F. split.
        -- intros (x & I1 & E). apply (intersects_item _ _ Ca (F x I1)) in E as (c & D1 & D2).
           exists c. split; [now apply dset_item|exists x; auto].
        -- intros (c & D1 & (x & I1 & D2)). apply dset_item in D1. exists x. split; auto.
           apply (intersects_item _ _ Ca (F x I1)). eauto.
  - apply (intersects_loop_spec xs (extract b)); [apply Ca|now apply canon_chain].
Qed.

(** ** Difference *)

Definition covers (o s : item) : Prop := cle (lo o) (lo s) /\ cle (hi s) (hi o).

Lemma difference_iterator_spec items : forall cur,
  proper cur -> chain items ->
  ((forall i, In i items -> ~ covers i cur) ->
     exists ds, difference_iterator cur items = Ok ds /\ chain ds
       /\ (forall d, clt d (lo cur) -> chain_from d ds)
       /\ forall c, dens ds c <-> den cur c /\ ~ dens items c)
  /\ ((exists i, In i items /\ covers i cur) -> difference_iterator cur items = Ok [cur]).
Proof.
  induction items as [|i items IH]; intros cur Pc Ci.
  { split.
    - intros _. exists [cur]. split; [reflexivity|]. split; [cbn; auto|]. split; [cbn; auto|].
      intros c. rewrite dens_cons, dens_nil. tauto.
    - intros (i & [] & _). }
  destruct Ci as [Pi Ci]. pose proof (proper_lt _ Pc) as Lc. pose proof (proper_lt _ Pi) as Li.
  pose proof (chain_from_chain _ _ Ci) as Ci'.
  assert (UP : forall j, In j items -> clt (hi i) (lo j)) by (intros; eapply chain_from_lb; eauto).
  cbn [difference_iterator].
  destruct (is_strictly_lower i cur) eqn:E1.
  { apply (is_strictly_lower_iff _ _ Pi Pc) in E1. destruct (IH cur Pc Ci') as [H1 H2]. split.
    - intros N. destruct H1 as (ds & E & C & CF & D); [intros j I; apply N; cbn; auto|].
      exists ds. split; [exact E|]. split; [exact C|]. split; [exact CF|]. intros c.
      rewrite D, dens_cons. unfold den. split; [|tauto]. intros [[X1 X2] X3]. split; [auto|].
      intros [[Y1 Y2]|Y]; [corder|auto].
    - intros (j & [<-|I] & [K1 K2]); [exfalso; corder|]. apply H2. exists j. split; [exact I|split; auto]. }
  apply (bool_iff _ _ (is_strictly_lower_iff _ _ Pi Pc)) in E1.
  destruct (is_strictly_higher i cur) eqn:E2.
  { apply (is_strictly_higher_iff _ _ Pi Pc) in E2. split.
    - intros N. exists [cur]. split; [reflexivity|]. split; [cbn; auto|]. split; [cbn; auto|].
      intros c. rewrite !dens_cons, dens_nil. unfold den. split; [|tauto].
      intros [[X1 X2]|[]]. split; [auto|]. intros [[Y1 Y2]|Y]; [corder|].
      pose proof (dens_lb _ _ _ Ci Y). corder.
    - auto. }
  apply (bool_iff _ _ (is_strictly_higher_iff _ _ Pi Pc)) in E2.
  assert (LO : forall r, lo r = hi i -> forall j, In j items -> ~ covers j r).
  { intros r Lr j I [K1 K2]. pose proof (UP j I). rewrite Lr in K1. corder. }
  destruct (item_difference_spec cur i Pc Pi) as
    [[NO _]|[OV [(K1 & K2 & E)|[(K1 & K2 & b & E & Pb & Lb & Hb)|[(K1 & K2 & a & E & Pa & La & Ha)|
       (K1 & K2 & b & a & E & Pb & Pa & Lb & Hb & La & Ha)]]]]].
  - exfalso. apply NO. split; corder.
  - rewrite E. cbn [bind]. split.
    + intros N. exfalso. apply (N i); cbn; auto. split; auto.
    + intros _. destruct items as [|j items]; [reflexivity|]. cbn [difference_iterator].
      pose proof Ci as (Pj & Gj & _). pose proof (proper_lt _ Pj).
      assert (X1 : is_strictly_lower j cur = false)
        by (apply (bool_iff _ _ (is_strictly_lower_iff _ _ Pj Pc)); corder).
      assert (X2 : is_strictly_higher j cur = true)
        by (apply (is_strictly_higher_iff _ _ Pj Pc); corder).
      now rewrite X1, X2.
  - rewrite E. cbn [bind]. destruct (IH b Pb Ci') as [H1 _]. split.
    + intros N. destruct H1 as (ds & E' & C & CF & D).
      { intros j I [Y1 Y2]. pose proof (UP j I). rewrite Lb in Y1. corder. }
      exists ds. split; [exact E'|]. split; [exact C|]. split; [rewrite <- Lb; exact CF|].
      intros c. rewrite D, dens_cons. unfold den. rewrite Lb, Hb. split.
      * intros [[X1 X2] X3]. repeat split; auto; try corder. intros [[Y1 Y2]|Y]; [corder|auto].
      * intros [[X1 X2] X3]. repeat split; auto. apply not_cle. intros Y. apply X3. left. split; auto. corder.
    + intros (j & [<-|I] & [Y1 Y2]); exfalso; [corder|]. pose proof (UP j I). corder.
  - rewrite E. cbn [bind]. destruct (IH a Pa Ci') as [H1 _]. split.
    + intros N. destruct H1 as (ds & E' & C & CF & D); [now apply LO|].
      exists ds. split; [exact E'|]. split; [exact C|].
      split; [intros d Ld; apply CF; rewrite La; corder|].
      intros c. rewrite D, dens_cons. unfold den. rewrite La, Ha. split.
      * intros [[X1 X2] X3]. repeat split; auto; try corder. intros [[Y1 Y2]|Y]; [corder|auto].
      * intros [[X1 X2] X3]. repeat split; auto. apply not_clt. intros Y. apply X3. left. split; auto. corder.
    + intros (j & [<-|I] & [Y1 Y2]); exfalso; [corder|]. pose proof (UP j I). corder.
  - rewrite E. cbn [bind]. destruct (IH a Pa Ci') as [H1 _]. split.
    + intros N. destruct H1 as (ds & E' & C & CF & D); [now apply LO|].
      rewrite E'. cbn [bind]. exists (b :: ds). split; [reflexivity|].
      assert (CB : chain_from (hi b) ds) by (apply CF; rewrite La, Hb; exact Li).
      split; [cbn; auto|]. split; [intros d Ld; cbn; rewrite Lb; auto|].
      intros c. rewrite !dens_cons, D. unfold den. rewrite La, Ha, Lb, Hb. split.
      * intros [[X1 X2]|[[X1 X2] X3]].
        -- repeat split; auto; try corder. intros [[Y1 Y2]|Y]; [corder|].
           pose proof (dens_lb _ _ _ Ci Y). corder.
        -- repeat split; auto; try corder. intros [[Y1 Y2]|Y]; [corder|auto].
      * intros [[X1 X2] X3]. destruct (clt_cle_dec c (lo i)) as [Y|Y]; [auto|]. right.
        repeat split; auto. apply not_clt. intros Z. apply X3. left. split; auto.
    + intros (j & [<-|I] & [Y1 Y2]); exfalso; [corder|]. pose proof (UP j I). corder.
Qed.

(** The loop of [ItemsDifference]. *)
Lemma d_loop_spec fuel : forall cur items other others res,
  chain (cur :: items) -> chain (other :: others) ->
  (length items + length others < fuel)%nat ->
  exists st ds, d_loop fuel (DState items others (Some cur) (Some other) res) = Ok st
    /\ d_result st = res ++ ds /\ chain ds
    /\ (forall d, clt d (lo cur) -> chain_from d ds)
    /\ forall c, dens ds c <-> dens (cur :: items) c /\ ~ dens (other :: others) c.
Proof.
  induction fuel as [|fuel IH]; intros cur items other others res Cc Co F; [lia|].
  pose proof Cc as [Pc Ci]. pose proof Co as [Po Cr].
  pose proof (proper_lt _ Pc) as Lc. pose proof (proper_lt _ Po) as Lo.
  cbn [d_loop].
  assert (UPC : forall c, dens items c -> clt (hi cur) c) by (intros; eapply dens_lb; eauto).
  assert (UPO : forall c, dens others c -> clt (hi other) c) by (intros; eapply dens_lb; eauto).
  (* moving on to the next other, the current being [cur'] *)
  assert (NEXT : forall cur' res',
     proper cur' -> hi cur' = hi cur -> cle (lo cur) (lo cur') -> cle (hi other) (lo cur') ->
     (forall c, den cur c -> cle (hi other) c -> den cur' c) ->
     exists st ds,
       (let (st', go) := next_other_current (DState items others (Some cur') (Some other) res') in
        if go then d_loop fuel st' else Ok st') = Ok st
       /\ d_result st = res' ++ ds /\ chain ds
       /\ (forall d, clt d (lo cur') -> chain_from d ds)
       /\ forall c, dens ds c <-> cle (hi other) c /\ dens (cur :: items) c /\ ~ dens (other :: others) c).
  { intros cur' res' Pc' Hc' Lc' Ho' Dc'. pose proof (proper_lt _ Pc') as L'.
    assert (Cc' : chain (cur' :: items)) by (split; auto; now rewrite Hc').
    destruct others as [|other' others]; cbn [next_other_current next_or_none d_others d_items d_current d_other d_result].
    - exists (DState [] [] (Some cur') None ((res' ++ [cur']) ++ items)), (cur' :: items).
      split; [reflexivity|]. split; [cbn [d_result]; now rewrite <- app_assoc|].
      split; [exact Cc'|]. split; [intros d Ld; split; [exact Pc'|split; [exact Ld|apply Cc']]|].
      intros c. rewrite !dens_cons, dens_nil. unfold den. split.
      + intros [[X1 X2]|X].
        * rewrite Hc' in X2. split; [corder|]. split; [left; split; auto; corder|]. intros [[Y1 Y2]|[]]. corder.
        * pose proof (UPC _ X). split; [corder|]. split; [auto|]. intros [[Y1 Y2]|[]]. corder.
      + intros (X0 & [X|X] & X2); [left; now apply Dc'|auto].
    - destruct (IH cur' items other' others res' Cc') as (st & ds & E & R & C & CF & D).
      { apply chain_tail in Co. exact Co. } { cbn in F. lia. }
      exists st, ds. split; [exact E|]. split; [exact R|]. split; [exact C|]. split; [exact CF|].
      intros c. rewrite D, !(dens_cons other), !(dens_cons cur), (dens_cons cur'). unfold den. split.
      + intros [[[X1 X2]|X] X3].
        * rewrite Hc' in X2. split; [corder|]. split; [left; split; auto; corder|]. intros [[Y1 Y2]|Y]; [corder|auto].
        * pose proof (UPC _ X). split; [corder|]. split; [auto|]. intros [[Y1 Y2]|Y]; [corder|auto].
      + intros (X0 & [X|X] & X2); (split; [|tauto]); [left; now apply Dc'|auto]. }
  (* moving on to the next current *)
  assert (NEXTC : forall b cur' res',
     exists st ds,
       (cle (hi cur) (hi other) ->
        (let (st', go) := next_current b (DState items others (Some cur') (Some other) res') in
        if go then d_loop fuel st' else Ok st') = Ok st)
       /\ d_result st = (if b then res' ++ [cur'] else res') ++ ds /\ chain ds
       /\ chain_from (hi cur) ds
       /\ forall c, dens ds c <-> dens items c /\ ~ dens (other :: others) c).
  { intros b cur' res'. destruct items as [|i items]; cbn [next_current next_or_none d_items d_others d_current d_other d_result].
    - eexists. exists []. split; [intros _; reflexivity|]. cbn [d_result]. split; [now rewrite app_nil_r|].
      split; [exact I|]. split; [exact I|]. intros c. rewrite !dens_nil. tauto.
    - destruct Ci as (Pi & Gi & Ci).
      destruct (IH i items other others (if b then res' ++ [cur'] else res')) as (st & ds & E & R & C & CF & D).
      { split; auto. } { exact Co. } { cbn in F. lia. }
      exists st, ds. split; [intros _; exact E|]. split; [exact R|]. split; [exact C|]. split; [now apply CF|exact D]. }
  unfold d_step at 1. cbn [d_current d_other].
  destruct (is_strictly_lower other cur) eqn:E1.
  { apply (is_strictly_lower_iff _ _ Po Pc) in E1.
    destruct (NEXT cur res) as (st & ds & E & R & C & CF & D); auto.
    { apply cle_refl. }
    exists st, ds. cbn [bind]. split; [exact E|]. split; [exact R|]. split; [exact C|]. split; [exact CF|].
    intros c. rewrite D. split; [tauto|]. intros [X1 X2]. split; auto.
    apply dens_cons in X1 as [[X X']|X]; [corder|]. pose proof (UPC _ X). corder. }
  apply (bool_iff _ _ (is_strictly_lower_iff _ _ Po Pc)) in E1.
  destruct (is_strictly_higher other cur) eqn:E2.
  { apply (is_strictly_higher_iff _ _ Po Pc) in E2.
    destruct (NEXTC true cur res) as (st & ds & E & R & C & CF & D).
    exists st, (cur :: ds). cbn [bind]. split; [apply E; corder|].
    split; [rewrite R, <- app_assoc; reflexivity|]. split; [split; auto|].
    split; [intros d Ld; split; [exact Pc|split; auto]|].
    intros c. rewrite !(dens_cons cur), D. split.
    - intros [[X1 X2]|X]; [|tauto]. split; [left; split; auto|]. rewrite dens_cons.
      intros [[Y1 Y2]|Y]; [corder|]. pose proof (UPO _ Y). corder.
    - tauto. }
  apply (bool_iff _ _ (is_strictly_higher_iff _ _ Po Pc)) in E2.
  destruct (item_difference_spec cur other Pc Po) as
    [[NO _]|[OV [(K1 & K2 & E)|[(K1 & K2 & b & E & Pb & Lb & Hb)|[(K1 & K2 & a & E & Pa & La & Ha)|
       (K1 & K2 & b & a & E & Pb & Pa & Lb & Hb & La & Ha)]]]]].
  - exfalso. apply NO. split; corder.
  - rewrite E. cbn [bind].
    destruct (NEXTC false cur res) as (st & ds & E' & R & C & CF & D).
    exists st, ds. split; [apply E'; corder|]. split; [exact R|]. split; [exact C|].
    split; [intros d Ld; eapply chain_from_weaken; [exact CF|corder]|].
    intros c. rewrite D, !dens_cons. split; [tauto|]. intros [[[X1 X2]|X] X3]; [|tauto].
    exfalso. apply X3. left. split; corder.
  - rewrite E. cbn [bind d_set_current d_items d_others d_other d_result].
    assert (EH : is_higher b other = false).
    { apply (bool_iff _ _ (is_higher_iff _ _ Pb Po)). rewrite Hb. corder. }
    rewrite EH.
    destruct (NEXTC true b res) as (st & ds & E' & R & C & CF & D).
    exists st, (b :: ds). split; [apply E'; corder|].
    split; [rewrite R, <- app_assoc; reflexivity|].
    assert (CB : chain_from (hi b) ds) by (eapply chain_from_weaken; [exact CF|rewrite Hb; corder]).
    split; [split; auto|].
    split; [intros d Ld; split; [exact Pb|split; [now rewrite Lb|exact CB]]|].
    intros c. rewrite (dens_cons b), (dens_cons cur), D. unfold den. rewrite Lb, Hb. split.
    + intros [[X1 X2]|[X1 X2]]; [|tauto]. split; [left; split; auto; corder|]. rewrite dens_cons.
      intros [[Y1 Y2]|Y]; [corder|]. pose proof (UPO _ Y). corder.
    + intros [[[X1 X2]|X] X3]; [left|tauto]. split; auto. apply not_cle. intros Y. apply X3.
      apply dens_cons. left. split; auto. corder.
  - rewrite E. cbn [bind d_set_current d_items d_others d_other d_result].
    assert (EH : is_higher a other = true).
    { apply (is_higher_iff _ _ Pa Po). rewrite Ha. corder. }
    rewrite EH.
    destruct (NEXT a res Pa Ha) as (st & ds & E' & R & C & CF & D).
    { rewrite La. corder. } { rewrite La. apply cle_refl. }
    { intros c [X1 X2] Y. split; [now rewrite La|now rewrite Ha]. }
    exists st, ds. split; [exact E'|]. split; [exact R|]. split; [exact C|].
    split; [intros d Ld; apply CF; rewrite La; corder|].
    intros c. rewrite D. split; [tauto|]. intros [X1 X2]. split; auto. apply not_clt. intros Y. apply X2.
    apply dens_cons. left. split; auto. apply dens_cons in X1 as [[X1 _]|X1]; [corder|].
    pose proof (UPC _ X1). corder.
  - rewrite E. cbn [bind d_set_current d_append d_items d_others d_current d_other d_result].
    destruct (NEXT a (res ++ [b]) Pa Ha) as (st & ds & E' & R & C & CF & D).
    { rewrite La. corder. } { rewrite La. apply cle_refl. }
    { intros c [X1 X2] Y. split; [now rewrite La|now rewrite Ha]. }
    exists st, (b :: ds). split; [exact E'|]. split; [rewrite R, <- app_assoc; reflexivity|].
    assert (CB : chain_from (hi b) ds) by (apply CF; rewrite La, Hb; exact Lo).
    split; [split; auto|].
    split; [intros d Ld; split; [exact Pb|split; [now rewrite Lb|exact CB]]|].
    intros c. rewrite dens_cons, D. unfold den. rewrite Lb, Hb. split.
    + intros [[X1 X2]|X]; [|tauto]. split; [apply dens_cons; left; split; auto; corder|].
      rewrite dens_cons. intros [[Y1 Y2]|Y]; [corder|]. pose proof (UPO _ Y). corder.
    + intros [X1 X2]. destruct (clt_cle_dec c (lo other)) as [Y|Y].
      * left. split; auto. apply dens_cons in X1 as [[X1 _]|X1]; [auto|]. pose proof (UPC _ X1). corder.
      * right. split; [|auto]. apply not_clt. intros Z. apply X2, dens_cons. left. split; auto.
Qed.

Lemma items_difference_spec selfs others :
  chain selfs -> chain others -> selfs <> [] -> others <> [] ->
  exists ds, items_difference selfs others = Ok ds /\ chain ds
    /\ forall c, dens ds c <-> dens selfs c /\ ~ dens others c.
Proof.
  intros Cs Co Ns No. destruct selfs as [|cur items]; [congruence|].
  destruct others as [|other others]; [congruence|].
  unfold items_difference. cbn [next_or_none].
  destruct (d_loop_spec (S (length (cur :: items) + length (other :: others))) cur items other others []
    Cs Co) as (st & ds & E & R & C & _ & D); [cbn; lia|].
  rewrite E. cbn [bind]. exists ds. rewrite R. cbn. auto.
Qed.

(** What [a.difference(b)] removes nothing from although it should: a range
    covered by an item of a union; and what it loses: a union minus nothing. *)
Definition difference_keeps (a b : vset) : Prop :=
  match a, b with
  | Item (Range _ _ _ _ as s), Union ys => exists i, In i ys /\ covers i s
  | _, _ => False
  end.
Definition difference_loses (a b : vset) : Prop :=
  match a, b with Union _, Empty => True | _, _ => False end.

Lemma item_difference_dset s o :
  proper s -> proper o -> exists r, item_difference s o = Ok r /\ canon r
    /\ forall c, dset r c <-> den s c /\ ~ den o c.
Proof.
  intros Ps Po. pose proof (proper_lt _ Ps) as Ls. pose proof (proper_lt _ Po) as Lo.
  destruct (item_difference_spec s o Ps Po) as
    [[NO E]|[OV [(K1 & K2 & E)|[(K1 & K2 & b & E & Pb & Lb & Hb)|[(K1 & K2 & a & E & Pa & La & Ha)|
       (K1 & K2 & b & a & E & Pb & Pa & Lb & Hb & La & Ha)]]]]]; (eexists; split; [exact E|]).
  - split; [exact Ps|]. intros c. rewrite dset_item. split; [|tauto]. intros D. split; auto.
    intros [X1 X2]. destruct D as [D1 D2]. apply NO. split; corder.
  - split; [exact I|]. intros c. rewrite dset_empty. split; [tauto|]. intros [[X1 X2] X3].
    apply X3. split; corder.
  - split; [exact Pb|]. intros c. rewrite dset_item. destruct OV as [O1 O2]. unfold den. rewrite Lb, Hb. split.
    + intros [X1 X2]. repeat split; auto; try corder. intros [Y1 Y2]. corder.
    + intros [[X1 X2] X3]. split; auto. apply not_cle. intros Y. apply X3. split; auto. corder.
  - split; [exact Pa|]. intros c. rewrite dset_item. destruct OV as [O1 O2]. unfold den. rewrite La, Ha. split.
    + intros [X1 X2]. repeat split; auto; try corder. intros [Y1 Y2]. corder.
    + intros [[X1 X2] X3]. split; auto. apply not_clt. intros Y. apply X3. split; auto. corder.
  - split. { cbn. repeat split; auto. rewrite Hb, La. exact Lo. }
    intros c. unfold dset. cbn [extract]. rewrite !dens_cons, dens_nil. destruct OV as [O1 O2].
    unfold den. rewrite La, Ha, Lb, Hb. split.
    + intros [[X1 X2]|[[X1 X2]|[]]]; (split; [split; corder|intros [Y1 Y2]; corder]).
    + intros [[X1 X2] X3]. destruct (clt_cle_dec c (lo o)); auto. right. left. split; auto.
      apply not_clt. intros Y. apply X3. split; auto.
Qed.

Theorem difference_spec a b :
  canon a -> canon b ->
  (~ difference_keeps a b -> ~ difference_loses a b ->
     exists r, difference a b = Ok r /\ canon r /\ forall c, dset r c <-> dset a c /\ ~ dset b c)
  /\ (difference_keeps a b -> difference a b = Ok a)
  /\ (difference_loses a b -> difference a b = Ok Empty).
Proof.
  intros Ca Cb. destruct a as [|s|xs].
  - split; [|split; intros []]. intros _ _. exists Empty. split; [reflexivity|]. split; [exact I|].
    intros c. rewrite dset_empty. tauto.
  - destruct s as [v|smin smax simin simax].
    + split; [|split; intros []]. intros _ _. cbn [difference].
      destruct (contains b v) eqn:EC; (eexists; split; [reflexivity|]).
      * split; [exact I|]. intros c. rewrite dset_item, den_point, dset_empty.
        apply contains_iff in EC; auto. split; [tauto|]. intros [-> H]. auto.
      * split; [exact I|]. intros c. rewrite dset_item, den_point.
        apply (bool_iff _ _ (contains_iff b v Cb)) in EC. split; [intros ->; auto|tauto].
    + destruct b as [|o|ys].
      * split; [|split; intros []]. intros _ _. eexists. split; [reflexivity|]. split; [exact Ca|].
        intros c. rewrite dset_empty. tauto.
      * split; [|split; intros []]. intros _ _.
        destruct (item_difference_dset _ o Ca Cb) as (r & E & C & D). exists r.
        split; [exact E|]. split; [exact C|]. intros c. now rewrite !dset_item.
      * set (s := Range smin smax simin simax) in *. pose proof Cb as [Cy _].
        destruct (difference_iterator_spec ys s Ca Cy) as [H1 H2].
        change (difference (Item s) (Union ys)) with
          (bind (difference_iterator s ys) (fun ds => merge (map Item ds))).
        split; [|split; [|intros []]].
        -- intros N _. destruct H1 as (ds & E & C & _ & D).
           { intros i I1 K. apply N. exists i. auto. }
           rewrite E. cbn [bind]. rewrite merge_chain by exact C. exists (of_items ds).
           split; [reflexivity|]. split; [now apply canon_of_items|]. intros c. unfold dset at 1.
           rewrite extract_of_items, D, dset_item. reflexivity.
        -- intros K. rewrite (H2 K). cbn [bind]. rewrite merge_chain by (split; [exact Ca|exact I]).
           reflexivity.
  - destruct Ca as [Cx Lx].
    assert (Nx : xs <> []) by (destruct xs; cbn in Lx; [lia|congruence]).
    destruct b as [|o|ys].
    + split; [intros _ []; exact I|]. split; [intros []|]. intros _. cbn [difference extract].
      destruct xs as [|x xs]; [congruence|]. reflexivity.
    + split; [|split; intros []]. intros _ _. cbn [difference].
      destruct (items_difference_spec xs [o] Cx) as (ds & E & C & D); auto; [split; [exact Cb|exact I]|congruence|].
      cbn [extract]. rewrite E. cbn [bind]. rewrite merge_chain by exact C. exists (of_items ds).
      split; [reflexivity|]. split; [now apply canon_of_items|]. intros c. unfold dset at 1.
      rewrite extract_of_items. apply D.
    + split; [|split; intros []]. intros _ _. cbn [difference]. destruct Cb as [Cy Ly].
      destruct (items_difference_spec xs ys Cx) as (ds & E & C & D); auto.
      { destruct ys; cbn in Ly; [lia|congruence]. }
      cbn [extract]. rewrite E. cbn [bind]. rewrite merge_chain by exact C. exists (of_items ds).
      split; [reflexivity|]. split; [now apply canon_of_items|]. intros c. unfold dset at 1.
      rewrite extract_of_items. apply D.
Qed.

Lemma canon_universal : canon UNIVERSAL_SET.
Proof. cbn. auto. Qed.

Lemma dset_universal c : dset UNIVERSAL_SET c <-> clt c PosInf.
Proof.
  unfold UNIVERSAL_SET. rewrite dset_item. unfold den.
  change (lo UNIVERSAL) with (@NegInf (vkey * bool)). change (hi UNIVERSAL) with (@PosInf (vkey * bool)).
  split; [tauto|]. intros H. split; [apply cneg_le|exact H].
Qed.

Theorem complement_spec a :
  canon a -> exists r, complement a = Ok r /\ canon r /\ forall c, dset r c <-> clt c PosInf /\ ~ dset a c.
Proof.
  intros Ca. destruct a as [|i|xs].
  - exists UNIVERSAL_SET. split; [reflexivity|]. split; [exact canon_universal|]. intros c.
    rewrite dset_universal, dset_empty. tauto.
  - destruct (difference_spec UNIVERSAL_SET (Item i) canon_universal Ca) as [H _].
    destruct H as (r & E & C & D); [intros []|intros []|].
    exists r. split; [exact E|]. split; [exact C|]. intros c. now rewrite D, dset_universal.
  - destruct (difference_spec UNIVERSAL_SET (Union xs) canon_universal Ca) as [H _].
    destruct H as (r & E & C & D); [|intros []|].
    + intros (i & I1 & K1 & K2).
      destruct Ca as [Cx Lx]. destruct xs as [|x [|y xs]]; cbn in Lx; try lia.
      pose proof (chain_proper _ Cx) as F. destruct Cx as (Px & Py & G & Cx).
      change (lo UNIVERSAL) with (@NegInf (vkey * bool)) in K1.
      change (hi UNIVERSAL) with (@PosInf (vkey * bool)) in K2.
      pose proof (proper_lt _ Px). pose proof (proper_lt _ Py).
      destruct I1 as [<-|I1].
      * pose proof (cpos_ge (lo y)). corder.
      * pose proof (cneg_le (lo x)). pose proof (chain_from_lb (hi x) (y :: xs) i (conj Py (conj G Cx)) I1). corder.
    + exists r. split; [exact E|]. split; [exact C|]. intros c. now rewrite D, dset_universal.
Qed.

Theorem symmetric_difference_spec i b :
  proper i -> canon b -> ~ union_stuck (Item i) b ->
  exists u n, union (Item i) b = Ok u /\ intersection (Item i) b = Ok n /\ canon u /\ canon n /\
  (~ (n = Empty /\ 2 <= length (extract u))%nat ->
     exists r, symmetric_difference (Item i) b = Ok r /\ canon r
      /\ forall c, dset r c <-> (den i c /\ ~ dset b c) \/ (~ den i c /\ dset b c)) /\
  ((n = Empty /\ 2 <= length (extract u))%nat -> symmetric_difference (Item i) b = Ok Empty).
Proof.
  intros Pi Cb NS. destruct (union_spec (Item i) b Pi Cb) as [U _].
  destruct (U NS) as (u & EU & CU & DU). destruct (intersection_spec (Item i) b Pi Cb) as (n & EN & CN & DN).
  exists u, n. split; [exact EU|]. split; [exact EN|]. split; [exact CU|]. split; [exact CN|].
  unfold symmetric_difference. rewrite EU, EN. cbn [bind].
  destruct (difference_spec u n CU CN) as (D1 & D2 & D3). split.
  - intros N. destruct D1 as (r & E & C & D).
    + intros K. destruct u as [|[v|umin umax u1 u2]|us]; cbn in K; try contradiction.
      destruct n as [|j|ns]; try contradiction. destruct K as (j & I1 & K1 & K2).
      destruct CN as [Cn Ln]. destruct ns as [|x [|y ns]]; cbn in Ln; try lia.
      pose proof Cn as (Px & Py & G & Cx). pose proof (proper_lt _ Px). pose proof (proper_lt _ Py).
      set (s := Range umin umax u1 u2) in *.
      assert (IN : forall c, dset (Union (x :: y :: ns)) c -> den s c).
      { intros c X. apply DN in X as [X _]. apply dset_item, DU. auto. }
      destruct I1 as [<-|I1].
      * destruct (IN (lo y)) as [X1 X2].
        { apply dens_cons. right. apply dens_cons. left. now apply den_lo. }
        corder.
      * destruct (IN (lo x)) as [X1 X2]; [apply dens_cons; left; now apply den_lo|].
        pose proof (chain_from_lb (hi x) (y :: ns) j (conj Py (conj G Cx)) I1). corder.
    + intros K. apply N. destruct u as [|?|us], n as [|?|ns]; cbn in K; try contradiction.
      split; [reflexivity|]. apply CU.
    + exists r. split; [exact E|]. split; [exact C|]. intros c. rewrite D, DU, DN, dset_item.
      clear - i. assert (DD : den i c \/ ~ den i c) by (unfold den; destruct (clt_cle_dec c (lo i)) as [X|X];
             [right; intros [Y _]; corder|destruct (clt_cle_dec c (hi i)) as [Z|Z]; [auto|right; intros [_ Y]; corder]]).
      tauto.
  - intros [-> L]. apply D3. destruct u as [|?|us]; cbn in L; try lia. exact I.
Qed.
