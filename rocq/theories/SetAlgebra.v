(** Boolean algebra, merging in any order, independence of the depth. *)

From Coq Require Import List ZArith NArith String Bool Lia Permutation.
From Verif Require Import Py Segments Version Regex Patterns VersionSets Orders Cuts SetItems SetChains SetMerge SetOps Spec OrderFacts Density SetVersions SetTheorems.
Import ListNotations.
Open Scope Z_scope.

Local Opaque key.

(** ** Expressions *)

Lemma dset_lt_pos a c : dset a c -> clt c PosInf.
Proof. intros (x & _ & _ & H). pose proof (cpos_ge (hi x)). corder. Qed.

Lemma eval_spec env e r :
  (forall n, canonical (env n)) -> eval env e = Ok r ->
  canonical r
  /\ (forall c, clt c PosInf -> forall rho, (forall n, rho n = true <-> dset (env n) c) ->
        truth rho e = true <-> dset r c).
Proof.
  intros C. revert r. induction e as [n|e IHe f IHf|e IHe f IHf|e IHe]; intros r; cbn [eval truth].
  - intros [= <-]. split; auto.
  - destruct (eval env e) as [a|] eqn:Ea; [|discriminate]. destruct (eval env f) as [b|] eqn:Eb; [|discriminate]. cbn.
    destruct (IHe a eq_refl) as [Ca Da], (IHf b eq_refl) as [Cb Db]. rewrite canonical_canon in *.
    destruct (intersection_spec a b Ca Cb) as (x & E & Cx & D). rewrite E. intros [= <-]. split; auto.
    intros c L rho H. rewrite andb_true_iff, (Da c L rho H), (Db c L rho H), D. reflexivity.
  - destruct (eval env e) as [a|] eqn:Ea; [|discriminate]. destruct (eval env f) as [b|] eqn:Eb; [|discriminate]. cbn.
    destruct (IHe a eq_refl) as [Ca Da], (IHf b eq_refl) as [Cb Db]. rewrite canonical_canon in *.
    destruct (union_spec a b Ca Cb) as [U1 U2].
    intros EU. destruct U1 as (x & E & Cx & D); [intros S; rewrite (U2 S) in EU; discriminate|].
    rewrite E in EU. injection EU as <-. split; auto.
    intros c L rho H. rewrite orb_true_iff, (Da c L rho H), (Db c L rho H), D. reflexivity.
  - destruct (eval env e) as [a|] eqn:Ea; [|discriminate]. cbn.
    destruct (IHe a eq_refl) as [Ca Da]. rewrite canonical_canon in *.
    destruct (complement_spec a Ca) as (x & E & Cx & D). rewrite E. intros [= <-]. split; auto.
    intros c L rho H. rewrite negb_true_iff, <- not_true_iff_false, (Da c L rho H), D. tauto.
Qed.

Definition member_of (env : nat -> vset) (v : version) (n : nat) : bool := contains (env n) v.

Lemma eval_canonical env e r : (forall n, canonical (env n)) -> eval env e = Ok r -> canonical r.
Proof. intros C E. now apply (eval_spec env e r C E). Qed.

Lemma eval_members env e r : (forall n, canonical (env n)) -> eval env e = Ok r ->
  forall v, contains r v = truth (fun n => contains (env n) v) e.
Proof.
  intros C E v. destruct (eval_spec env e r C E) as [Cr D]. apply eq_true_iff_eq. rewrite canonical_canon in Cr.
  rewrite contains_iff by assumption. symmetry. apply D; [apply cpos_gt|].
  intros n. apply contains_iff. apply canonical_canon, C.
Qed.

Lemma eval_total env e : (forall n, canonical (env n)) -> no_or e = true -> exists r, eval env e = Ok r.
Proof.
  intros C. induction e as [n|e IHe f IHf|e IHe f IHf|e IHe]; cbn [no_or eval]; try discriminate; eauto.
  - rewrite andb_true_iff. intros [N1 N2]. destruct (IHe N1) as (a & Ea), (IHf N2) as (b & Eb). rewrite Ea, Eb. cbn.
    pose proof (eval_canonical _ _ _ C Ea) as Ca. pose proof (eval_canonical _ _ _ C Eb) as Cb.
    destruct (intersection_versions a b Ca Cb) as (r & E & _). eauto.
  - intros N. destruct (IHe N) as (a & Ea). rewrite Ea. cbn. pose proof (eval_canonical _ _ _ C Ea) as Ca.
    destruct (complement_versions a Ca) as (r & E & _). eauto.
Qed.

Lemma boolean_algebra env e f r s :
  (forall n, canonical (env n)) -> (forall rho, truth rho e = truth rho f) ->
  eval env e = Ok r -> eval env f = Ok s -> set_eqb r s = true.
Proof.
  intros C T Er Es. destruct (eval_spec env e r C Er) as [Cr Dr]. destruct (eval_spec env f s C Es) as [Cs Ds].
  rewrite canonical_canon in Cr, Cs. apply set_eqb_iff; auto. intros c.
  destruct (clt_cle_dec c PosInf) as [L|L].
  - (* decidable membership of each variable gives a valuation on the variables of e and f *)
    assert (K : exists rho : nat -> bool, forall n, rho n = true <-> dset (env n) c).
    { exists (fun n => existsb (fun x => negb (is_gt (ccmp (lo x) c)) && is_lt (ccmp c (hi x))) (extract (env n))).
      intros n. unfold dset, dens. rewrite existsb_exists. split; intros (x & Ix & H); exists x; split; auto.
      - apply andb_true_iff in H as [H1 H2]. split.
        + unfold cle. intros X. rewrite X in H1. discriminate.
        + unfold clt. destruct (ccmp c (hi x)); auto; discriminate.
      - destruct H as [H1 H2]. unfold cle, clt in *. rewrite H2. destruct (ccmp (lo x) c); congruence || reflexivity. }
    destruct K as (rho & K). rewrite <- (Dr c L rho K), <- (Ds c L rho K), T. reflexivity.
  - split; intros H; apply dset_lt_pos in H; exfalso; corder.
Qed.

(** ** VersionUnion.of *)

Lemma merge_versions sets : Forall canonical sets ->
  (~ clash (flat_map extract sets) -> exists r, merge sets = Ok r /\ canonical r
     /\ forall v, contains r v = true <-> Exists (fun a => in_set a v) sets)
  /\ (clash (flat_map extract sets) -> merge sets = Err RecursionError).
Proof.
  intros F. assert (P : Forall proper (flat_map extract sets)).
  { induction F; cbn; [constructor|]. apply Forall_app. split; auto. apply canon_proper. now apply canonical_canon. }
  rewrite (clash_stuck _ P). destruct (merge_spec sets P) as [M1 M2]. split; auto. intros N.
  destruct (M1 N) as (r & E & C & D). exists r. split; auto. split; [now apply canonical_canon|].
  intros v. rewrite contains_iff, D by assumption. rewrite Exists_exists. unfold dens. split.
  - intros (x & Ix & Dx). apply in_flat_map in Ix as (a & Ia & Ix). exists a. split; auto.
    rewrite Forall_forall in F. apply member; [apply canonical_canon; auto|]. exists x. auto.
  - intros (a & Ia & Ha). rewrite Forall_forall in F. apply member in Ha; [|apply canonical_canon; auto].
    destruct Ha as (x & Ix & Dx). exists x. split; auto. apply in_flat_map. eauto.
Qed.

Lemma sets_proper sets : Forall canonical sets -> Forall proper (flat_map extract sets).
Proof.
  induction 1; cbn; [constructor|]. apply Forall_app. split; auto. apply canon_proper. now apply canonical_canon.
Qed.

Lemma merge_ok sets r : Forall canonical sets -> merge sets = Ok r ->
  canon r /\ (forall c, dset r c <-> dens (flat_map extract sets) c) /\ ~ stuck (flat_map extract sets).
Proof.
  intros F E. destruct (merge_spec sets (sets_proper _ F)) as [M1 M2].
  assert (N : ~ stuck (flat_map extract sets)) by (intros S; rewrite (M2 S) in E; discriminate).
  destruct (M1 N) as (x & E' & C & D). rewrite E in E'. injection E' as <-. auto.
Qed.

Lemma merge_permutation xs ys r : Forall canonical xs -> Permutation xs ys -> merge xs = Ok r ->
  exists s, merge ys = Ok s /\ set_eqb r s = true.
Proof.
  intros F P E. destruct (merge_ok xs r F E) as (C & D & N).
  assert (F' : Forall canonical ys) by (now apply (Permutation_Forall P)).
  assert (P' : Permutation (flat_map extract xs) (flat_map extract ys)) by now apply Permutation_flat_map.
  destruct (merge_spec ys (sets_proper _ F')) as [M1 _]. destruct M1 as (s & E' & C' & D').
  - intros S. apply N. now apply (stuck_perm _ _ P').
  - exists s. split; auto. apply set_eqb_iff; auto. intros c. rewrite D, D'. now apply dens_perm.
Qed.

Lemma chain_from_in c xs m m' : chain_from c xs -> In m xs -> In m' xs ->
  m = m' \/ clt (hi m) (lo m') \/ clt (hi m') (lo m).
Proof.
  revert c. induction xs as [|x xs IH]; intros c H I1 I2; [destruct I1|]. destruct H as (P & L & C).
  destruct I1 as [<-|I1], I2 as [<-|I2]; auto.
  - right. left. eapply chain_from_lb; eauto.
  - right. right. eapply chain_from_lb; eauto.
  - eapply IH; eauto.
Qed.
Lemma chain_in xs m m' : chain xs -> In m xs -> In m' xs ->
  m = m' \/ clt (hi m) (lo m') \/ clt (hi m') (lo m).
Proof.
  destruct xs as [|x xs]; [intros _ []|]. intros (P & C) [<-|I1] [<-|I2]; auto.
  - right. left. eapply chain_from_lb; eauto.
  - right. right. eapply chain_from_lb; eauto.
  - eapply chain_from_in; eauto.
Qed.

Lemma inside ys t : chain ys -> proper t -> (forall c, den t c -> dens ys c) ->
  exists m, In m ys /\ cle (lo m) (lo t) /\ cle (hi t) (hi m).
Proof.
  intros C P H. destruct (H (lo t) (den_lo t P)) as (m & Im & M1 & M2). exists m. split; auto. split; auto.
  destruct (clt_cle_dec (hi m) (hi t)) as [L|L]; auto. exfalso.
  destruct (H (hi m)) as (m' & Im' & N1 & N2); [split; corder|].
  pose proof (chain_proper _ C) as F. rewrite Forall_forall in F.
  pose proof (proper_lt _ (F m Im)). pose proof (proper_lt _ (F m' Im')).
  destruct (chain_in ys m m' C Im Im') as [<-|[X|X]]; corder.
Qed.

Lemma inside_range m t : proper m -> proper t -> is_range t -> cle (lo m) (lo t) -> cle (hi t) (hi m) -> is_range m.
Proof.
  intros Pm Pt R L H. destruct m as [w|]; [|exact I]. exfalso. rewrite point_lo in L. rewrite point_hi in H.
  destruct t as [|a b c d]; [exact R|]. apply (proper_not_point a b c d w Pt). rewrite point_lo, point_hi.
  pose proof (proper_lt _ Pt) as X.
  assert (L1 : clt (lo (Range a b c d)) (Fin (key w, true))) by corder. apply cut_step in L1.
  assert (L2 : clt (Fin (key w, false)) (hi (Range a b c d))) by corder. apply cut_step' in L2.
  split; corder.
Qed.

Definition grouped (g : list vset) (x : vset) : Prop := Forall canonical g /\ merge g = Ok x.

Lemma stuck_groups groups xs : Forall2 grouped groups xs ->
  stuck (flat_map extract xs) -> stuck (flat_map extract (List.concat groups)).
Proof.
  intros G (v & r & I1 & I2 & L & T).
  (* facts about each group *)
  assert (K : forall x, In x xs -> exists g, In g groups /\ grouped g x).
  { clear - G. induction G as [|g x groups xs H G IH]; intros z Iz; [destruct Iz|].
    destruct Iz as [<-|Iz]; [exists g; cbn; auto|]. destruct (IH z Iz) as (k & Ik & Hk). exists k. cbn. auto. }
  assert (K' : forall g, In g groups -> exists x, In x xs /\ grouped g x).
  { clear - G. induction G as [|g x groups xs H G IH]; intros z Iz; [destruct Iz|].
    destruct Iz as [<-|Iz]; [exists x; cbn; auto|]. destruct (IH z Iz) as (k & Ik & Hk). exists k. cbn. auto. }
  assert (B : forall g i, In g groups -> In i (flat_map extract g) -> In i (flat_map extract (List.concat groups))).
  { intros g i Ig Ii. apply in_flat_map in Ii as (a & Ia & Ii). apply in_flat_map. exists a. split; auto.
    apply in_concat. eauto. }
  (* the point *)
  apply in_flat_map in I1 as (x & Ix & I1). destruct (K x Ix) as (g & Ig & Fg & Eg).
  destruct (merge_ok g x Fg Eg) as (Cx & Dx & _). pose proof (canon_chain x Cx) as Hx.
  pose proof (chain_proper _ Hx) as Px. rewrite Forall_forall in Px.
  pose proof (sets_proper g Fg) as Pg. rewrite Forall_forall in Pg.
  assert (W : exists w, In (Point w) (flat_map extract g) /\ key w = key v).
  { assert (Y : dens (flat_map extract g) (at_version v)).
    { apply Dx. exists (Point v). split; auto. apply den_point. reflexivity. }
    destruct Y as (i & Ii & Di). destruct (inside (extract x) i Hx (Pg i Ii)) as (m & Im & M1 & M2).
    { intros c Hc. apply Dx. exists i. auto. }
    assert (m = Point v).
    { destruct Di as [Y1 Y2]. unfold at_version in *. pose proof (point_lo v) as PL. pose proof (point_hi v) as PH.
      pose proof (point_lt (key v)).
      destruct (chain_in _ m (Point v) Hx Im I1) as [|[Z|Z]]; auto; rewrite ?PL, ?PH in Z; exfalso; corder. }
    subst m. destruct i as [w|a b c d].
    - exists w. split; auto. apply den_point in Di. unfold at_version in Di. congruence.
    - exfalso. exact (inside_range (Point v) (Range a b c d) I (Pg _ Ii) I M1 M2). }
  destruct W as (w & Iw & Kw).
  (* the range *)
  apply in_flat_map in I2 as (y & Iy & I2). destruct (K y Iy) as (h & Ih & Fh & Eh).
  destruct (merge_ok h y Fh Eh) as (Cy & Dy & _). pose proof (canon_chain y Cy) as Hy.
  pose proof (chain_proper _ Hy) as Py'. rewrite Forall_forall in Py'.
  pose proof (sets_proper h Fh) as Ph. rewrite Forall_forall in Ph.
  assert (R : exists i, In i (flat_map extract h) /\ lo i = lo r).
  { assert (Y : dens (flat_map extract h) (lo r)).
    { apply Dy. exists r. split; auto. apply den_lo. auto. }
    destruct Y as (i & Ii & Di). destruct (inside (extract y) i Hy (Ph i Ii)) as (m & Im & M1 & M2).
    { intros c Hc. apply Dy. exists i. auto. }
    assert (m = r).
    { destruct Di as [Y1 Y2]. pose proof (proper_lt _ (Py' r I2)).
      destruct (chain_in _ m r Hy Im I2) as [|[Z|Z]]; auto; exfalso; corder. }
    subst m. exists i. split; auto. destruct Di. corder. }
  destruct R as (i & Ii & Li).
  exists w, i. split; [eauto|]. split; [eauto|]. rewrite Kw. split; [congruence|].
  intros t It (Rt & T1 & T2). apply in_flat_map in It as (a & Ia & It). apply in_concat in Ia as (k & Ik & Ia).
  destruct (K' k Ik) as (z & Iz & Fk & Ek). destruct (merge_ok k z Fk Ek) as (Cz & Dz & _).
  pose proof (canon_chain z Cz) as Hz. pose proof (chain_proper _ Hz) as Pz. rewrite Forall_forall in Pz.
  pose proof (sets_proper k Fk) as Pk. rewrite Forall_forall in Pk.
  assert (Itk : In t (flat_map extract k)) by (apply in_flat_map; eauto).
  destruct (inside (extract z) t Hz (Pk t Itk)) as (m & Im & M1 & M2).
  { intros c Hc. apply Dz. exists t. auto. }
  apply (T m); [apply in_flat_map; eauto|]. split; [|split; corder].
  exact (inside_range m t (Pz m Im) (Pk t Itk) Rt M1 M2).
Qed.

Lemma merge_groups groups xs r : Forall2 grouped groups xs -> merge (List.concat groups) = Ok r ->
  exists s, merge xs = Ok s /\ set_eqb r s = true.
Proof.
  intros G E.
  assert (F : Forall canonical (List.concat groups)).
  { clear E. induction G as [|g x groups xs [Fg _] G IH]; cbn; [constructor|]. apply Forall_app. auto. }
  assert (F' : Forall canonical xs).
  { clear E F. induction G as [|g x groups xs [Fg Eg] G IH]; constructor; auto. apply canonical_canon.
    now apply (merge_ok g x). }
  destruct (merge_ok _ r F E) as (C & D & N).
  destruct (merge_spec xs (sets_proper _ F')) as [M1 _].
  destruct M1 as (s & E' & C' & D'); [intros S; apply N; now apply (stuck_groups groups xs)|].
  exists s. split; auto. apply set_eqb_iff; auto. intros c. rewrite D, D'. clear - G.
  induction G as [|g x groups xs [Fg Eg] G IH]; cbn; [reflexivity|].
  rewrite flat_map_app, !dens_app, IH. destruct (merge_ok g x Fg Eg) as (_ & Dx & _). now rewrite <- (Dx c).
Qed.

(** ** Depth *)

Lemma merge_loop_mono (u u' : item -> item -> result vset) :
  (forall s o r, u s o = Ok r -> u' s o = Ok r) ->
  forall rest cur r, merge_loop u cur rest = Ok r -> merge_loop u' cur rest = Ok r.
Proof.
  intros H. induction rest as [|x rest IH]; intros cur r; cbn [merge_loop]; auto.
  destruct (item_intersects cur x || is_adjacent cur x).
  - destruct (u cur x) as [y|] eqn:E; [|discriminate]. rewrite (H _ _ _ E). cbn [bind].
    destruct y; try discriminate. apply IH.
  - destruct (merge_loop u x rest) as [y|] eqn:E; [|discriminate]. now rewrite (IH _ _ E).
Qed.

Lemma merge_with_mono (u u' : item -> item -> result vset) :
  (forall s o r, u s o = Ok r -> u' s o = Ok r) ->
  forall sets r, merge_with u sets = Ok r -> merge_with u' sets = Ok r.
Proof.
  intros H sets r. unfold merge_with. destruct (flat_map extract sets) as [|i l]; auto.
  destruct (existsb item_is_universal (i :: l)); auto. destruct (sort (i :: l)) as [|x rest]; auto.
  destruct (merge_loop u x rest) as [y|] eqn:E; [|discriminate]. now rewrite (merge_loop_mono u u' H _ _ _ E).
Qed.

Lemma item_union_mono f : forall s o r, item_union f s o = Ok r -> item_union (S f) s o = Ok r.
Proof.
  induction f as [|f IH]; intros s o r; [discriminate|].
  intros E. change (item_union (S (S f)) s o) with
    (match s with
      | Point v =>
          match o with
          | Point w => if v_eq v w then Ok (Item s) else merge_with (item_union (S f)) [Item s; Item o]
          | _ => if item_contains o v then Ok (Item o) else merge_with (item_union (S f)) [Item s; Item o]
          end
      | Range smin smax simin simax =>
          match o with
          | Point w =>
              if item_contains s w then Ok (Item s)
              else if o_eq (Some w) smin then
                let* r := range_new smin smax true simax in Ok (Item r)
              else if o_eq (Some w) smax then
                let* r := range_new smin smax simin true in Ok (Item r)
              else merge_with (item_union (S f)) [Item s; Item o]
          | Range omin omax oimin oimax =>
              if negb (is_adjacent s o) && negb (item_intersects s o) then merge_with (item_union (S f)) [Item s; Item o]
              else
                let '(umin, uimin) := if is_lower s o then (smin, simin) else (omin, oimin) in
                let '(umax, uimax) := if is_higher s o then (smax, simax) else (omax, oimax) in
                let* r := range_new umin umax uimin uimax in
                Ok (Item r)
          end
      end).
  cbn [item_union] in E. destruct s as [v|? ? ? ?], o as [w|? ? ? ?].
  - destruct (v_eq v w); auto. now apply (merge_with_mono (item_union f)).
  - destruct (item_contains _ v); auto. now apply (merge_with_mono (item_union f)).
  - destruct (item_contains _ w); auto. destruct (o_eq _ _); auto. destruct (o_eq _ _); auto.
    now apply (merge_with_mono (item_union f)).
  - destruct (negb _ && negb _); auto. now apply (merge_with_mono (item_union f)).
Qed.

Lemma item_union_mono_le f g s o r : (f <= g)%nat -> item_union f s o = Ok r -> item_union g s o = Ok r.
Proof. intros L. induction L; auto. intros E. apply item_union_mono. auto. Qed.

Lemma merge_with_outcome f sets : Forall canonical sets ->
  (exists r, merge_with (item_union (S f)) sets = Ok r) \/ merge_with (item_union (S f)) sets = Err RecursionError.
Proof.
  intros F. destruct (merge_with_spec f sets (sets_proper _ F)) as [A1 A2].
  destruct (merge_with (item_union (S f)) sets) as [r|e] eqn:E; eauto. right.
  assert (X : e = RecursionError \/ e <> RecursionError) by (destruct e; auto; right; discriminate).
  destruct X as [->|X]; auto. exfalso.
  assert (N : ~ stuck (flat_map extract sets)) by (intros S; specialize (A2 S); congruence).
  destruct (A1 N) as (r & E' & _). discriminate.
Qed.

(** At every positive depth merging gives the same result. *)
Lemma merge_depth f sets : Forall canonical sets -> merge_with (item_union (S f)) sets = merge sets.
Proof.
  intros F. unfold merge. change depth with (S 299).
  assert (M : forall g r, merge_with (item_union 1) sets = Ok r -> merge_with (item_union (S g)) sets = Ok r).
  { intros g r. apply merge_with_mono. intros s o x. apply item_union_mono_le. lia. }
  assert (K : forall g, merge_with (item_union (S g)) sets = merge_with (item_union 1) sets).
  { intros g. destruct (merge_with_outcome 0 sets F) as [(r & E)|E]; rewrite E; [now apply M|].
    destruct (merge_with_outcome g sets F) as [(r & E')|E']; auto. exfalso.
    destruct (merge_with_spec g sets (sets_proper _ F)) as [_ A2].
    destruct (merge_with_spec 0 sets (sets_proper _ F)) as [B1 _].
    destruct B1 as (x & EX & _); [intros S; specialize (A2 S); congruence|congruence]. }
  now rewrite (K f), (K 299%nat).
Qed.

(** ** The order of items *)

Lemma made_valid i : made i -> valid_item i.
Proof. destruct i as [v|? ? ? ?]; cbn [made]; [intros _; exact I|]. intros H. now apply range_new_valid in H. Qed.

Lemma item_order :
  (forall s o, made s -> made o ->
     (item_lt s o = true /\ item_eqb s o = false /\ item_gt s o = false)
     \/ (item_lt s o = false /\ item_eqb s o = true /\ item_gt s o = false)
     \/ (item_lt s o = false /\ item_eqb s o = false /\ item_gt s o = true))
  /\ (forall s o, made s -> made o -> item_le s o = item_lt s o || item_eqb s o)
  /\ (forall s o, made s -> made o -> item_ge s o = item_gt s o || item_eqb s o)
  /\ (forall s o, made s -> made o -> item_gt s o = item_lt o s)
  /\ (forall s o, made s -> made o -> item_eqb s o = item_eqb o s)
  /\ (forall s o t, made s -> made o -> made t -> item_lt s o = true -> item_lt o t = true -> item_lt s t = true)
  /\ (forall s o t, made s -> made o -> made t -> item_eqb s o = true -> item_eqb o t = true -> item_eqb s t = true)
  /\ (forall s, made s -> item_lt s s = false /\ item_eqb s s = true).
Proof.
  set (f := fun i : item => (lo i, hi i)).
  set (c := fun x y : cut * cut => then_cmp (ccmp (fst x) (fst y)) (ccmp (snd x) (snd y))).
  assert (L : lawful c).
  { apply (lawful_then ccmp ccmp fst snd lawful_cut lawful_cut). intros [] []; cbn; congruence. }
  assert (C : forall s o, made s -> made o -> item_compare s o = c (f s) (f o)).
  { intros s o Ms Mo. apply item_compare_cut; now apply made_valid. }
  assert (E : forall s o, made s -> made o -> item_eqb s o = is_eq (c (f s) (f o))).
  { intros s o Ms Mo. rewrite item_eqb_cut by now apply made_valid. unfold c, f. cbn.
    destruct (ccmp (lo s) (lo o)), (ccmp (hi s) (hi o)); reflexivity. }
  unfold item_lt, item_gt, item_le, item_ge. repeat apply conj.
  - intros s o Ms Mo. rewrite E, C by assumption. destruct (c (f s) (f o)); cbn; auto.
  - intros s o Ms Mo. rewrite E, C by assumption. destruct (c (f s) (f o)); cbn; auto.
  - intros s o Ms Mo. rewrite E, C by assumption. destruct (c (f s) (f o)); cbn; auto.
  - intros s o Ms Mo. rewrite !C by assumption. rewrite (law_anti L (f s) (f o)). destruct (c (f s) (f o)); cbn; auto.
  - intros s o Ms Mo. rewrite !E by assumption. rewrite (law_anti L (f s) (f o)). destruct (c (f s) (f o)); cbn; auto.
  - intros s o t Ms Mo Mt. rewrite !C by assumption. destruct (c (f s) (f o)) eqn:E1; try discriminate.
    destruct (c (f o) (f t)) eqn:E2; try discriminate. now rewrite (law_trans L _ _ _ E1 E2).
  - intros s o t Ms Mo Mt. rewrite !E by assumption. destruct (c (f s) (f o)) eqn:E1; try discriminate.
    apply (cmp_eq L) in E1. now rewrite E1.
  - intros s Ms. rewrite C, E by assumption. now rewrite (cmp_refl L).
Qed.

(** ** Consequences *)

(** A clash can be recognised. *)
Lemma clash_dec xs : Forall proper xs -> clash xs \/ ~ clash xs.
Proof.
  intros P. rewrite (clash_stuck _ P) in *.
  assert (LD : forall x y : cut, x = y \/ x <> y).
  { intros x y. destruct (clt_total x y) as [H|[H|H]]; auto; right; intros ->; eapply clt_irrefl; eauto. }
  assert (EX : forall (Q : item -> Prop), (forall x, Q x \/ ~ Q x) -> forall ys, (exists x, In x ys /\ Q x) \/ ~ (exists x, In x ys /\ Q x)).
  { intros Q DQ. induction ys as [|y ys IH]; [right; intros (? & [] & _)|].
    destruct (DQ y) as [H|H]; [left; exists y; cbn; auto|]. destruct IH as [(x & Ix & Hx)|IH]; [left; exists x; cbn; auto|].
    right. intros (x & [<-|Ix] & Hx); eauto. }
  assert (TD : forall k x, touches x k \/ ~ touches x k).
  { intros k x. unfold touches. destruct (range_dec x); [|tauto].
    destruct (clt_cle_dec (Fin (k, false)) (lo x)) as [L|L]; [right; intros (_ & X & _); corder|].
    destruct (clt_cle_dec (hi x) (Fin (k, false))) as [L'|L']; [right; intros (_ & _ & X); corder|auto]. }
  destruct (EX (fun p => match p with Point v => (exists r, In r xs /\ lo r = Fin (key v, true)) /\ ~ (exists x, In x xs /\ touches x (key v)) | _ => False end)) with (ys := xs) as [H|H].
  - intros [v|]; [|tauto]. destruct (EX (fun r => lo r = Fin (key v, true)) (fun r => LD _ _) xs); [|tauto].
    destruct (EX (fun x => touches x (key v)) (TD (key v)) xs); tauto.
  - left. destruct H as ([v|] & Iv & H); [|destruct H]. destruct H as [(r & Ir & Lr) N].
    exists v, r. split; auto. split; auto. split; auto. intros x Ix T. apply N. eauto.
  - right. intros (v & r & I1 & I2 & L & T). apply H. exists (Point v). split; auto. split; [eauto|].
    intros (x & Ix & Tx). exact (T x Ix Tx).
Qed.

Lemma covers_dec x s : covers_item x s \/ ~ covers_item x s.
Proof.
  rewrite covers_cut. unfold covers. destruct (clt_cle_dec (lo s) (lo x)) as [Z|Z]; [right; intros [A B]; corder|].
  destruct (clt_cle_dec (hi x) (hi s)) as [Z'|Z']; [right; intros [A B]; corder|auto].
Qed.

Lemma unchanged_dec a b : difference_unchanged a b \/ ~ difference_unchanged a b.
Proof.
  destruct a as [|[v|m M c d]|], b as [| |ys]; cbn [difference_unchanged]; auto.
  induction ys as [|y ys IH]; [right; intros H; inversion H|].
  destruct (covers_dec y (Range m M c d)) as [X|X]; [left; now constructor|].
  destruct IH as [IH|IH]; [left; now apply Exists_cons_tl|]. right. intros H. inversion H; subst; auto.
Qed.

Lemma difference_exact a b : canonical a -> canonical b ->
  (difference_unchanged a b /\ difference a b = Ok a)
  \/ (difference_lost a b /\ difference a b = Ok Empty)
  \/ (~ difference_unchanged a b /\ ~ difference_lost a b
      /\ exists r, difference a b = Ok r /\ canonical r
           /\ forall v, contains r v = true <-> in_set a v /\ ~ in_set b v).
Proof.
  intros Ca Cb. destruct (difference_versions a b Ca Cb) as (D1 & D2 & D3).
  destruct (unchanged_dec a b) as [U|U]; auto.
  assert (L : difference_lost a b \/ ~ difference_lost a b) by (destruct a, b; cbn; auto).
  destruct L as [L|L]; auto 6.
Qed.

Lemma difference_canonical a b r : canonical a -> canonical b -> difference a b = Ok r -> canonical r.
Proof.
  intros Ca Cb E. destruct (difference_exact a b Ca Cb) as [[_ H]|[[_ H]|(_ & _ & x & H & C & _)]];
    rewrite H in E; injection E as <-; auto. exact I.
Qed.

Lemma merge_canonical sets r : Forall canonical sets -> merge sets = Ok r -> canonical r.
Proof. intros F E. apply canonical_canon. now apply (merge_ok sets r). Qed.

Lemma canonical_no_universal items : canonical (Union items) ->
  Forall (fun i => item_is_universal i = false) items.
Proof.
  rewrite canonical_canon. intros [C L].
  destruct (existsb item_is_universal items) eqn:E.
  - rewrite (chain_universal items C E) in L. cbn in L. lia.
  - apply Forall_forall. intros x Ix. destruct (item_is_universal x) eqn:U; auto.
    rewrite <- E. symmetry. apply existsb_exists. eauto.
Qed.

Lemma item_lt_minimum m n M N b c d e :
  v_lt m n = true -> item_lt (Range (Some m) M b d) (Range (Some n) N c e) = true.
Proof.
  unfold v_lt, item_lt, item_compare, comparable_min, b_cmp. cbn [i_min lower_bound ext_cmp].
  destruct (v_cmp m n); discriminate || reflexivity.
Qed.

Lemma difference_ok a b : canonical a -> canonical b -> exists r, difference a b = Ok r.
Proof.
  rewrite !canonical_canon. intros Ca Cb. destruct (difference_spec a b Ca Cb) as (D1 & D2 & D3).
  destruct (difference a b) as [r|e] eqn:E; eauto. exfalso.
  assert (N1 : ~ difference_keeps a b) by (intros H; specialize (D2 H); discriminate).
  assert (N2 : ~ difference_loses a b) by (intros H; specialize (D3 H); discriminate).
  destruct (D1 N1 N2) as (r & E' & _). discriminate.
Qed.

Lemma union_clash_dec a b : canonical a -> canonical b -> union_clash a b \/ ~ union_clash a b.
Proof.
  rewrite !canonical_canon. intros Ca Cb.
  assert (K : clash (extract a ++ extract b) \/ ~ clash (extract a ++ extract b)).
  { apply clash_dec. apply Forall_app. split; now apply canon_proper. }
  destruct a as [|[v|]|], b as [|[w|[m|] ? [] ?]|]; cbn [union_clash starts_after] in *; try tauto.
  destruct (v_eq m v); [left; reflexivity|right; discriminate].
Qed.

Lemma union_outcome a b : canonical a -> canonical b -> union a b = Err RecursionError <-> union_clash a b.
Proof.
  intros Ca Cb. destruct (union_versions a b Ca Cb) as [U1 U2]. split; auto. intros E.
  destruct (union_clash_dec a b Ca Cb) as [H|N]; auto. destruct (U1 N) as (r & E' & _). congruence.
Qed.

Lemma union_exact a b : canonical a -> canonical b ->
  (union_clash a b /\ union a b = Err RecursionError)
  \/ (~ union_clash a b /\ exists r, union a b = Ok r /\ canonical r
       /\ forall v, contains r v = true <-> in_set a v \/ in_set b v).
Proof.
  intros Ca Cb. destruct (union_versions a b Ca Cb) as [U1 U2].
  destruct (union_clash_dec a b Ca Cb) as [H|N]; auto.
Qed.

Lemma merge_exact sets : Forall canonical sets ->
  (clash (flat_map extract sets) /\ merge sets = Err RecursionError)
  \/ (~ clash (flat_map extract sets) /\ exists r, merge sets = Ok r /\ canonical r
       /\ forall v, contains r v = true <-> Exists (fun a => in_set a v) sets).
Proof.
  intros F. destruct (merge_versions sets F) as [U1 U2].
  destruct (clash_dec (flat_map extract sets)) as [H|N]; auto.
  clear - F. induction F as [|a sets Ca F IH]; [constructor|].
  cbn [flat_map]. apply Forall_app. split; auto. apply canon_proper. now apply canonical_canon.
Qed.

Lemma operations_terminate a b : canonical a -> canonical b ->
  intersection a b <> Err RecursionError /\ difference a b <> Err RecursionError
  /\ complement a <> Err RecursionError
  /\ (union a b = Err RecursionError <-> union_clash a b)
  /\ (symmetric_difference a b = Err RecursionError -> union_clash a b).
Proof.
  intros Ca Cb. destruct (intersection_versions a b Ca Cb) as (i & EI & CI & _).
  destruct (difference_ok a b Ca Cb) as (d & ED). destruct (complement_versions a Ca) as (c & EC & _).
  split; [congruence|]. split; [congruence|]. split; [congruence|]. split; [now apply union_outcome|].
  intros H. destruct a as [|s|xs]; [discriminate| |discriminate]. unfold symmetric_difference in H.
  destruct (union (Item s) b) as [u|e] eqn:EU.
  - rewrite EI in H. cbn [bind] in H.
    assert (CU : canonical u).
    { destruct (union_versions (Item s) b Ca Cb) as [U1 U2]. destruct U1 as (x & E' & Cx & _); [|congruence].
      intros X. rewrite (U2 X) in EU. discriminate. }
    destruct (difference_ok u i CU CI) as (r & ER). congruence.
  - cbn in H. apply union_outcome; auto. congruence.
Qed.

Lemma symmetric_difference_clash a b : canonical a -> canonical b -> (forall items, a <> Union items) ->
  symmetric_difference a b = Err RecursionError <-> union_clash a b.
Proof.
  intros Ca Cb N. split; [now apply operations_terminate|]. intros K. destruct (union_versions a b Ca Cb) as [_ U].
  destruct a as [|i|items]; [destruct K| |now destruct (N items)]. unfold symmetric_difference. now rewrite (U K).
Qed.
