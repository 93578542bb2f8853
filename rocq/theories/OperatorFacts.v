(** Facts about operators: what they accept and what they translate to. *)

From Coq Require Import List ZArith NArith String Bool Lia.
From Verif Require Import Py Segments Version VersionSets Operators Specifiers Orders Cuts SetItems SetChains
  SetMerge SetOps Spec OrderFacts SetVersions SetTheorems BumpFacts.
Import ListNotations.
Open Scope Z_scope.

Local Opaque key.

(** ** Upper bounds *)

Lemma stable_final v : is_stable v = true <-> final v.
Proof. exact (is_stable_iff v). Qed.
Lemma unstable_final v : is_stable v = false <-> ~ final v.
Proof. rewrite <- stable_final. now destruct (is_stable v); intuition congruence. Qed.

Lemma caret_bound w : valid_version w = true -> exists u, next_caret_breaking w = Ok u
  /\ forall u', caret_upper w u' <-> u' = u.
Proof.
  intros V. destruct (next_breaking_shape w V) as (r & E & B). exists (bare (v_epoch w) r). split; [exact E|].
  intros u'. split.
  - intros (r' & -> & U1 & U2 & U3). f_equal. destruct (is_stable w) eqn:S.
    + apply stable_final in S. eapply bumped_unique; eauto.
    + apply unstable_final in S. destruct (Z.eqb_spec (part (v_release w) 0) 0).
      * subst r. now apply U2.
      * eapply bumped_unique; eauto.
  - intros ->. exists r. split; [reflexivity|]. destruct (is_stable w) eqn:S.
    + apply stable_final in S. split; [auto|]. split; intros H; contradiction.
    + apply unstable_final in S. split; [intros H; contradiction|].
      destruct (Z.eqb_spec (part (v_release w) 0) 0); split; intros; auto; contradiction.
Qed.

Lemma tilde_bound w : valid_version w = true -> exists u, next_tilde_breaking w = Ok u
  /\ forall u', tilde_upper w u' <-> u' = u.
Proof.
  intros V. destruct (next_tilde_shape w V) as (r & E & B). exists (bare (v_epoch w) r). split; [exact E|].
  intros u'. split.
  - intros (r' & -> & U1 & U2). f_equal. destruct (is_stable w) eqn:S.
    + apply stable_final in S. eapply bumped_unique; eauto.
    + apply unstable_final in S. subst r. now apply U2.
  - intros ->. exists r. split; [reflexivity|]. destruct (is_stable w) eqn:S.
    + apply stable_final in S. split; [auto|]. intros H; contradiction.
    + apply unstable_final in S. split; [intros H; contradiction|]. auto.
Qed.

Lemma tilde_equal_bound w : valid_version w = true -> (2 <= List.length (v_release w))%nat ->
  exists u, next_tilde_equal_breaking w = Ok u /\ forall u', tilde_equal_upper w u' <-> u' = u.
Proof.
  intros V L. destruct (next_tilde_equal_shape w V) as [[L' _]|(_ & r & E & B)]; [lia|].
  exists (bare (v_epoch w) r). split; [exact E|]. intros u'. split.
  - intros (r' & -> & U). f_equal. eapply bumped_unique; eauto.
  - intros ->. exists r. auto.
Qed.

Lemma wildcard_bound w : valid_version w = true ->
  (wildcard_any w /\ next_wildcard_breaking w = Ok None)
  \/ (~ wildcard_any w /\ exists u, next_wildcard_breaking w = Ok (Some u) /\ forall u', wildcard_upper w u' <-> u' = u).
Proof.
  intros V. unfold wildcard_any.
  destruct (next_wildcard_shape w V) as [(S & P & L & E)|[(S & P & L & r & E & B)|[(S & P & r & E & B)|(S & E)]]].
  - left. apply stable_final in S. auto.
  - right. apply stable_final in S. split; [intros (_ & _ & L'); lia|]. exists (bare (v_epoch w) r). split; [exact E|].
    intros u'. split.
    + intros (r' & -> & U1 & _). f_equal. eapply bumped_unique; eauto.
    + intros ->. exists r. split; [reflexivity|]. split; [auto|]. split; intros; contradiction.
  - right. apply stable_final in S. split; [intros (_ & H & _); contradiction|]. exists (bare (v_epoch w) r). split; [exact E|].
    intros u'. split.
    + intros (r' & -> & _ & U2 & _). f_equal. eapply bumped_unique; eauto.
    + intros ->. exists r. split; [reflexivity|]. split; [intros; contradiction|]. split; auto. intros; contradiction.
  - right. apply unstable_final in S. split; [intros (H & _); contradiction|]. exists (bare (v_epoch w) (v_release w)). split; [exact E|].
    intros u'. split.
    + intros (r' & -> & _ & _ & U3). f_equal. auto.
    + intros ->. exists (v_release w). split; [reflexivity|]. split; [intros; contradiction|]. split; [intros; contradiction|auto].
Qed.

(** ** Matching *)

Lemma between_sat upper w v u : (forall u', upper w u' <-> u' = u) ->
  exists b, between w v (Ok u) = Ok b /\ (b = true <-> from_to upper w v).
Proof.
  intros U. unfold between, from_to. destruct (v_le w v) eqn:L; cbn [bind].
  - exists (v_lt v u). split; auto. split.
    + intros H. split; auto. exists u. split; auto. now apply U.
    + intros [_ (u' & H & H')]. apply U in H. now subst u'.
  - exists false. split; auto. intuition discriminate.
Qed.

Lemma v_ge_le v w : v_ge v w = v_le w v.
Proof.
  unfold v_ge, v_le. replace (v_cmp v w) with (CompOpp (v_cmp w v)) by (symmetry; apply (law_anti lawful_key)).
  now destruct (v_cmp w v).
Qed.
Lemma v_gt_lt v w : v_gt v w = v_lt w v.
Proof. destruct total_order as (_ & _ & _ & _ & H & _). apply H. Qed.

Lemma v_eq_sym v w : v_eq v w = v_eq w v.
Proof. destruct total_order as (_ & _ & _ & _ & _ & _ & _ & _ & H & _). apply H. Qed.

Lemma wildcard_sat w v : valid_version w = true ->
  exists b, matches_wildcard_equal v w = Ok b /\ (b = true <-> wildcard_any w \/ from_to wildcard_upper w v).
Proof.
  intros V. unfold matches_wildcard_equal.
  destruct (wildcard_bound w V) as [[A E]|(A & u & E & U)]; rewrite E; cbn [bind].
  - exists true. tauto.
  - destruct (between_sat wildcard_upper w v u U) as (b & E' & H). exists b. split; auto. rewrite H. tauto.
Qed.

Lemma op_matches_sat t w v : op_made t w -> exists b, op_matches t v w = Ok b /\ (b = true <-> op_sat t w v).
Proof.
  intros [V T].
  assert (B : forall b, exists c, Ok b = Ok c /\ (c = true <-> b = true)) by (intros b; exists b; tauto).
  destruct t; cbn [op_matches op_sat].
  - destruct (tilde_equal_bound w V (T eq_refl)) as (u & E & U). unfold matches_tilde_equal. rewrite E. now apply between_sat.
  - apply B.
  - unfold matches_not_equal. exists (v_ne v w). split; auto. unfold v_ne, v_eq. destruct (is_eq _); intuition discriminate.
  - apply B.
  - apply B.
  - unfold matches_greater. rewrite v_gt_lt. apply B.
  - unfold matches_greater_or_equal. rewrite v_ge_le. apply B.
  - destruct (caret_bound w V) as (u & E & U). unfold matches_caret. rewrite E. now apply between_sat.
  - apply B.
  - destruct (tilde_bound w V) as (u & E & U). unfold matches_tilde. rewrite E. now apply between_sat.
  - now apply wildcard_sat.
  - now apply wildcard_sat.
  - unfold matches_wildcard_not_equal. destruct (wildcard_sat w v V) as (b & E & H). rewrite E. cbn [bind].
    exists (negb b). split; auto. rewrite <- H. destruct b; cbn; intuition discriminate.
Qed.

Lemma op_valid_iff t w : valid_version w = true -> op_valid t w = true <-> op_made t w.
Proof.
  intros V. unfold op_valid, op_made, last_index, rel_last_index, rel_precision. rewrite len_nat.
  destruct (valid_parts w V) as (N & _).
  assert (L : (1 <= List.length (v_release w))%nat) by (destruct (v_release w); [congruence|cbn; lia]).
  destruct t; cbn [op_is op_index N.eqb andb negb]; try (split; [split; [assumption|discriminate]|reflexivity]).
  rewrite negb_true_iff, Z.eqb_neq. split; [intros H; split; auto; intros _; lia|intros [_ H]; specialize (H eq_refl); lia].
Qed.

(** ** Translation *)

Lemma post_dev_gt v : valid_version v = true -> post_dev v -> v_lt (bare (v_epoch v) (v_release v)) v = true.
Proof.
  intros V (P & Q & D). destruct (valid_parts v V) as (N & _). destruct v as [e r pre post dev l]. cbn in *. subst pre.
  unfold v_lt, bare. rewrite (key_cmp_tags e r r) by (auto; intros ?; reflexivity).
  destruct post, dev; try congruence. reflexivity.
Qed.

Lemma post_dev_not_final v : post_dev v -> is_stable v = false.
Proof. intros (_ & _ & D). apply unstable_final. intros [_ H]. contradiction. Qed.

Lemma post_dev_dec v : post_dev v \/ ~ post_dev v.
Proof. unfold post_dev. destruct (v_pre v), (v_post v), (v_dev v); intuition congruence. Qed.

Lemma canonical_range min max imin imax :
  canonical (Item (Range min max imin imax)) <-> good_item (Range min max imin imax).
Proof. reflexivity. Qed.

Lemma range_between m M : v_lt m M = true ->
  range_new (Some m) (Some M) true false = Ok (Range (Some m) (Some M) true false)
  /\ canonical (Item (Range (Some m) (Some M) true false))
  /\ forall v, contains (Item (Range (Some m) (Some M) true false)) v = true <-> v_le m v = true /\ v_lt v M = true.
Proof.
  intros L. split; [|split].
  - destruct (range_new_cases (Some m) (Some M) true false) as [H1 H2]. apply H2. rewrite H1.
    intros [[H _]|[[H _]|(a & b & Ha & Hb & Hl)]]; try discriminate. inversion Ha; inversion Hb; subst.
    destruct total_order as (T & _). destruct (T a b) as [(_ & _ & X)|[(X & _)|(X & _)]]; try congruence.
    rewrite v_gt_lt in X. congruence.
  - cbn. repeat split; auto; discriminate.
  - intros v. rewrite in_set_contains. reflexivity.
Qed.

Lemma bounded_translate upper w u f :
  (forall u', upper w u' <-> u' = u) ->
  f = (let* x := Ok u in let* r := range_new (Some w) (Some x) true false in Ok (Item r)) ->
  v_lt w u = true ->
  exists a, f = Ok a /\ canonical a /\ forall v, contains a v = true <-> from_to upper w v.
Proof.
  intros U -> L. destruct (range_between w u L) as (E & C & M). cbn [bind]. rewrite E. cbn [bind].
  eexists. split; [reflexivity|]. split; [exact C|]. intros v. rewrite M. unfold from_to. split.
  - intros [H1 H2]. split; auto. exists u. split; auto. now apply U.
  - intros [H1 (u' & Hu & H2)]. apply U in Hu. subst u'. auto.
Qed.

Lemma two_pieces x y : chain [x; y] -> forall r, canon r -> (forall c, dset r c <-> dens [x; y] c) -> exists xs, r = Union xs.
Proof.
  intros C r Cr D. assert (E : set_eqb r (Union [x; y]) = true).
  { apply set_eqb_iff; auto. split; auto. }
  destruct r as [|i|xs]; cbn in E; try discriminate. eauto.
Qed.

Lemma complement_union i m M bm bM : proper i -> lo i = Fin (key m, bm) -> hi i = Fin (key M, bM) ->
  exists xs, complement (Item i) = Ok (Union xs) /\ canonical (Union xs)
    /\ forall v, contains (Union xs) v = true <-> ~ in_item i v.
Proof.
  intros P L H. destruct (complement_spec (Item i) P) as (r & E & C & D).
  assert (Lt := proper_lt i P). rewrite L, H in Lt.
  assert (U : exists xs, r = Union xs).
  { apply (two_pieces (Range None (Some m) false bm) (Range (Some M) None (negb bM) false)); auto.
    - split; [cbn; split; [auto|split; [congruence|reflexivity]]|]. split; [cbn; split; [congruence|split; [auto|reflexivity]]|].
      split; [|exact I]. rewrite range_hi, range_lo. cbn. now rewrite negb_involutive.
    - intros c. rewrite D, dset_item, !dens_cons, dens_nil. unfold den. rewrite !range_hi, !range_lo, L, H. cbn [hi_of lo_of].
      rewrite negb_involutive. rewrite <- !not_clt. pose proof (cneg_le c) as Ng. rewrite <- not_clt in Ng.
      destruct (clt_cle_dec c (Fin (key m, bm))) as [A|A], (clt_cle_dec c (Fin (key M, bM))) as [B|B].
      + pose proof (cpos_gt (key m, bm)). assert (clt c PosInf) by corder. tauto.
      + exfalso. corder.
      + rewrite <- not_clt in A. tauto.
      + rewrite <- not_clt in A, B. tauto. }
  destruct U as (xs & ->). exists xs. split; auto. split; [now apply canonical_canon|].
  intros v. rewrite contains_iff, D, dset_item by assumption. rewrite <- dset_item, <- (contains_iff (Item i)) by exact P.
  rewrite (in_set_contains (Item i)). cbn [in_set]. split; [tauto|]. intros N. split; auto. apply cpos_gt.
Qed.

Lemma half_range min max imin imax : (min = None \/ max = None) ->
  (min = None -> imin = false) -> (max = None -> imax = false) ->
  range_new min max imin imax = Ok (Range min max imin imax) /\ canonical (Item (Range min max imin imax)).
Proof.
  intros H A B. split.
  - destruct (range_new_cases min max imin imax) as [H1 H2]. apply H2. rewrite H1.
    intros [[X Y]|[[X Y]|(a & b & X & Y & _)]]; [rewrite A in Y by auto; discriminate|rewrite B in Y by auto; discriminate|].
    destruct H; congruence.
  - cbn. repeat split; auto. destruct min, max, H; auto; discriminate.
Qed.

Lemma bounded_stuck w u f :
  f = (let* x := Ok u in let* r := range_new (Some w) (Some x) true false in Ok (Item r)) ->
  v_lt u w = true -> f = Err ValueError.
Proof.
  intros -> L. cbn [bind]. destruct (range_new_cases (Some w) (Some u) true false) as [H _].
  replace (range_new (Some w) (Some u) true false) with (@Err item ValueError); [reflexivity|].
  symmetry. apply H. right. right. eauto.
Qed.

Lemma op_stuck_dec t w : op_stuck t w \/ ~ op_stuck t w.
Proof.
  destruct t; cbn; try tauto; try apply post_dev_dec.
  destruct (post_dev_dec w), (Z.eq_dec (part (v_release w) 0) 0); tauto.
Qed.

Lemma wildcard_translate w : ordinary w -> ~ post_dev w -> exists a, translate_wildcard_equal w = Ok a /\ canonical a
  /\ (forall v, contains a v = true <-> wildcard_any w \/ from_to wildcard_upper w v)
  /\ (a = Item UNIVERSAL \/ exists u, v_lt w u = true /\ a = Item (Range (Some w) (Some u) true false)).
Proof.
  intros O S. pose proof O as [V _]. unfold translate_wildcard_equal.
  destruct (next_wildcard_lt w O) as (o & E & H). destruct (wildcard_bound w V) as [[A E']|(A & u & E' & U)];
    rewrite E' in E; inversion E; subst o; rewrite E'; cbn [bind].
  - eexists. split; [reflexivity|]. split; [cbn; auto|]. split; [|left; reflexivity].
    intros v. split; [auto|]. reflexivity.
  - assert (L : v_lt w u = true) by tauto. destruct (range_between w u L) as (Er & C & M). rewrite Er. cbn [bind].
    eexists. split; [reflexivity|]. split; [exact C|]. split; [|right; eauto].
    intros v. rewrite M. unfold from_to. split.
    + intros [H1 H2]. right. split; auto. exists u. split; auto. now apply U.
    + intros [X|[H1 (u' & Hu & H2)]]; [contradiction|]. apply U in Hu. subst u'. auto.
Qed.

Lemma op_translate_sat t w : ordinary w -> op_made t w -> ~ op_stuck t w ->
  exists a, op_translate t w = Ok a /\ canonical a /\ forall v, contains a v = true <-> op_sat t w v.
Proof.
  intros O [V T] S. pose proof O as [_ F].
  assert (EQ : exists a, translate_equal w = Ok a /\ canonical a /\ forall v, contains a v = true <-> v_eq v w = true).
  { eexists. split; [reflexivity|]. split; [cbn; auto|]. intros v. rewrite in_set_contains. cbn [in_set in_item]. now rewrite v_eq_sym. }
  assert (WE : ~ post_dev w -> exists a, translate_wildcard_equal w = Ok a /\ canonical a
            /\ forall v, contains a v = true <-> wildcard_any w \/ from_to wildcard_upper w v).
  { intros X. destruct (wildcard_translate w O X) as (a & H1 & H2 & H3 & _). eauto. }
  destruct t; cbn [op_translate op_sat op_stuck] in *.
  - destruct (tilde_equal_bound w V (T eq_refl)) as (u & E & U). destruct (next_tilde_equal_lt w O (T eq_refl)) as (u' & E' & L).
    rewrite E in E'. inversion E'. subst u'. apply (bounded_translate _ w u _ U); auto. unfold translate_tilde_equal. now rewrite E.
  - exact EQ.
  - destruct (complement_union (Point w) w w false true) as (xs & E & C & M); [exact I|reflexivity|reflexivity|].
    unfold translate_not_equal, translate_equal. cbn [bind]. rewrite E. cbn [bind]. eexists. split; [reflexivity|]. split; auto.
    intros v. rewrite M. cbn [in_item]. rewrite v_eq_sym. destruct (v_eq v w); intuition discriminate.
  - destruct (half_range None (Some w) false false) as [E C]; auto. unfold translate_less. rewrite E. cbn [bind].
    eexists. split; [reflexivity|]. split; auto. intros v. rewrite in_set_contains. cbn. tauto.
  - destruct (half_range None (Some w) false true) as [E C]; auto; [discriminate|]. unfold translate_less_or_equal. rewrite E. cbn [bind].
    eexists. split; [reflexivity|]. split; auto. intros v. rewrite in_set_contains. cbn. tauto.
  - destruct (half_range (Some w) None false false) as [E C]; auto. unfold translate_greater. rewrite E. cbn [bind].
    eexists. split; [reflexivity|]. split; auto. intros v. rewrite in_set_contains. cbn. tauto.
  - destruct (half_range (Some w) None true false) as [E C]; auto; [discriminate|]. unfold translate_greater_or_equal. rewrite E. cbn [bind].
    eexists. split; [reflexivity|]. split; auto. intros v. rewrite in_set_contains. cbn. tauto.
  - destruct (caret_bound w V) as (u & E & U). destruct (next_breaking_lt w O) as (u' & E' & L).
    rewrite E in E'. inversion E'. subst u'. apply (bounded_translate _ w u _ U); [unfold translate_caret; now rewrite E|]. tauto.
  - exact EQ.
  - destruct (tilde_bound w V) as (u & E & U). destruct (next_tilde_lt w O) as (u' & E' & L).
    rewrite E in E'. inversion E'. subst u'. apply (bounded_translate _ w u _ U); [unfold translate_tilde; now rewrite E|]. tauto.
  - auto.
  - auto.
  - destruct (wildcard_translate w O S) as (a & E & C & M & [->|(u & L & ->)]); unfold translate_wildcard_not_equal; rewrite E; cbn [bind].
    + destruct (complement_spec UNIVERSAL_SET canon_universal) as (r & Er & Cr & D).
      assert (r = Empty).
      { assert (K : set_eqb r Empty = true).
        { apply set_eqb_iff; [auto|exact I|]. intros c. rewrite D, dset_universal, dset_empty. tauto. }
        destruct r; cbn in K; congruence. }
      subst r. unfold UNIVERSAL_SET in Er. rewrite Er. cbn [bind]. eexists. split; [reflexivity|]. split; [exact I|].
      intros v. cbn [contains]. split; [discriminate|]. intros N. exfalso. apply N. apply M. reflexivity.
    + destruct (complement_union (Range (Some w) (Some u) true false) w u false false) as (xs & Ex & Cx & Mx);
        [apply good_item_proper; exact C|reflexivity|reflexivity|].
      rewrite Ex. cbn [bind]. eexists. split; [reflexivity|]. split; auto.
      intros v. rewrite Mx, <- M, in_set_contains. reflexivity.
Qed.

Lemma op_translate_stuck t w : valid_version w = true -> op_stuck t w -> op_translate t w = Err ValueError.
Proof.
  intros V S.
  assert (WE : post_dev w -> translate_wildcard_equal w = Err ValueError).
  { intros X. pose proof (post_dev_gt w V X) as L. pose proof (post_dev_not_final w X) as NF.
    destruct (next_wildcard_shape w V) as [(S' & _)|[(S' & _)|[(S' & _)|(_ & E)]]]; try congruence.
    unfold translate_wildcard_equal. rewrite E. cbn [bind]. eapply bounded_stuck; [|exact L]. reflexivity. }
  destruct t; cbn [op_stuck op_translate] in *; try contradiction; auto.
  - destruct S as [X Z0]. pose proof (post_dev_gt w V X) as L. pose proof (post_dev_not_final w X) as NF.
    destruct (next_breaking_shape w V) as (r & E & B). rewrite NF, Z0 in B. cbn in B. subst r.
    unfold translate_caret, next_caret_breaking. rewrite E. eapply bounded_stuck; [reflexivity|exact L].
  - pose proof (post_dev_gt w V S) as L. pose proof (post_dev_not_final w S) as NF.
    destruct (next_tilde_shape w V) as (r & E & B). rewrite NF in B. subst r.
    unfold translate_tilde. rewrite E. eapply bounded_stuck; [reflexivity|exact L].
  - unfold translate_wildcard_not_equal. now rewrite WE.
Qed.

(** A stuck operator accepts nothing, its negation everything. *)
Lemma below_itself w u v : v_lt u w = true -> v_le w v = true -> v_lt v u = true -> False.
Proof.
  intros H1 H2 H3. apply v_le_iff in H2. destruct total_order as (_ & _ & _ & _ & _ & R & T & _ & _ & _ & C).
  pose proof (T _ _ _ H3 H1) as H4. destruct H2 as [H2|H2].
  - pose proof (T _ _ _ H2 H4) as H. rewrite R in H. discriminate.
  - destruct (C _ _ w H2) as [X _]. rewrite R in X. congruence.
Qed.

Lemma op_stuck_sat t w v : valid_version w = true -> op_stuck t w -> op_sat t w v <-> t = WILDCARD_NOT_EQUAL.
Proof.
  intros V S.
  assert (PD : post_dev w) by (destruct t; cbn in S; tauto).
  pose proof (post_dev_gt w V PD) as L. pose proof (post_dev_not_final w PD) as NF. apply unstable_final in NF.
  assert (WE : ~ (wildcard_any w \/ from_to wildcard_upper w v)).
  { intros [(X & _)|(H & u & (r & -> & _ & _ & U) & H')]; [contradiction|]. rewrite (U NF) in H'.
    exact (below_itself _ _ _ L H H'). }
  destruct t; cbn [op_sat op_stuck] in *; try contradiction; try (split; [intros X; exfalso; auto|discriminate]); [| |split; auto].
  - destruct X as (H & u & (r & -> & _ & U & _) & H'). destruct S as [_ Z0].
    rewrite (U NF Z0) in H'. exact (below_itself _ _ _ L H H').
  - destruct X as (H & u & (r & -> & _ & U) & H'). rewrite (U NF) in H'.
    exact (below_itself _ _ _ L H H').
Qed.

(** ** Wildcards *)

Lemma bare_lt v e s : ordinary v -> ordinary (bare e s) ->
  v_lt v (bare e s) = true <->
  v_epoch v < e \/ v_epoch v = e /\ (rel_before (v_release v) s \/ rel_same (v_release v) s /\ early v).
Proof.
  intros Ov Ow. rewrite lt_before by assumption. unfold before, early. cbn [bare v_epoch v_release v_pre v_post v_dev v_local].
  change (stage (bare e s)) with 2. split.
  - intros [H|(H & [K|(K & [S|(S & R)])])]; auto. exfalso.
    destruct R as [R|(P & [R|(Q & [R|(D & R)])])].
    + destruct (v_pre v); destruct R.
    + destruct (v_post v); destruct R.
    + unfold stage in S. rewrite P, Q in S. destruct (v_dev v); [discriminate|destruct R].
    + destruct (v_local v); destruct R.
  - tauto.
Qed.

Lemma not_lt_le v w : v_le w v = true <-> v_lt v w <> true.
Proof.
  unfold v_le, v_lt. replace (v_cmp v w) with (CompOpp (v_cmp w v)) by (symmetry; apply (law_anti lawful_key)).
  destruct (v_cmp w v); cbn; intuition congruence.
Qed.

Lemma prefix_between (R r b : list Z) (P : Prop) : r <> [] -> Forall (fun x => 0 <= x) R ->
  bumped (r ++ [0]) (List.length r - 1) b ->
  (~ (rel_before R (r ++ [0]) \/ rel_same R (r ++ [0]) /\ P) /\ (rel_before R b \/ rel_same R b /\ P))
  <-> (starts_with R r /\ ~ (rel_same R r /\ P)) \/ (rel_same R b /\ P).
Proof.
  intros N F [_ B]. pose proof (fun n => part_nonneg R n F) as NN.
  assert (L : (1 <= List.length r)%nat) by (destruct r; [congruence|cbn; lia]).
  assert (P0 : forall n, part (r ++ [0]) n = part r n).
  { intros n. unfold part. destruct (Nat.lt_ge_cases n (List.length r)).
    - now rewrite app_nth1.
    - rewrite app_nth2 by assumption. rewrite (nth_overflow r) by assumption. destruct (n - List.length r)%nat as [|[|]]; reflexivity. }
  assert (Z0 : forall n, (List.length r <= n)%nat -> part r n = 0) by (intros n H; apply nth_overflow; exact H).
  set (k := (List.length r - 1)%nat) in *.
  assert (Bk : part b k = part r k + 1) by (rewrite B, Nat.ltb_irrefl, Nat.eqb_refl, P0; reflexivity).
  assert (Blt : forall n, (n < k)%nat -> part b n = part r n).
  { intros n H. rewrite B, P0. destruct (Nat.ltb_spec n k); [reflexivity|lia]. }
  assert (Bgt : forall n, (k < n)%nat -> part b n = 0).
  { intros n H. rewrite B. destruct (Nat.ltb_spec n k); [lia|]. destruct (Nat.eqb_spec n k); [lia|reflexivity]. }
  assert (S0 : rel_same R (r ++ [0]) <-> rel_same R r) by (unfold rel_same; split; intros H n; rewrite H; auto).
  rewrite S0. split.
  - intros (N1 & [(n & E & H)|H]); [|auto]. left. split; [|tauto].
    assert (K : n = k).
    { destruct (Nat.lt_trichotomy n k) as [T|[T|T]]; [|exact T|].
      - exfalso. apply N1. left. exists n. split; [|rewrite P0, <- Blt; auto]. intros m Hm. rewrite P0, E by lia. apply Blt. lia.
      - rewrite Bgt in H by lia. specialize (NN n). lia. }
    subst n. intros m Hm. destruct (Nat.eq_dec m k) as [->|NE].
    + rewrite Bk in H. destruct (Z.lt_trichotomy (part R k) (part r k)) as [T|[T|T]]; [|exact T|lia].
      exfalso. apply N1. left. exists k. split; [|now rewrite P0]. intros m H'. rewrite P0, E by lia. now apply Blt.
    + rewrite E by lia. apply Blt. lia.
  - intros [[S NS]|[S HP]].
    + split.
      * intros [(n & E & H)|H]; [|auto]. rewrite P0 in H. destruct (Nat.lt_ge_cases n (List.length r)) as [T|T].
        -- rewrite (S n T) in H. lia.
        -- rewrite (Z0 n T) in H. specialize (NN n). lia.
      * left. exists k. split; [|rewrite Bk, S by lia; lia]. intros m H. rewrite Blt by lia. apply S. lia.
    + split; [|auto]. intros [(n & E & H)|[H _]].
      * destruct (Nat.lt_trichotomy n k) as [T|[T|T]].
        -- rewrite P0, S, Blt in H by lia. lia.
        -- subst n. rewrite P0, S, Bk in H. lia.
        -- specialize (E k T). rewrite P0, S, Bk in E. lia.
      * specialize (H k). rewrite S, Bk in H. lia.
Qed.

Lemma bumped_app r b : r <> [] -> bumped r (List.length r - 1) b -> bumped (r ++ [0]) (List.length r - 1) (b ++ [0]).
Proof.
  intros N [L B]. assert (1 <= List.length r)%nat by (destruct r; [congruence|cbn; lia]).
  assert (P0 : forall s n, part (s ++ [0]) n = part s n).
  { intros s n. unfold part. destruct (Nat.lt_ge_cases n (List.length s)).
    - now rewrite app_nth1.
    - rewrite app_nth2 by assumption. rewrite (nth_overflow s) by assumption. destruct (n - List.length s)%nat as [|[|]]; reflexivity. }
  split; [rewrite !app_length; cbn; lia|]. intros n. now rewrite !P0.
Qed.

Lemma bumped_exists r i : exists b, bumped r i b.
Proof.
  exists (firstn i r ++ repeat 0 (i - List.length r) ++ [part r i + 1] ++ repeat 0 (List.length r - S i)).
  split.
  - rewrite !app_length, !repeat_length, firstn_length. cbn. lia.
  - intros n. unfold part.
    assert (L1 : List.length (firstn i r ++ repeat 0 (i - List.length r)) = i)
      by (rewrite app_length, repeat_length, firstn_length; lia).
    rewrite app_assoc.
    destruct (Nat.ltb_spec n i) as [T|T]; [|destruct (Nat.eqb_spec n i) as [->|T']].
    + rewrite app_nth1 by lia. destruct (Nat.lt_ge_cases n (List.length r)).
      * rewrite app_nth1 by (rewrite firstn_length; lia). pose proof (part_firstn r i n) as X. unfold part in X. rewrite X.
        destruct (Nat.ltb_spec n i); [reflexivity|lia].
      * rewrite app_nth2 by (rewrite firstn_length; lia). rewrite nth_repeat. now rewrite nth_overflow.
    + rewrite app_nth2, L1, Nat.sub_diag by lia. reflexivity.
    + rewrite app_nth2, L1 by lia. replace (n - i)%nat with (S (n - S i)) by lia. cbn [app nth]. apply nth_repeat.
Qed.

Lemma wildcard_prefix e r b v : r <> [] -> Forall (fun x => 0 <= x) r -> bumped r (List.length r - 1) b -> ordinary v ->
  op_sat WILDCARD_DOUBLE_EQUAL (bare e (r ++ [0])) v <->
  v_epoch v = e /\ ((starts_with (v_release v) r /\ ~ (rel_same (v_release v) r /\ early v))
                    \/ (rel_same (v_release v) b /\ early v)).
Proof.
  intros N F B O. pose proof (bumped_app r b N B) as B'.
  assert (L : (1 <= List.length r)%nat) by (destruct r; [congruence|cbn; lia]).
  assert (Fr : Forall (fun x => 0 <= x) (r ++ [0])) by (apply Forall_app; split; auto; repeat constructor; lia).
  assert (Ow : ordinary (bare e (r ++ [0]))) by (apply bare_ordinary; auto; destruct r; discriminate).
  assert (Ou : ordinary (bare e (b ++ [0]))) by (apply bare_ordinary; [destruct b; discriminate|]; eapply bumped_nonneg; eauto).
  cbn [op_sat]. unfold from_to, wildcard_any, wildcard_upper. cbn [bare v_epoch v_release v_pre v_post v_dev v_local].
  assert (Lr : List.length (r ++ [0]) = S (List.length r)) by (rewrite app_length; cbn; lia).
  assert (Sb : forall R, rel_same R (b ++ [0]) <-> rel_same R b).
  { intros R. assert (P0 : forall n, part (b ++ [0]) n = part b n).
    { intros n. unfold part. destruct (Nat.lt_ge_cases n (List.length b)).
      - now rewrite app_nth1.
      - rewrite app_nth2 by assumption. rewrite (nth_overflow b) by assumption. destruct (n - List.length b)%nat as [|[|]]; reflexivity. }
    unfold rel_same. split; intros H n; rewrite H; auto. }
  pose proof (prefix_between (v_release v) r (b ++ [0]) (early v) N (proj2 O) B') as PB. rewrite Sb in PB.
  transitivity (v_lt v (bare e (r ++ [0])) <> true /\ v_lt v (bare e (b ++ [0])) = true).
  - rewrite <- not_lt_le. split.
    + intros [(_ & _ & H)|(H & u & (s & -> & U & _) & K)]; [lia|]. split; auto.
      specialize (U (conj eq_refl eq_refl) eq_refl). rewrite Lr in U. replace (S (List.length r) - 2)%nat with (List.length r - 1)%nat in U by lia.
      rewrite (bumped_unique _ _ _ _ U B') in K. exact K.
    + intros [H K]. right. split; auto. exists (bare e (b ++ [0])). split; auto. exists (b ++ [0]). split; [reflexivity|].
      split; [|split].
      * intros _ _. rewrite Lr. replace (S (List.length r) - 2)%nat with (List.length r - 1)%nat by lia. exact B'.
      * intros _ X. congruence.
      * intros X. exfalso. apply X. split; reflexivity.
  - rewrite !bare_lt by assumption. rewrite <- PB, Sb. split.
    + intros [H1 H2]. assert (v_epoch v = e) by lia. split; [assumption|]. split; [tauto|]. destruct H2 as [H2|[_ H2]]; [lia|exact H2].
    + intros (E & H1 & H2). split; [|auto]. intros [X|[_ X]]; [lia|auto].
Qed.

Lemma wildcard_single e n v : op_sat WILDCARD_DOUBLE_EQUAL (bare e [n]) v.
Proof. left. repeat split. Qed.

Lemma wildcard_negation w v : op_sat WILDCARD_NOT_EQUAL w v <-> ~ op_sat WILDCARD_DOUBLE_EQUAL w v.
Proof. reflexivity. Qed.
