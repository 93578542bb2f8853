(** Bumps go no further than needed. *)

From Coq Require Import List ZArith NArith String Bool Lia.
From Verif Require Import Py Segments Version Orders Spec OrderFacts BumpFacts BumpSpec.
Import ListNotations.
Open Scope Z_scope.

Lemma le_not_lt v w : v_le v w = true <-> v_lt w v = false.
Proof.
  unfold v_le, v_lt. assert (A : v_cmp w v = CompOpp (v_cmp v w)) by apply (law_anti lawful_key). rewrite A. now destruct (v_cmp v w).
Qed.

Lemma le_lt_trans u v w : v_le u v = true -> v_lt v w = true -> v_lt u w = true.
Proof.
  destruct total_order as (_ & LE & _ & _ & _ & _ & T & _ & _ & _ & C). intros H K. rewrite LE in H. apply orb_true_iff in H as [H|H].
  - exact (T _ _ _ H K).
  - destruct (C u v w H) as [-> _]. exact K.
Qed.

Lemma le_of v w : ordinary v -> ordinary w -> before v w \/ same v w -> v_le v w = true.
Proof.
  intros O P H. destruct total_order as (_ & LE & _). rewrite LE. apply orb_true_iff.
  destruct H as [H|H]; [left; now apply lt_before|right]. apply eq_same; auto; [apply O|apply P].
Qed.

Lemma before_bare v e s : before v (bare e s) <->
  v_epoch v < e \/ v_epoch v = e /\ (rel_before (v_release v) s \/ rel_same (v_release v) s /\ stage v < 2).
Proof.
  unfold before. cbn [bare v_epoch v_release v_pre v_post v_dev v_local]. change (stage (bare e s)) with 2. split.
  - intros [H|[E [H|[R [H|[S H]]]]]]; auto. exfalso.
    destruct H as [H|[P H]]; [destruct (v_pre v); destruct H|]. destruct H as [H|[Q H]]; [destruct (v_post v); destruct H|].
    destruct H as [H|[D H]]; [|destruct (v_local v); destruct H]. unfold stage in S. rewrite P, Q in S. destruct (v_dev v); [discriminate|destruct H].
  - intros [H|[E [H|[R S]]]]; [left; exact H|right; split; [exact E|left; exact H]|]. right. split; [exact E|]. right. split; [exact R|]. left. exact S.
Qed.

Lemma stage_final v : stage v < 2 -> is_stable v = false.
Proof.
  intros H. destruct (is_stable v) eqn:S; auto. apply is_stable_iff in S as [P D]. unfold stage in H. rewrite P, D in H. destruct (v_post v); lia.
Qed.

Lemma bare_le e r f s : ordinary (bare e r) -> ordinary (bare f s) ->
  e < f \/ e = f /\ (rel_before r s \/ rel_same r s) -> v_le (bare e r) (bare f s) = true.
Proof.
  intros O P H. apply le_not_lt. destruct (v_lt (bare f s) (bare e r)) eqn:L; auto. exfalso. apply lt_before in L; auto.
  apply before_bare in L. cbn [bare v_epoch v_release stage v_pre v_post v_dev] in L.
  destruct H as [H|[E [H|H]]]; destruct L as [L|[F [L|[L S]]]]; try lia.
  - exact (rel_before_asym r s H L).
  - exact (rel_before_irrefl s r L (rel_same_sym _ _ H)).
Qed.

Lemma bumped_least r i r' s : bumped r i r' -> Forall (fun x => 0 <= x) r -> (forall n, (i < n)%nat -> part s n = 0) ->
  rel_before r s -> rel_before r' s \/ rel_same r' s.
Proof.
  intros [_ B] N Z (n & E & L). destruct (Nat.lt_trichotomy n i) as [K|[K|K]].
  - left. exists n. split.
    + intros m M. rewrite B. destruct (Nat.ltb_spec m i); [auto|lia].
    + rewrite B. destruct (Nat.ltb_spec n i); [auto|lia].
  - subst n. assert (Ri : part r' i = part r i + 1). { rewrite B. rewrite Nat.ltb_irrefl, Nat.eqb_refl. reflexivity. }
    assert (Rm : forall m, (m < i)%nat -> part r' m = part s m).
    { intros m M. rewrite B. destruct (Nat.ltb_spec m i); [auto|lia]. }
    destruct (Z.eq_dec (part r' i) (part s i)) as [Q|Q].
    + right. intros m. destruct (Nat.lt_trichotomy m i) as [M|[M|M]]; [auto|now subst|]. rewrite (Z m M), B.
      destruct (Nat.ltb_spec m i); [lia|]. destruct (Nat.eqb_spec m i); [lia|reflexivity].
    + left. exists i. split; auto. lia.
  - exfalso. rewrite (Z n K) in L. pose proof (part_nonneg r n N). lia.
Qed.

Theorem next_at_least v i w w' : ordinary v -> 0 <= i -> ordinary w -> round_at (Z.to_nat i) w -> v_lt v w = true ->
  next_at v i = Ok w' -> v_le w' w = true.
Proof.
  intros O I P [W Z] L E. destruct (next_at_shape v i (proj1 O) I) as (r & E' & S). rewrite E' in E. injection E as <-.
  assert (K := proj1 (lt_before v w O P) L). rewrite W in K. apply before_bare in K. rewrite W.
  destruct (is_stable v) eqn:St.
  - assert (K' : v_epoch v < v_epoch w \/ v_epoch v = v_epoch w /\ rel_before (v_release v) (v_release w)).
    { destruct K as [K|[K1 [K2|[_ K3]]]]; auto. apply stage_final in K3. congruence. }
    apply bare_le.
    + apply bare_ordinary; [|exact (bumped_nonneg _ _ _ S (proj2 O))]. destruct S as [S _]. destruct r; [cbn in S; lia|discriminate].
    + now rewrite <- W.
    + destruct K' as [K'|[K1 K2]]; auto. right. split; auto. exact (bumped_least _ _ _ _ S (proj2 O) Z K2).
  - subst r. apply bare_le.
    + apply bare_ordinary; [|apply O]. destruct (valid_parts v (proj1 O)) as [R _]. exact R.
    + now rewrite <- W.
    + destruct K as [K|[K1 [K2|[K3 _]]]]; auto.
Qed.

Theorem next_at_round v i w : valid_version v = true -> 0 <= i -> next_at v i = Ok w ->
  round_at (Z.to_nat i) w <-> (is_stable v = true \/ forall n, (Z.to_nat i < n)%nat -> part (v_release v) n = 0).
Proof.
  intros V I E. destruct (next_at_shape v i V I) as (r & E' & S). rewrite E' in E. injection E as <-.
  unfold round_at. cbn [bare v_epoch v_release]. destruct (is_stable v).
  - split; auto. intros _. split; auto. intros n H. destruct S as [_ S]. rewrite S.
    destruct (Nat.ltb_spec n (Z.to_nat i)); [lia|]. destruct (Nat.eqb_spec n (Z.to_nat i)); [lia|reflexivity].
  - subst r. split; [intros [_ H]; auto|]. intros [H|H]; [discriminate|auto].
Qed.

Lemma first_difference r s N : (forall n, (n < N)%nat -> part r n = part s n) \/ exists n, (n < N)%nat /\ (forall m, (m < n)%nat -> part r m = part s m) /\ part r n <> part s n.
Proof.
  induction N as [|N [IH|(n & L & A & D)]]; [left; intros n H; lia| |right; exists n; split; [lia|now split]].
  destruct (Z.eq_dec (part r N) (part s N)) as [E|E]; [left|right; exists N; split; [lia|now split]].
  intros n H. destruct (Nat.eq_dec n N) as [->|]; [exact E|apply IH; lia].
Qed.

Lemma rel_trichotomy r s : rel_before r s \/ rel_same r s \/ rel_before s r.
Proof.
  destruct (first_difference r s (Nat.max (List.length r) (List.length s))) as [A|(n & _ & A & D)].
  - right. left. intros n. destruct (Nat.ltb_spec n (Nat.max (List.length r) (List.length s))); [now apply A|]. unfold part. rewrite !nth_overflow by lia. reflexivity.
  - destruct (Z.lt_trichotomy (part r n) (part s n)) as [L|[L|L]]; [left|congruence|right; right]; exists n; split; auto. intros m M. symmetry. now apply A.
Qed.

Lemma rel_le_trans r s t : rel_before r s \/ rel_same r s -> rel_before s t \/ rel_same s t -> rel_before r t \/ rel_same r t.
Proof.
  intros [(n & E & L)|E] [(m & F & K)|F].
  - left. destruct (Nat.lt_trichotomy n m) as [H|[H|H]].
    + exists n. split; [intros k Hk; rewrite E, F by lia; reflexivity|]. rewrite <- F by lia. exact L.
    + subst m. exists n. split; [intros k Hk; rewrite E, F by lia; reflexivity|]. lia.
    + exists m. split; [intros k Hk; rewrite E, F by lia; reflexivity|]. rewrite E by lia. exact K.
  - left. exists n. split; [intros k Hk; rewrite E by lia; apply F|]. now rewrite <- F.
  - left. exists m. split; [intros k Hk; rewrite E; now apply F|]. now rewrite E.
  - right. intros k. now rewrite E.
Qed.

Lemma bare_le_iff e r f s : ordinary (bare e r) -> ordinary (bare f s) ->
  v_le (bare e r) (bare f s) = true <-> e < f \/ e = f /\ (rel_before r s \/ rel_same r s).
Proof.
  intros O P. split; [|now apply bare_le]. intros L. destruct total_order as (_ & LE & _). rewrite LE in L. apply orb_true_iff in L as [L|L].
  - apply lt_before in L; auto. apply before_bare in L as [L|[E [L|[R _]]]]; auto.
  - apply eq_same in L; [|apply O|apply P]. destruct L as (E & R & _). right. split; [exact E|]. right. exact R.
Qed.

Lemma le_releases v w : ordinary v -> ordinary w -> v_le v w = true ->
  v_epoch v < v_epoch w \/ v_epoch v = v_epoch w /\ (rel_before (v_release v) (v_release w) \/ rel_same (v_release v) (v_release w)).
Proof.
  intros O P L. destruct total_order as (_ & LE & _). rewrite LE in L. apply orb_true_iff in L as [L|L].
  - apply lt_before in L; auto. destruct L as [L|[E [L|[R _]]]]; auto.
  - apply eq_same in L; [|apply O|apply P]. destruct L as (E & R & _). auto.
Qed.

Lemma bumped_above r i r' : bumped r i r' -> rel_before r r'.
Proof.
  intros [_ B]. exists i. split.
  - intros m M. rewrite B. destruct (Nat.ltb_spec m i); [reflexivity|lia].
  - rewrite B, Nat.ltb_irrefl, Nat.eqb_refl. lia.
Qed.

Lemma bumped_under r i r' s : bumped r i r' -> Forall (fun x => 0 <= x) s -> rel_before r s \/ rel_same r s ->
  (rel_before r' s \/ rel_same r' s) <-> exists n, (n <= i)%nat /\ part r n <> part s n.
Proof.
  intros [_ B] N L. split.
  - intros H. destruct (first_difference r s (S i)) as [A|(n & Hn & _ & D)]; [exfalso|exists n; split; [lia|exact D]].
    assert (K : rel_before s r').
    { exists i. split.
      - intros m M. rewrite B. destruct (Nat.ltb_spec m i); [|lia]. symmetry. apply A. lia.
      - rewrite B, Nat.ltb_irrefl, Nat.eqb_refl, <- A by lia. lia. }
    destruct H as [H|H]; [exact (rel_before_asym _ _ H K)|exact (rel_before_irrefl _ _ K (rel_same_sym _ _ H))].
  - intros (n & Hn & D). destruct L as [(m & E & L)|L]; [|now specialize (L n)].
    assert (M : (m <= n)%nat). { destruct (Nat.le_gt_cases m n); auto. exfalso. apply D. now apply E. }
    destruct (rel_trichotomy r' s) as [H|[H|H]]; auto. exfalso. destruct H as (k & Ek & Lk).
    destruct (Nat.lt_trichotomy k m) as [K|[K|K]].
    + rewrite <- E in Lk by exact K. rewrite B in Lk. destruct (Nat.ltb_spec k i); lia.
    + subst k. rewrite B in Lk. destruct (Nat.ltb_spec m i); [lia|]. destruct (Nat.eqb_spec m i) as [<-|]; lia.
    + specialize (Ek m K). rewrite B in Ek. destruct (Nat.ltb_spec m i); [lia|]. destruct (Nat.eqb_spec m i); [|lia]. subst m.
      rewrite B in Lk. destruct (Nat.ltb_spec k i); [lia|]. destruct (Nat.eqb_spec k i); [lia|]. pose proof (part_nonneg s k N). lia.
Qed.

Theorem next_at_mono_iff v w i v' w' : ordinary v -> ordinary w -> 0 <= i -> v_le v w = true -> next_at v i = Ok v' -> next_at w i = Ok w' ->
  v_le v' w' = true <-> is_stable v = false \/ is_stable w = true \/ v_epoch v <> v_epoch w
    \/ exists n, (n <= Z.to_nat i)%nat /\ part (v_release v) n <> part (v_release w) n.
Proof.
  intros O P I L E F. apply le_releases in L; auto.
  destruct (next_at_shape v i (proj1 O) I) as (r & E' & R). rewrite E in E'. injection E' as ->.
  destruct (next_at_shape w i (proj1 P) I) as (s & F' & S). rewrite F in F'. injection F' as ->.
  assert (Ov : ordinary (bare (v_epoch v) r)).
  { destruct (is_stable v); [|subst r; apply bare_ordinary; [apply (valid_parts v (proj1 O))|apply O]].
    apply bare_ordinary; [|exact (bumped_nonneg _ _ _ R (proj2 O))]. destruct R as [R _]. destruct r; [cbn in R; lia|discriminate]. }
  assert (Ow : ordinary (bare (v_epoch w) s)).
  { destruct (is_stable w); [|subst s; apply bare_ordinary; [apply (valid_parts w (proj1 P))|apply P]].
    apply bare_ordinary; [|exact (bumped_nonneg _ _ _ S (proj2 P))]. destruct S as [S _]. destruct s; [cbn in S; lia|discriminate]. }
  rewrite bare_le_iff by assumption. destruct (Z.eq_dec (v_epoch v) (v_epoch w)) as [Ee|Ee].
  2: { destruct L as [L|[L _]]; [|congruence]. split; auto. }
  destruct L as [L|[_ L]]; [lia|].
  destruct (is_stable w).
  - split; [auto|]. intros _. right. split; [exact Ee|]. destruct (is_stable v).
    + apply (bumped_least _ _ _ s R (proj2 O)).
      * intros n Hn. destruct S as [_ S]. rewrite S. destruct (Nat.ltb_spec n (Z.to_nat i)); [lia|]. destruct (Nat.eqb_spec n (Z.to_nat i)); [lia|reflexivity].
      * apply bumped_above in S. destruct (rel_le_trans _ _ _ L (or_introl S)) as [H|H]; [exact H|]. exfalso.
        destruct L as [L|L].
        -- apply (rel_before_asym _ _ L). destruct S as (m & A & D). exists m. split; [intros k K; rewrite H; now apply A|]. now rewrite H.
        -- apply (rel_before_irrefl _ _ S). intros n. rewrite <- H. symmetry. apply L.
    + subst r. eapply rel_le_trans; [exact L|]. left. now apply bumped_above in S.
  - subst s. destruct (is_stable v).
    + pose proof (bumped_under _ _ _ (v_release w) R (proj2 P) L) as B. split.
      * intros [H|[_ H]]; [lia|]. right. right. right. now apply B.
      * intros [H|[H|[H|H]]]; try congruence. right. split; [exact Ee|]. now apply B.
    + subst r. split; auto. 
Qed.

(** ** Tags *)

Lemma next_value_before order t u : tag_before order t u ->
  tag_before order (Tag (phase t) (value t + 1)) u \/ Tag (phase t) (value t + 1) = u.
Proof.
  intros [H|[P H]]; [left; left; exact H|]. destruct (Z.eq_dec (value t + 1) (value u)) as [E|E].
  - right. destruct u. cbn in *. congruence.
  - left. right. split; auto. cbn [value]. lia.
Qed.

Theorem next_dev_least v w w' : ordinary v -> v_dev v <> None -> ordinary w -> v_local w = None -> v_lt v w = true ->
  next_dev v = Ok w' -> v_le w' w = true.
Proof.
  intros O D P L K E. destruct (next_dev_shape v (proj1 O)) as (t & E' & T). rewrite E' in E. injection E as <-.
  destruct (v_dev v) as [d|] eqn:Dv; [|congruence]. 
  assert (V' : valid_version (Version (v_epoch v) (v_release v) (v_pre v) (v_post v) (Some t) None) = true).
  { destruct O as [V _]. unfold valid_version in *. cbn [v_release v_pre v_post v_dev v_local] in *. rewrite Dv in V. subst t.
    rewrite !andb_true_iff in *. destruct V as [[[[V1 V2] V3] V4] V5]. repeat split; auto. }
  apply le_of; [split; [exact V'|exact (proj2 O)]|exact P|]. apply lt_before in K; auto. unfold before, same, stage in *.
  rewrite Dv, L in *. cbn [v_epoch v_release v_pre v_post v_dev v_local].
  destruct K as [K|[E1 [K|[E2 [K|[E3 [K|[E4 [K|[E5 [K|[E6 K]]]]]]]]]]]]; auto 6.
  - left. right. split; [exact E1|]. right. split; [exact E2|]. left. destruct (v_pre v), (v_post v), (v_dev w); exact K.
  - left. right. split; [exact E1|]. right. split; [exact E2|]. right. split; [exact E3|]. left. exact K.
  - left. right. split; [exact E1|]. right. split; [exact E2|]. right. split; [exact E3|]. right. split; [exact E4|]. left. exact K.
  - subst t. cbn [none_last] in K. destruct (v_dev w) as [u|] eqn:Dw.
    + apply next_value_before in K as [K|K].
      * left. right. split; [exact E1|]. right. split; [exact E2|]. right. split; [exact E3|]. right. split; [exact E4|]. right. split; [exact E5|]. left. exact K.
      * right. subst u. repeat split; auto.
    + left. right. split; [exact E1|]. right. split; [exact E2|]. right. split; [exact E3|]. right. split; [exact E4|]. right. split; [exact E5|]. left. exact I.
  - destruct (v_local v); destruct K.
Qed.

Theorem next_post_least v w w' : ordinary v -> v_dev v = None -> ordinary w -> wf_otag PostTag (v_post w) -> settled w -> v_lt v w = true ->
  next_post v = Ok w' -> v_le w' w = true.
Proof.
  intros O D P W [Dw Lw] K E. destruct (next_post_shape v (proj1 O)) as (t & E' & T). rewrite E' in E. injection E as <-.
  assert (V' : valid_version (Version (v_epoch v) (v_release v) (v_pre v) (Some t) None None) = true).
  { destruct O as [V _]. unfold valid_version in *. cbn [v_release v_pre v_post v_dev v_local] in *.
    rewrite !andb_true_iff in *. destruct V as [[[[V1 V2] V3] V4] V5]. destruct (v_post v); subst t; repeat split; auto. }
  apply le_of; [split; [exact V'|exact (proj2 O)]|exact P|]. apply lt_before in K; auto. unfold before, same, stage in *.
  rewrite D, Dw, Lw in *. cbn [v_epoch v_release v_pre v_post v_dev v_local].
  assert (S : forall A (a b : A), match v_post v with Some _ => a | None => a end = a) by (intros; now destruct (v_post v)).
  destruct K as [K|[E1 [K|[E2 [K|[E3 [K|[E4 [K|[E5 [K|[E6 K]]]]]]]]]]]]; auto 6.
  - left. right. split; [exact E1|]. right. split; [exact E2|]. left. destruct (v_pre v), (v_post v), (v_pre w), (v_post w); exact K.
  - left. right. split; [exact E1|]. right. split; [exact E2|]. right. split; [destruct (v_pre v), (v_post v), (v_pre w), (v_post w); exact E3|]. left. exact K.
  - assert (E3' : match v_pre v with Some _ => 1 | None => 2 end = match v_pre w with Some _ => 1 | None => match v_post w with Some _ => 2 | None => 2 end end)
      by (destruct (v_pre v), (v_post v), (v_pre w), (v_post w); exact E3). clear E3.
    destruct (v_post w) as [u|] eqn:Pw; [|destruct (v_post v); destruct K]. 
    assert (X : tag_before POST_ORDER t u \/ t = u).
    { destruct (v_post v) as [q|].
      - subst t. now apply next_value_before.
      - subst t. destruct W as [Vu Nu]. pose proof (valid_phase _ _ Vu) as [H|[H|[]]].
        + destruct (Z.eq_dec (value u) 0) as [Z|Z]; [right; destruct u; cbn in *; congruence|left; right; split; auto; cbn; lia].
        + left. left. rewrite <- H. reflexivity. }
    destruct X as [X|X].
    + left. right. split; [exact E1|]. right. split; [exact E2|]. right. split; [destruct (v_pre v), (v_pre w); exact E3'|]. right. split; [exact E4|]. left. exact X.
    + right. subst u. repeat split; auto.
  - destruct K.
  - destruct (v_local v); destruct K.
Qed.

Theorem next_pre_least v w w' : ordinary v -> v_pre v <> None -> v_dev v = None -> ordinary w -> v_post w = None -> settled w -> v_lt v w = true ->
  next_pre v = Ok w' -> v_le w' w = true.
Proof.
  intros O N D P W [Dw Lw] K E. destruct (next_pre_shape v (proj1 O)) as (t & E' & T). rewrite E' in E. injection E as <-.
  destruct (v_pre v) as [p|] eqn:Pv; [|congruence]. subst t.
  assert (V' : valid_version (Version (v_epoch v) (v_release v) (Some (Tag (phase p) (value p + 1))) None None None) = true).
  { destruct O as [V _]. unfold valid_version in *. cbn [v_release v_pre v_post v_dev v_local] in *. rewrite Pv in V.
    rewrite !andb_true_iff in *. destruct V as [[[[V1 V2] V3] V4] V5]. repeat split; auto. }
  apply le_of; [split; [exact V'|exact (proj2 O)]|exact P|]. apply lt_before in K; auto. unfold before, same, stage in *.
  rewrite Pv, D, Dw, Lw, W in *. cbn [v_epoch v_release v_pre v_post v_dev v_local].
  destruct K as [K|[E1 [K|[E2 [K|[E3 [K|[E4 [K|[E5 [K|[E6 K]]]]]]]]]]]]; auto 6.
  - left. right. split; [exact E1|]. right. split; [exact E2|]. left. exact K.
  - destruct (v_pre w) as [u|] eqn:Pw; [|destruct K]. apply next_value_before in K as [K|K].
    + left. right. split; [exact E1|]. right. split; [exact E2|]. right. split; [exact E3|]. left. exact K.
    + right. subst u. repeat split; auto.
  - destruct (v_post v); destruct K.
  - destruct K.
  - destruct (v_local v); destruct K.
Qed.

Lemma major_not_monotone : exists v w v' w', wf v /\ wf w /\ v_lt v w = true
  /\ next_major v = Ok v' /\ next_major w = Ok w' /\ v_lt w' v' = true.
Proof.
  exists (bare 0 [1; 5]), (Version 0 [1; 6] (Some (Tag (lit "alpha") 1)) None None None), (bare 0 [2; 0]), (bare 0 [1; 6]).
  split; [|split]; [..|now vm_compute]; (split; [cbn; lia|split; [discriminate|split; [repeat constructor; cbn; lia|]]]); repeat split; cbn; lia.
Qed.
