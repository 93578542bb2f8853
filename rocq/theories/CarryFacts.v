(** Lemmas for C118. *)

From Coq Require Import List ZArith NArith String Bool Lia.
From Verif Require Import Py Segments Version VersionSets Operators Specifiers Orders Spec OrderFacts SetVersions BumpFacts BumpLeast AccessFacts OperatorFacts SpecifierFacts SpecMeaning NestSpec NestFacts CarrySpec.
Import ListNotations.
Open Scope Z_scope.

Local Opaque key.

Lemma le_cases v w : ordinary v -> ordinary w -> v_le v w = true -> before v w \/ same v w.
Proof.
  intros O P L. apply v_le_iff in L as [L|L]; [left; now apply lt_before|right]. apply eq_same; auto; [apply O|apply P].
Qed.

Lemma before_bare w e r : before w (bare e r) -> v_epoch w < e \/ v_epoch w = e /\ (rel_before (v_release w) r \/ rel_same (v_release w) r /\ ~ final w).
Proof.
  unfold before, bare, stage, final. cbn [v_epoch v_release v_pre v_post v_dev v_local].
  destruct (v_pre w), (v_post w), (v_dev w), (v_local w); cbn; intuition (discriminate || lia || (right; split; [assumption|right; split; [assumption|intros []; discriminate]])).
Qed.

(** Where an accepted version lies. *)
Lemma accepted_place v w p r : ordinary v -> ordinary w -> bound_of v p r -> v_le v w = true -> v_lt w (bare (v_epoch v) r) = true ->
  v_epoch w = v_epoch v
  /\ ((exists i, p = Increased i /\ forall n, (n <= i)%nat -> part (v_release w) n = part (v_release v) n) \/ rel_same (v_release w) r /\ ~ final w).
Proof.
  intros Ov Ow B L U. pose proof (bound_ordinary v p r Ov B) as Ob. apply lt_before in U; auto. apply before_bare in U.
  apply le_cases in L; auto.
  assert (E : v_epoch v <= v_epoch w /\ (v_epoch v = v_epoch w -> rel_before (v_release v) (v_release w) \/ rel_same (v_release v) (v_release w))).
  { destruct L as [[L|[-> [L|[L _]]]]|(-> & L & _)]; split; try lia; auto. }
  destruct E as [E1 E2]. destruct U as [U|[EQ U]]; [lia|]. split; auto. specialize (E2 (eq_sym EQ)). destruct U as [U|U]; [|right; exact U].
  destruct p as [i|]; cbn [bound_of] in B.
  - left. exists i. split; auto. destruct B as [_ B]. destruct U as (m & A & U). rewrite B in U.
    assert (Fw := part_nonneg (v_release w) m (proj2 Ow)).
    destruct (Nat.ltb_spec m i) as [M|M].
    + exfalso. assert (K : forall n, (n < m)%nat -> part (v_release w) n = part (v_release v) n) by (intros n N; rewrite A by auto; rewrite B, (proj2 (Nat.ltb_lt n i)) by lia; reflexivity).
      destruct E2 as [(k & C & D)|D]; [|specialize (D m); lia]. destruct (Nat.lt_trichotomy k m) as [N|[->|N]]; [rewrite (K k N) in D; lia|lia|rewrite (C m N) in U; lia].
    + destruct (Nat.eqb_spec m i) as [->|N]; [|lia].
      assert (K : forall n, (n < i)%nat -> part (v_release w) n = part (v_release v) n) by (intros n N; rewrite A by auto; rewrite B, (proj2 (Nat.ltb_lt n i)) by lia; reflexivity).
      assert (part (v_release v) i <= part (v_release w) i).
      { destruct E2 as [(k & C & D)|D]; [|specialize (D i); lia]. destruct (Nat.lt_trichotomy k i) as [N|[->|N]]; [rewrite (K k N) in D; lia|lia|rewrite (C i N); lia]. }
      intros n N. destruct (Nat.eq_dec n i) as [->|]; [lia|apply K; lia].
  - subst r. exfalso. destruct U as (m & A & U). destruct E2 as [(k & C & D)|D]; [|specialize (D m); lia].
    destruct (Nat.lt_trichotomy k m) as [N|[->|N]]; [rewrite (A k N) in D; lia|lia|rewrite (C m N) in U; lia].
Qed.

Lemma same_bare_le e r s : ordinary (bare e r) -> ordinary (bare e s) -> rel_same s r -> v_le (bare e s) (bare e r) = true.
Proof. intros R S H. apply le_of; auto. right. unfold same, bare. cbn. auto 10. Qed.

Lemma below_not_le v w : v_lt v w = true -> v_le w v = false.
Proof. intros H. destruct (v_le w v) eqn:E; auto. pose proof (lt_le_trans v w v H E) as K. rewrite lt_irrefl in K. discriminate. Qed.

Lemma bounds_compared v w p q r s : ordinary v -> ordinary w -> bound_of v p r -> bound_of w q s -> v_le v w = true -> v_lt w (bare (v_epoch v) r) = true ->
  v_le (bare (v_epoch v) s) (bare (v_epoch v) r) = true <-> at_or_above p q /\ (q = Itself \/ unchanged p v w).
Proof.
  intros Ov Ow B C L U. destruct (accepted_place v w p r Ov Ow B L U) as [E H].
  pose proof (bound_ordinary v p r Ov B) as Or. pose proof (bound_ordinary w q s Ow C) as Os. rewrite E in Os.
  assert (LT : rel_before s r -> v_le (bare (v_epoch v) s) (bare (v_epoch v) r) = true) by (intros K; apply lt_le, release_lt; auto).
  assert (GT : rel_before r s -> v_le (bare (v_epoch v) s) (bare (v_epoch v) r) = false) by (intros K; apply below_not_le, release_lt; auto).
  destruct H as [(i & -> & A)|[A N]].
  - cbn [bound_of] in B. destruct B as [_ B]. destruct q as [j|]; cbn [bound_of] in C; cbn [at_or_above unchanged].
    + destruct C as [_ C]. destruct (Nat.lt_ge_cases j i) as [M|M].
      * split; [|intros [X _]; lia]. rewrite GT; [discriminate|]. exists j. split.
        -- intros n K. rewrite B, C, (proj2 (Nat.ltb_lt n i)), (proj2 (Nat.ltb_lt n j)) by lia. symmetry. apply A. lia.
        -- rewrite B, C, (proj2 (Nat.ltb_lt j i)), Nat.ltb_irrefl, Nat.eqb_refl by lia. rewrite A by lia. lia.
      * split; [intros _; split; [exact M|right; apply A; lia]|intros _]. destruct (Nat.eq_dec i j) as [->|K].
        -- apply same_bare_le; auto. intros n. rewrite B, C. destruct (Nat.ltb_spec n j); [apply A; lia|]. destruct (Nat.eqb_spec n j); [rewrite A by lia; reflexivity|reflexivity].
        -- apply LT. exists i. split.
           ++ intros n X. rewrite B, C, (proj2 (Nat.ltb_lt n i)), (proj2 (Nat.ltb_lt n j)) by lia. apply A. lia.
           ++ rewrite B, C, (proj2 (Nat.ltb_lt i j)), Nat.ltb_irrefl, Nat.eqb_refl by lia. rewrite A by lia. lia.
    + split; [intros _; auto|intros _]. subst s. apply LT. exists i. split.
      * intros n X. rewrite B, (proj2 (Nat.ltb_lt n i)) by lia. apply A. lia.
      * rewrite B, Nat.ltb_irrefl, Nat.eqb_refl. rewrite A by lia. lia.
  - destruct q as [j|]; cbn [bound_of] in C.
    + assert (K : v_le (bare (v_epoch v) s) (bare (v_epoch v) r) = false).
      { apply GT. destruct C as [_ C]. exists j. split.
        - intros n X. rewrite C, (proj2 (Nat.ltb_lt n j)) by lia. symmetry. apply A.
        - rewrite C, Nat.ltb_irrefl, Nat.eqb_refl, A. lia. }
      rewrite K. split; [discriminate|]. intros [X [Y|Y]]; [discriminate|]. exfalso. destruct p as [i|]; [|exact X]. cbn in B, Y. destruct B as [_ B].
      rewrite A, B, Nat.ltb_irrefl, Nat.eqb_refl in Y. lia.
    + split; [intros _; split; [destruct p; exact I|auto]|intros _]. subst s. apply same_bare_le; auto.
Qed.

(** The operators may differ. *)
Theorem carried v w t u p q : ordinary v -> ordinary w -> breaks v t p -> breaks w u q -> op_matches t w v = Ok true ->
  covers t v u w <-> at_or_above p q /\ (q = Itself \/ unchanged p v w).
Proof.
  intros Ov Ow Bv Bw M. destruct (breaks_bound v t p (proj1 Ov) Bv) as (r & R & Mt), (breaks_bound w u q (proj1 Ow) Bw) as (s & S & Mu).
  pose proof (proj1 (Mt w) M) as [L U]. rewrite <- (bounds_compared v w p q r s Ov Ow R S L U).
  destruct (accepted_place v w p r Ov Ow R L U) as [E _]. unfold covers. split.
  - intros H. destruct (v_le (bare (v_epoch v) s) (bare (v_epoch v) r)) eqn:K; auto. exfalso.
    assert (X : v_lt (bare (v_epoch v) r) (bare (v_epoch v) s) = true).
    { destruct (v_lt (bare (v_epoch v) r) (bare (v_epoch v) s)) eqn:G; auto. exfalso. assert (v_le (bare (v_epoch v) s) (bare (v_epoch v) r) = true) by (apply not_lt_le; congruence). congruence. }
    assert (Y : op_matches u (bare (v_epoch v) r) w = Ok true) by (apply Mu; split; [now apply lt_le|now rewrite E]).
    apply H, Mt in Y as [_ Y]. rewrite lt_irrefl in Y. discriminate.
  - intros K x X. apply Mu in X as [X Y]. apply Mt. split; [eapply le_trans; eauto|]. rewrite E in Y. eapply lt_le_trans; eauto.
Qed.

(** ** Each operator *)

Lemma place_of v w t p : ordinary v -> ordinary w -> breaks v t p -> op_matches t w v = Ok true ->
  exists r, bound_of v p r
    /\ ((exists i, p = Increased i /\ forall n, (n <= i)%nat -> part (v_release w) n = part (v_release v) n) \/ rel_same (v_release w) r /\ ~ final w).
Proof.
  intros Ov Ow B M. destruct (breaks_bound v t p (proj1 Ov) B) as (r & R & Mt). exists r. split; auto.
  pose proof (proj1 (Mt w) M) as [L U]. exact (proj2 (accepted_place v w p r Ov Ow R L U)).
Qed.

Lemma index_zero r : part r 0 <> 0 -> breaking_index r = 0%nat.
Proof. destruct r as [|a [|b [|c r]]]; cbn; auto; intros N; apply Z.eqb_neq in N; now rewrite N. Qed.
Lemma index_some r : breaking_index r <> 0%nat -> part r 0 = 0.
Proof. intros N. destruct (Z.eq_dec (part r 0) 0) as [E|E]; auto. now apply index_zero in E. Qed.

Lemma index_order r s : r <> [] -> s <> [] -> (forall n, (n <= breaking_index r)%nat -> part s n = part r n) ->
  (breaking_index r <= breaking_index s)%nat <-> ~ ((List.length s < Nat.min 3 (List.length r))%nat /\ forall n, part s n = 0).
Proof.
  intros R S A.
  assert (Z : forall k, (forall n, (n < k)%nat -> part s n = 0) -> (List.length s <= k)%nat -> forall n, part s n = 0).
  { intros k Z K n. destruct (Nat.lt_ge_cases n k); auto. unfold part. apply nth_overflow. lia. }
  pose proof (A 0%nat ltac:(lia)) as A0.
  destruct r as [|a [|b [|c r]]]; [congruence| | |].
  - cbn in *. split; [intros _ [K _]; destruct s; cbn in K; [congruence|lia]|lia].
  - cbn in A0. cbn [breaking_index] in *. destruct (Z.eqb_spec a 0) as [->|NA].
    + pose proof (A 1%nat ltac:(lia)) as A1. destruct s as [|a' [|b' [|c' s]]]; [congruence| | |]; cbn in A0, A1; subst; cbn.
      * split; [lia|intros K; exfalso; apply K; split; [lia|apply (Z 1%nat); [intros [|n] N; [reflexivity|lia]|cbn; lia]]].
      * split; [intros _ [K _]; lia|lia].
      * split; [intros _ [K _]; lia|destruct (b =? 0); lia].
    + split; [intros _ [_ K]; specialize (K 0%nat); lia|lia].
  - cbn in A0. cbn [breaking_index] in *. destruct (Z.eqb_spec a 0) as [->|NA].
    + pose proof (A 1%nat ltac:(destruct (b =? 0); lia)) as A1. cbn in A1. destruct (Z.eqb_spec b 0) as [->|NB].
      * destruct s as [|a' [|b' [|c' s]]]; [congruence| | |]; cbn in A0, A1; subst; cbn.
        -- split; [lia|intros K; exfalso; apply K; split; [lia|apply (Z 1%nat); [intros [|n] N; [reflexivity|lia]|cbn; lia]]].
        -- split; [lia|intros K; exfalso; apply K; split; [lia|apply (Z 2%nat); [intros [|[|n]] N; [reflexivity..|lia]|cbn; lia]]].
        -- split; [intros _ [K _]; lia|lia].
      * split; [intros _ [_ K]; specialize (K 1%nat); lia|]. intros _. destruct s as [|a' [|b' [|c' s]]]; [congruence| | |]; cbn in A0, A1; subst; cbn; try lia.
        apply Z.eqb_neq in NB. rewrite NB. lia.
    + split; [intros _ [_ K]; specialize (K 0%nat); lia|lia].
Qed.

Lemma nonempty v : ordinary v -> v_release v <> [].
Proof. intros [V _]. now destruct (valid_parts v V). Qed.

Lemma caret_carried v w : ordinary v -> ordinary w -> op_matches CARET w v = Ok true ->
  covers CARET v CARET w <->
  part (v_release w) 0 = part (v_release v) 0
  /\ ~ (final w /\ (parts w < Nat.min 3 (parts v))%nat /\ forall n, part (v_release w) n = 0).
Proof.
  intros Ov Ow M. unfold parts.
  assert (BW : exists q, breaks w CARET q).
  { destruct (final_dec w); [eexists; now apply caret_final|]. destruct (Z.eq_dec (part (v_release w) 0) 0); eexists; [now apply caret_zero|now apply caret_major]. }
  assert (BV : exists p, breaks v CARET p).
  { destruct (final_dec v); [eexists; now apply caret_final|]. destruct (Z.eq_dec (part (v_release v) 0) 0); eexists; [now apply caret_zero|now apply caret_major]. }
  destruct BW as [q BW], BV as [p BV]. rewrite (carried v w CARET CARET p q Ov Ow BV BW M).
  destruct (place_of v w CARET p Ov Ow BV M) as (r & R & P).
  assert (NV := part_nonneg (v_release v) 0 (proj2 Ov)). assert (NW := part_nonneg (v_release w) 0 (proj2 Ow)).
  inversion BV as [FV|FV ZV|FV ZV| | | | | |]; subst p; try (destruct H; discriminate).
  - destruct P as [(i & I & A)|[A NF]].
    + injection I as <-. pose proof (A 0%nat ltac:(lia)) as A0. cbn [unchanged].
      inversion BW as [FW|FW ZW|FW ZW| | | | | |]; subst q; try (destruct H; discriminate); cbn [at_or_above].
      * rewrite index_order by auto using nonempty. rewrite (A (breaking_index (v_release v)) ltac:(lia)). tauto.
      * tauto.
      * rewrite (index_zero (v_release v)) by congruence. rewrite A0. intuition lia.
    + cbn [bound_of] in R. destruct R as [_ R]. pose proof (A 0%nat) as A0. rewrite R in A0.
      inversion BW as [FW|FW ZW|FW ZW| | | | | |]; subst q; try (destruct H; discriminate); [contradiction| |]; cbn [at_or_above unchanged].
      * destruct (breaking_index (v_release v)); cbn in A0; [lia|]. intuition lia.
      * split; [|intros [K _]; exfalso].
        -- intros [X [Y|Y]]; [discriminate|exfalso]. replace (breaking_index (v_release v)) with 0%nat in * by lia. cbn in A0. lia.
        -- destruct (breaking_index (v_release v)) eqn:X; cbn in A0; [lia|]. assert (part (v_release v) 0 = 0) by (apply index_some; lia). lia.
  - destruct P as [(i & I & A)|[A NF]]; [discriminate|]. cbn [bound_of] in R. subst r. pose proof (A 0%nat) as A0.
    inversion BW as [FW|FW ZW|FW ZW| | | | | |]; subst q; try (destruct H; discriminate); [contradiction| |lia]. cbn. tauto.
  - destruct P as [(i & I & A)|[A NF]].
    + injection I as <-. pose proof (A 0%nat ltac:(lia)) as A0. cbn [unchanged].
      inversion BW as [FW|FW ZW|FW ZW| | | | | |]; subst q; try (destruct H; discriminate); cbn [at_or_above]; [|lia|].
      * split; [intros _; split; auto; intros (_ & _ & K); specialize (K 0%nat); lia|intros _; split; [lia|now right]].
      * intuition lia.
    + cbn [bound_of] in R. destruct R as [_ R]. pose proof (A 0%nat) as A0. rewrite R in A0. cbn in A0.
      inversion BW as [FW|FW ZW|FW ZW| | | | | |]; subst q; try (destruct H; discriminate); [contradiction|lia|]. cbn [at_or_above unchanged].
      split; [intros [_ [X|X]]; [discriminate|lia]|intros [X _]; lia].
Qed.

Lemma tilde_carried v w : ordinary v -> ordinary w -> op_matches TILDE w v = Ok true ->
  covers TILDE v TILDE w <-> ~ (final w /\ parts w = 1%nat /\ (1 < parts v)%nat).
Proof.
  intros Ov Ow M. unfold parts.
  assert (BW : exists q, breaks w TILDE q) by (destruct (final_dec w); eexists; [now apply tilde_final|now apply tilde_early]).
  assert (BV : exists p, breaks v TILDE p) by (destruct (final_dec v); eexists; [now apply tilde_final|now apply tilde_early]).
  destruct BW as [q BW], BV as [p BV]. rewrite (carried v w TILDE TILDE p q Ov Ow BV BW M).
  destruct (place_of v w TILDE p Ov Ow BV M) as (r & R & P).
  assert (LV := nonempty v Ov). assert (LW := nonempty w Ow).
  assert (List.length (v_release v) <> 0)%nat by (destruct (v_release v); cbn; congruence).
  assert (List.length (v_release w) <> 0)%nat by (destruct (v_release w); cbn; congruence).
  inversion BV as [| | |FV|FV| | | |]; subst p; try (destruct H1; discriminate).
  - inversion BW as [| | |FW|FW| | | |]; subst q; try (destruct H1; discriminate); cbn [at_or_above]; [|tauto].
    destruct P as [(i & I & A)|[A NF]]; [|contradiction]. injection I as <-. assert (U : unchanged (Increased (Nat.min 1 (List.length (v_release v) - 1))) v w) by exact (A _ (le_n _)).
    split; [intros [K _] (_ & X & Y); lia|]. intros K. split; [|now right].
    destruct (Nat.eq_dec (List.length (v_release w)) 1) as [X|X]; [|lia]. destruct (Nat.lt_ge_cases 1 (List.length (v_release v))) as [Y|Y]; [exfalso; tauto|lia].
  - destruct P as [(i & I & A)|[A NF]]; [discriminate|].
    inversion BW as [| | |FW|FW| | | |]; subst q; try (destruct H1; discriminate); [contradiction|]. cbn. tauto.
Qed.

Lemma tilde_equal_carried v w : ordinary v -> ordinary w -> (2 <= parts w)%nat -> op_matches TILDE_EQUAL w v = Ok true ->
  covers TILDE_EQUAL v TILDE_EQUAL w <-> (parts v <= parts w)%nat /\ part (v_release w) (parts v - 2) = part (v_release v) (parts v - 2).
Proof.
  intros Ov Ow L M. unfold parts in *.
  assert (LV : (2 <= List.length (v_release v))%nat).
  { destruct (Nat.le_gt_cases 2 (List.length (v_release v))) as [K|K]; auto. exfalso.
    destruct (next_tilde_equal_shape v (proj1 Ov)) as [[_ E]|[K' _]]; [|lia].
    cbn [op_matches] in M. unfold matches_tilde_equal, between in M. rewrite E in M. destruct (v_le v w); discriminate M. }
  assert (BV : breaks v TILDE_EQUAL (Increased (List.length (v_release v) - 2))) by (apply tilde_equal; lia).
  assert (BW : breaks w TILDE_EQUAL (Increased (List.length (v_release w) - 2))) by (apply tilde_equal; lia).
  rewrite (carried v w TILDE_EQUAL TILDE_EQUAL _ _ Ov Ow BV BW M). cbn [at_or_above unchanged].
  split; [intros [A [B|B]]; [discriminate|split; [lia|exact B]]|intros [A B]; split; [lia|now right]].
Qed.

(** ** Nested or apart *)

Lemma reached v w x t p : valid_version v = true -> breaks v t p -> v_le v w = true -> v_le w x = true -> op_matches t x v = Ok true -> op_matches t w v = Ok true.
Proof.
  intros V B L K M. destruct (breaks_bound v t p V B) as (r & _ & Mt). destruct (proj1 (Mt x) M) as [_ U]. apply Mt. split; [exact L|]. exact (le_lt_trans w x _ K U).
Qed.

Lemma final_stays v w t i : ordinary v -> ordinary w -> final w -> breaks v t (Increased i) -> op_matches t w v = Ok true ->
  forall n, (n <= i)%nat -> part (v_release w) n = part (v_release v) n.
Proof.
  intros Ov Ow F B M. destruct (place_of v w t _ Ov Ow B M) as (r & _ & [(j & J & A)|[_ N]]); [|contradiction]. injection J as <-. exact A.
Qed.

Lemma grouped_if t v w p q : ordinary v -> ordinary w -> breaks v t p -> breaks w t q ->
  (op_matches t w v = Ok true -> covers t v t w) -> (op_matches t v w = Ok true -> covers t w t v) -> grouped t v w.
Proof.
  intros Ov Ow BV BW A B x X Y.
  destruct (breaks_bound v t p (proj1 Ov) BV) as (r & _ & Mv), (breaks_bound w t q (proj1 Ow) BW) as (s & _ & Mw).
  pose proof (proj1 (proj1 (Mv x) X)) as LV. pose proof (proj1 (proj1 (Mw x) Y)) as LW.
  destruct (v_le v w) eqn:E.
  - left. apply A. exact (reached v w x t p (proj1 Ov) BV E LW X).
  - right. apply B. apply (reached w v x t q (proj1 Ow) BW); auto. apply lt_le. destruct (v_lt w v) eqn:G; auto. exfalso.
    assert (v_le v w = true) by (apply not_lt_le; congruence). congruence.
Qed.

Lemma caret_grouped v w : ordinary v -> ordinary w -> final v -> final w -> (3 <= parts v)%nat -> (3 <= parts w)%nat -> grouped CARET v w.
Proof.
  intros Ov Ow Fv Fw Lv Lw. pose proof (caret_final v Fv) as BV. pose proof (caret_final w Fw) as BW.
  apply (grouped_if CARET v w _ _ Ov Ow BV BW); intros M; (apply caret_carried; auto; split; [|intros (_ & K & _); lia]).
  - apply (final_stays v w CARET _ Ov Ow Fw BV M). lia.
  - apply (final_stays w v CARET _ Ow Ov Fv BW M). lia.
Qed.

Lemma tilde_grouped v w : ordinary v -> ordinary w -> (2 <= parts v)%nat -> (2 <= parts w)%nat -> grouped TILDE v w.
Proof.
  intros Ov Ow Lv Lw.
  assert (BW : exists q, breaks w TILDE q) by (destruct (final_dec w); eexists; [now apply tilde_final|now apply tilde_early]).
  assert (BV : exists p, breaks v TILDE p) by (destruct (final_dec v); eexists; [now apply tilde_final|now apply tilde_early]).
  destruct BW as [q BW], BV as [p BV]. apply (grouped_if TILDE v w _ _ Ov Ow BV BW); intros M; apply tilde_carried; auto; intros (_ & K & _); lia.
Qed.

Lemma tilde_equal_grouped v w : ordinary v -> ordinary w -> final v -> final w -> (2 <= parts v)%nat -> parts v = parts w -> grouped TILDE_EQUAL v w.
Proof.
  intros Ov Ow Fv Fw L E. unfold parts in *.
  assert (BV : breaks v TILDE_EQUAL (Increased (List.length (v_release v) - 2))) by (apply tilde_equal; lia).
  assert (BW : breaks w TILDE_EQUAL (Increased (List.length (v_release w) - 2))) by (apply tilde_equal; lia).
  apply (grouped_if TILDE_EQUAL v w _ _ Ov Ow BV BW); intros M; (apply tilde_equal_carried; auto; unfold parts; try lia; split; [lia|]).
  - apply (final_stays v w TILDE_EQUAL _ Ov Ow Fw BV M). lia.
  - apply (final_stays w v TILDE_EQUAL _ Ow Ov Fv BW M). lia.
Qed.
