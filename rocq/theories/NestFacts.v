(** Lemmas for C106. *)

From Coq Require Import List ZArith NArith String Bool Lia.
From Verif Require Import Py Segments Version VersionSets Operators Specifiers Orders Spec OrderFacts SetVersions BumpFacts BumpLeast AccessFacts OperatorFacts SpecifierFacts SpecMeaning NestSpec.
Import ListNotations.
Open Scope Z_scope.

Local Opaque key.

Definition bound_of (w : version) (p : place) (r : list Z) : Prop :=
  match p with Increased i => bumped (v_release w) i r | Itself => r = v_release w end.

Lemma le_refl v : v_le v v = true.
Proof. apply v_le_iff. right. apply total_order. Qed.
Lemma lt_le v w : v_lt v w = true -> v_le v w = true.
Proof. intros H. apply v_le_iff. now left. Qed.
Lemma lt_le_trans u v w : v_lt u v = true -> v_le v w = true -> v_lt u w = true.
Proof.
  intros H K. apply v_le_iff in K as [K|K].
  - destruct total_order as (_ & _ & _ & _ & _ & _ & T & _). eauto.
  - destruct total_order as (_ & _ & _ & _ & _ & _ & _ & _ & _ & _ & C). destruct (C v w u K) as [_ <-]. exact H.
Qed.
Lemma lt_irrefl v : v_lt v v = false.
Proof. apply total_order. Qed.

Lemma between_true w v u : between w v (Ok u) = Ok true <-> v_le w v = true /\ v_lt v u = true.
Proof. unfold between. destruct (v_le w v); cbn [bind]; [split; [intros H; injection H; auto | intros [_ ->]; auto] | split; [discriminate | intros [H _]; discriminate]]. Qed.

Lemma wildcard_is t v w : t = WILDCARD_EQUAL \/ t = WILDCARD_DOUBLE_EQUAL -> op_matches t v w = matches_wildcard_equal v w.
Proof. intros [-> | ->]; reflexivity. Qed.

Lemma breaks_bound w t p : valid_version w = true -> breaks w t p ->
  exists r, bound_of w p r /\ forall v, op_matches t v w = Ok true <-> v_le w v = true /\ v_lt v (bare (v_epoch w) r) = true.
Proof.
  intros V B.
  destruct B as [F | F Z | F Z | F | F | n L | t n T F P L | t n T F P L | t T F].
  - destruct (next_breaking_shape w V) as (r & E & B). rewrite (proj2 (stable_final w) F) in B. exists r. split; [exact B |]. intros v.
    cbn [op_matches]. unfold matches_caret. change next_caret_breaking with next_breaking. rewrite E. apply between_true.
  - destruct (next_breaking_shape w V) as (r & E & B). rewrite (proj2 (unstable_final w) F) in B. rewrite (proj2 (Z.eqb_eq _ _) Z) in B.
    exists r. split; [exact B |]. intros v.
    cbn [op_matches]. unfold matches_caret. change next_caret_breaking with next_breaking. rewrite E. apply between_true.
  - destruct (next_breaking_shape w V) as (r & E & B). rewrite (proj2 (unstable_final w) F) in B. rewrite (proj2 (Z.eqb_neq _ _) Z) in B.
    exists r. split; [exact B |]. intros v.
    cbn [op_matches]. unfold matches_caret. change next_caret_breaking with next_breaking. rewrite E. apply between_true.
  - destruct (next_tilde_shape w V) as (r & E & B). rewrite (proj2 (stable_final w) F) in B. exists r. split; [exact B |]. intros v.
    cbn [op_matches]. unfold matches_tilde. rewrite E. apply between_true.
  - destruct (next_tilde_shape w V) as (r & E & B). rewrite (proj2 (unstable_final w) F) in B. exists r. split; [exact B |]. intros v.
    cbn [op_matches]. unfold matches_tilde. rewrite E. apply between_true.
  - destruct (next_tilde_equal_shape w V) as [[L' _] | (_ & r & E & B)]; [lia |]. exists r. split.
    + cbn [bound_of]. rewrite L in B. replace (S (S n) - 2)%nat with n in B by lia. exact B.
    + intros v. cbn [op_matches]. unfold matches_tilde_equal. rewrite E. apply between_true.
  - destruct (next_wildcard_shape w V) as [(S & Q & L' & E)|[(S & Q & L' & r & E & B)|[(S & Q & r & E & B)|(S & E)]]];
      [lia | | contradiction | apply unstable_final in S; contradiction].
    exists r. split.
    + cbn [bound_of]. rewrite L in B. replace (Datatypes.S (Datatypes.S n) - 2)%nat with n in B by lia. exact B.
    + intros v. rewrite (wildcard_is t v w T). unfold matches_wildcard_equal. rewrite E. apply between_true.
  - destruct (next_wildcard_shape w V) as [(S & Q & L' & E)|[(S & Q & L' & r & E & B)|[(S & Q & r & E & B)|(S & E)]]];
      [contradiction | contradiction | | apply unstable_final in S; contradiction].
    exists r. split.
    + cbn [bound_of]. rewrite L in B. replace (Datatypes.S n - 1)%nat with n in B by lia. exact B.
    + intros v. rewrite (wildcard_is t v w T). unfold matches_wildcard_equal. rewrite E. apply between_true.
  - destruct (next_wildcard_shape w V) as [(S & Q & L' & E)|[(S & Q & L' & r & E & B)|[(S & Q & r & E & B)|(S & E)]]];
      try (apply stable_final in S; contradiction).
    exists (v_release w). split; [reflexivity |].
    intros v. rewrite (wildcard_is t v w T). unfold matches_wildcard_equal. rewrite E. apply between_true.
Qed.

(** Bounds in order. *)
Lemma bound_nonempty w p r : v_release w <> [] -> bound_of w p r -> r <> [].
Proof. destruct p; cbn [bound_of]; intros N B ->; [destruct B as [B _]; cbn in B; lia | congruence]. Qed.

Lemma bound_ordinary w p r : ordinary w -> bound_of w p r -> ordinary (bare (v_epoch w) r).
Proof.
  intros [V F] B. pose proof (valid_parts w V) as (N & _). apply bare_ordinary; [eapply bound_nonempty; eauto |].
  destruct p; cbn [bound_of] in B; [eapply bumped_nonneg; eauto | now subst r].
Qed.

Lemma bound_before w p q r s : bound_of w p r -> bound_of w q s -> at_or_above p q -> r = s \/ rel_before s r.
Proof.
  intros B C H. destruct p as [i |], q as [j |]; cbn in *; try contradiction.
  - destruct (Nat.eq_dec i j) as [-> | N]; [left; eapply bumped_unique; eauto |]. right. exists i. destruct B as [_ B], C as [_ C]. split.
    + intros m M. rewrite B, C. rewrite (proj2 (Nat.ltb_lt m i)), (proj2 (Nat.ltb_lt m j)) by lia. reflexivity.
    + rewrite B, C. rewrite Nat.ltb_irrefl, Nat.eqb_refl, (proj2 (Nat.ltb_lt i j)) by lia. lia.
  - subst s. right. now apply bumped_before with i.
  - left. congruence.
Qed.

Lemma above_dec p q : at_or_above p q \/ (at_or_above q p /\ ~ at_or_above p q).
Proof. destruct p as [i |], q as [j |]; cbn; try tauto. lia. Qed.

Lemma bound_strict w p q r s : bound_of w p r -> bound_of w q s -> at_or_above q p -> ~ at_or_above p q -> rel_before r s.
Proof.
  intros B C H N. destruct (bound_before w q p s r C B H) as [-> | K]; [| exact K]. exfalso.
  destruct p as [i |], q as [j |]; cbn in *; try tauto.
  - assert (L : (j < i)%nat) by lia. destruct B as [_ B], C as [_ C]. specialize (B j). specialize (C j). rewrite C in B.
    rewrite Nat.ltb_irrefl, Nat.eqb_refl, (proj2 (Nat.ltb_lt j i)) in B by lia. lia.
  - subst r. destruct C as [_ C]. specialize (C j). rewrite Nat.ltb_irrefl, Nat.eqb_refl in C. lia.
Qed.

Lemma bound_le w p q r s : ordinary w -> bound_of w p r -> bound_of w q s -> at_or_above p q -> v_le (bare (v_epoch w) s) (bare (v_epoch w) r) = true.
Proof.
  intros O B C H. destruct (bound_before w p q r s B C H) as [-> | K]; [apply le_refl |]. apply lt_le.
  apply release_lt; [eapply bound_ordinary; eauto | eapply bound_ordinary; eauto | reflexivity | exact K].
Qed.

Theorem nested w t u p q : ordinary w -> breaks w t p -> breaks w u q ->
  (forall v, op_matches t v w = Ok true -> op_matches u v w = Ok true) <-> at_or_above q p.
Proof.
  intros O T U. pose proof O as [V _]. destruct (breaks_bound w t p V T) as (r & B & Mt), (breaks_bound w u q V U) as (s & C & Mu). split.
  - intros H. destruct (above_dec q p) as [A | [A N]]; [exact A |]. exfalso.
    pose proof (bound_strict w q p s r C B A N) as K.
    assert (L : v_lt (bare (v_epoch w) s) (bare (v_epoch w) r) = true).
    { apply release_lt; [eapply bound_ordinary; eauto | eapply bound_ordinary; eauto | reflexivity | exact K]. }
    destruct (v_le w (bare (v_epoch w) s)) eqn:E.
    + assert (X : op_matches u (bare (v_epoch w) s) w = Ok true) by (apply H, Mt; auto). apply Mu in X as [_ X]. rewrite lt_irrefl in X. discriminate.
    + assert (G : v_lt (bare (v_epoch w) s) w = true).
      { destruct (v_lt (bare (v_epoch w) s) w) eqn:G; [reflexivity |]. exfalso. assert (X : v_le w (bare (v_epoch w) s) = true) by (apply not_lt_le; congruence). congruence. }
      destruct p as [i |]; [| destruct q; cbn in A, N; tauto].
      assert (X : op_matches u w w = Ok true) by (apply H, Mt; split; [apply le_refl | now apply bumped_lt with i]).
      apply Mu in X as [_ X]. destruct total_order as (_ & _ & _ & _ & _ & R & Tr & _). pose proof (Tr _ _ _ X G) as Y. rewrite R in Y. discriminate.
  - intros A v X. apply Mt in X as [X Y]. apply Mu. split; [exact X |]. eapply lt_le_trans; [exact Y |]. now apply (bound_le w q p s r).
Qed.

(** ** Compatible release and wildcard *)

Lemma part_removelast (r : list Z) n : (S n < List.length r)%nat -> part (removelast r ++ [0]) n = part r n.
Proof.
  intros L. destruct (exists_last (l := r)) as (a & x & ->); [intros ->; cbn in L; lia |]. rewrite removelast_last. rewrite app_length in L. cbn in L.
  unfold part. rewrite !app_nth1 by lia. reflexivity.
Qed.

Theorem compatible_release w v : ordinary w -> (2 <= List.length (v_release w))%nat -> final w ->
  op_matches TILDE_EQUAL v w = Ok true
  <-> op_matches GREATER_OR_EQUAL v w = Ok true /\ op_matches WILDCARD_DOUBLE_EQUAL v (bare (v_epoch w) (removelast (v_release w) ++ [0])) = Ok true.
Proof.
  intros O L F. pose proof O as [V NN]. remember (List.length (v_release w) - 2)%nat as n eqn:En. assert (Ln : List.length (v_release w) = S (S n)) by lia.
  set (x := bare (v_epoch w) (removelast (v_release w) ++ [0])).
  assert (Lx : List.length (v_release x) = S (S n)).
  { unfold x. cbn [bare v_release]. destruct (exists_last (l := v_release w)) as (a & y & E); [intros E; rewrite E in L; cbn in L; lia |].
    rewrite E in Ln |- *. rewrite removelast_last. rewrite app_length in *. cbn in *. lia. }
  assert (Nx : Forall (fun z => 0 <= z) (v_release x)).
  { unfold x. cbn [bare v_release]. apply Forall_app. split; [| repeat constructor; lia]. unfold nonneg_release in NN.
    destruct (exists_last (l := v_release w)) as (a & y & E); [intros E; rewrite E in L; cbn in L; lia |].
    rewrite E in NN |- *. rewrite removelast_last. now apply Forall_app in NN. }
  assert (Ox : ordinary x) by (apply bare_ordinary; [destruct (removelast (v_release w)); discriminate | exact Nx]).
  destruct (breaks_bound w TILDE_EQUAL (Increased n) V (tilde_equal w n Ln)) as (r & B & M).
  destruct (breaks_bound x WILDCARD_DOUBLE_EQUAL (Increased n) (proj1 Ox)) as (s & C & K).
  { apply wildcard_release; auto. split; reflexivity. }
  assert (E : r = s).
  { cbn [bound_of] in B, C. apply part_ext.
    - destruct B as [B _], C as [C _]. rewrite B, C, Ln, Lx. reflexivity.
    - intros m. destruct B as [_ B], C as [_ C]. rewrite B, C. unfold x. cbn [bare v_release].
      destruct (Nat.ltb_spec m n); [symmetry; apply part_removelast; lia |]. destruct (Nat.eqb_spec m n); [| reflexivity].
      rewrite part_removelast by lia. reflexivity. }
  subst s. rewrite M, K. cbn [op_matches]. unfold matches_greater_or_equal. rewrite v_ge_le.
  assert (Le : v_le x w = true).
  { apply not_lt_le. intros H. change x with (bare (v_epoch w) (removelast (v_release w) ++ [0])) in H, Ox. apply lt_before in H; auto. unfold before in H.
    assert (PL : forall m, (m < S n)%nat -> part (v_release w) m = part (removelast (v_release w) ++ [0]) m) by (intros m Hm; symmetry; apply part_removelast; lia).
    assert (PZ : forall m, (S n <= m)%nat -> part (removelast (v_release w) ++ [0]) m <= part (v_release w) m).
    { intros m Hm. replace (part (removelast (v_release w) ++ [0]) m) with 0; [now apply part_nonneg |]. symmetry.
      destruct (exists_last (l := v_release w)) as (a & y & E); [intros E; rewrite E in L; cbn in L; lia |].
      rewrite E in Ln |- *. rewrite removelast_last. rewrite app_length in Ln. cbn in Ln. destruct (Nat.eq_dec m (S n)) as [-> | D].
      - unfold part. rewrite app_nth2 by lia. replace (S n - List.length a)%nat with 0%nat by lia. reflexivity.
      - apply part_over. rewrite app_length. cbn. lia. }
    cbn [bare v_epoch v_release] in H. destruct F as [F1 F2].
    destruct H as [H | (_ & [(m & _ & H) | (_ & H)])].
    - lia.
    - destruct (Nat.lt_ge_cases m (S n)) as [Hm | Hm]; [rewrite (PL m Hm) in H; lia | specialize (PZ m Hm); lia].
    - change (stage (bare (v_epoch w) (removelast (v_release w) ++ [0]))) with 2 in H. unfold stage in H. rewrite F1, F2 in H. cbn [bare v_pre v_post v_dev v_local] in H.
      destruct H as [H | (_ & H)]; [destruct (v_post w); lia |]. rewrite ?F1 in H. destruct H as [H | (_ & [H | (_ & [H | (_ & H)])])].
      + destruct H.
      + destruct (v_post w); destruct H.
      + rewrite ?F2 in H. destruct H.
      + destruct (v_local w); destruct H. }
  split.
  - intros [H1 H2]. split; [now rewrite H1 | split; [eapply le_trans; eauto | exact H2]].
  - intros [H1 [_ H2]]. split; [congruence | exact H2].
Qed.

(** ** Intervals *)

Lemma ge_gt_down u v w : v_le u v = true -> v_lt w u = true -> v_lt w v = true.
Proof. intros A B. exact (lt_le_trans w u v B A). Qed.

Lemma eq_le u v : v_eq u v = true -> v_le u v = true /\ v_le v u = true.
Proof.
  intros E. split; apply v_le_iff; right; [exact E |].
  now rewrite v_eq_sym.
Qed.

Lemma le_antisym u v : v_le u v = true -> v_le v u = true -> v_eq u v = true.
Proof.
  intros A B. apply v_le_iff in A as [A | A]; [| exact A]. exfalso.
  pose proof (lt_le_trans u v u A B) as C. rewrite lt_irrefl in C. discriminate.
Qed.

Lemma eq_convex w : convex (fun v => v_eq v w = true).
Proof.
  intros a b c A C X Y. apply eq_le in A as [A A'], C as [C C'].
  apply le_antisym; [exact (le_trans b c w Y C) | exact (le_trans w a b A' X)].
Qed.

Lemma from_to_convex (upper : version -> version -> Prop) w : convex (from_to upper w).
Proof.
  intros a b c [A _] [_ (u & U & C)] X Y. split; [eapply le_trans; eauto |]. exists u. split; [exact U | eapply le_lt_trans; eauto].
Qed.

Lemma wildcard_convex w : convex (fun v => wildcard_any w \/ from_to wildcard_upper w v).
Proof.
  intros a b c [A | A] [C | C] X Y; auto. right. exact (from_to_convex wildcard_upper w a b c A C X Y).
Qed.

Lemma op_sat_convex t w : t <> NOT_EQUAL -> t <> WILDCARD_NOT_EQUAL -> convex (op_sat t w).
Proof.
  intros N1 N2. destruct t; cbn [op_sat]; try contradiction; try apply from_to_convex; try apply eq_convex; try apply wildcard_convex.
  - intros a b c _ C _ Y. exact (le_lt_trans b c w Y C).
  - intros a b c _ C _ Y. exact (le_trans b c w Y C).
  - intros a b c A _ X _. exact (lt_le_trans w a b A X).
  - intros a b c A _ X _. exact (le_trans w a b A X).
Qed.

Lemma convex_ext (P Q : version -> Prop) : (forall v, P v <-> Q v) -> convex P -> convex Q.
Proof. intros E C a b c A B X Y. apply E. apply (C a b c); auto; now apply E. Qed.

Lemma op_matches_iff t w v : op_made t w -> op_matches t v w = Ok true <-> op_sat t w v.
Proof. intros M. destruct (op_matches_sat t w v M) as (b & -> & H). rewrite <- H. split; congruence. Qed.

Theorem op_convex t w : op_made t w -> t <> NOT_EQUAL -> t <> WILDCARD_NOT_EQUAL -> convex (fun v => op_matches t v w = Ok true).
Proof.
  intros M N1 N2. apply (convex_ext (op_sat t w)); [intros v; symmetry; now apply op_matches_iff | now apply op_sat_convex].
Qed.

Theorem op_gap t w : op_made t w -> t = NOT_EQUAL \/ t = WILDCARD_NOT_EQUAL -> convex (fun v => op_matches t v w = Ok false).
Proof.
  intros M [-> | ->].
  - apply (convex_ext (fun v => v_eq v w = true)); [| apply eq_convex]. intros v. cbn [op_matches]. unfold matches_not_equal.
    destruct (op_matches_sat NOT_EQUAL w v M) as (b & E & H). cbn [op_matches op_sat] in E, H. unfold matches_not_equal in E. rewrite E.
    destruct (v_eq v w), b; intuition congruence.
  - apply (convex_ext (op_sat WILDCARD_EQUAL w)); [| apply wildcard_convex]. intros v.
    assert (M' : op_made WILDCARD_EQUAL w) by (split; [apply M | discriminate]).
    destruct (op_matches_sat WILDCARD_NOT_EQUAL w v M) as (b & -> & H), (op_matches_sat WILDCARD_EQUAL w v M') as (c & E & K).
    cbn [op_sat] in H, K |- *. destruct b.
    + split; [tauto | discriminate].
    + split; [reflexivity |]. intros _. destruct c; [tauto |]. exfalso. assert (X : false = true) by (apply H; intros Y; apply K in Y; discriminate). discriminate.
Qed.

Lemma sat_convex s : no_any s -> each_op (fun t _ => t <> NOT_EQUAL /\ t <> WILDCARD_NOT_EQUAL) s -> convex (sat s).
Proof.
  induction s as [| |t w|ss IH|ss IH] using spec_members.
  - intros _ _ a b c [].
  - intros _ _ a b c _ _ _ _. exact I.
  - intros _ [N1 N2]. now apply op_sat_convex.
  - intros [].
  - intros N E. apply no_any_all in N. apply each_op_all in E. intros a b c A C X Y. apply sat_all in A, C. apply sat_all.
    rewrite Forall_forall in *. intros s I. exact (IH s I (N s I) (E s I) a b c (A s I) (C s I) X Y).
Qed.

Theorem accepts_convex s : spec_made s -> no_any s -> each_op (fun t _ => t <> NOT_EQUAL /\ t <> WILDCARD_NOT_EQUAL) s ->
  convex (fun v => accepts s v = Ok true).
Proof. intros M N E. apply (convex_ext (sat s)); [intros v; symmetry; now apply accepts_iff | now apply sat_convex]. Qed.

Theorem op_up t w u v : t = GREATER \/ t = GREATER_OR_EQUAL -> v_le u v = true -> op_matches t u w = Ok true -> op_matches t v w = Ok true.
Proof.
  intros [-> | ->] L M; cbn [op_matches] in *.
  - unfold matches_greater in *. injection M as M. f_equal. rewrite v_gt_lt in *. eapply lt_le_trans; eauto.
  - unfold matches_greater_or_equal in *. injection M as M. f_equal. rewrite v_ge_le in *. eapply le_trans; eauto.
Qed.

Theorem op_down t w u v : t = LESS \/ t = LESS_OR_EQUAL -> v_le u v = true -> op_matches t v w = Ok true -> op_matches t u w = Ok true.
Proof.
  intros [-> | ->] L M; cbn [op_matches] in *.
  - unfold matches_less in *. injection M as M. f_equal. eapply le_lt_trans; eauto.
  - unfold matches_less_or_equal in *. injection M as M. f_equal. eapply le_trans; eauto.
Qed.

Lemma final_dec w : final w \/ ~ final w.
Proof. unfold final. destruct (v_pre w), (v_dev w); intuition discriminate. Qed.

Theorem breaks_exists t w : op_made t w -> bounded t -> (t = WILDCARD_EQUAL \/ t = WILDCARD_DOUBLE_EQUAL -> ~ wildcard_any w) ->
  exists p, breaks w t p.
Proof.
  intros [V L] B W. pose proof (valid_parts w V) as (N & _).
  assert (G : t = WILDCARD_EQUAL \/ t = WILDCARD_DOUBLE_EQUAL -> exists p, breaks w t p).
  { intros T. specialize (W T). destruct (final_dec w) as [F | F]; [| eexists; now apply wildcard_early].
    destruct (v_release w) as [| x r] eqn:R; [congruence |].
    destruct (v_post w) eqn:P; [eexists; apply (wildcard_post w t (List.length r)); auto; [congruence | now rewrite R] |].
    destruct r as [| y r]; [exfalso; apply W; split; [exact F | split; [exact P | now rewrite R]] |].
    eexists. apply (wildcard_release w t (List.length r)); auto. now rewrite R. }
  destruct t; try contradiction; auto.
  - specialize (L eq_refl). eexists. apply (tilde_equal w (List.length (v_release w) - 2)). lia.
  - destruct (final_dec w) as [F | F]; [eexists; now apply caret_final |].
    destruct (Z.eq_dec (part (v_release w) 0) 0); eexists; [now apply caret_zero | now apply caret_major].
  - destruct (final_dec w) as [F | F]; eexists; [now apply tilde_final | now apply tilde_early].
Qed.
