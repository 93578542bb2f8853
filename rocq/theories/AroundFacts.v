(** Early and late versions and specifiers that name releases only. *)

From Coq Require Import List ZArith NArith String Bool Arith Lia.
From Verif Require Import Py Segments Version VersionSets Operators Specifiers Parsers Spec Orders OrderFacts BumpFacts OperatorFacts SpecifierFacts SpecMeaning
  SetVersions Provenance SpecStrings DenseFacts ShapeFacts NestSpec NestFacts DecideFacts Normal ProbeSpec ProbeFacts LocalFacts AroundSpec.
Import ListNotations.
Local Open Scope Z_scope.
Local Opaque key depth.

Lemma bool_iff (a b : bool) : (a = true <-> b = true) -> a = b.
Proof. destruct a, b; intuition congruence. Qed.

Section Around.
  Context (v : version) (V : ordinary v).
  Let r := release_of v.

  Lemma release_ordinary : ordinary r.
  Proof. destruct V as [X Y]. apply bare_ordinary; [now apply valid_parts in X as (? & _)|exact Y]. Qed.
  Lemma release_stage : ~ early r.
  Proof. unfold early. change (stage r) with 2. lia. Qed.

  Lemma below_le e s : ordinary (bare e s) ->
    v_le r (bare e s) = true <-> v_epoch v < e \/ v_epoch v = e /\ (rel_before (v_release v) s \/ rel_same (v_release v) s).
  Proof.
    intros B. pose proof release_stage as S. rewrite v_le_iff, (bare_lt r e s release_ordinary B), (eq_same r _ (proj1 release_ordinary) (proj1 B)).
    unfold same, r, release_of in *. cbn [bare v_epoch v_release v_pre v_post v_dev v_local]. tauto.
  Qed.

  Lemma early_other e s : early v -> ordinary (bare e s) -> v_eq v (bare e s) = false.
  Proof.
    intros E B. apply not_true_is_false. rewrite (eq_same v _ (proj1 V) (proj1 B)). unfold same. cbn [bare v_epoch v_release v_pre v_post v_dev v_local].
    intros (_ & _ & P & Q & D & _). unfold early, stage in E. rewrite P, Q, D in E. lia.
  Qed.
  Lemma late_other e s : late v -> ordinary (bare e s) -> v_eq v (bare e s) = false.
  Proof.
    intros [_ L] B. apply not_true_is_false. rewrite (eq_same v _ (proj1 V) (proj1 B)). unfold same. cbn [bare v_epoch v_release v_pre v_post v_dev v_local]. tauto.
  Qed.
  Lemma above_lt b : v_eq v b = false -> v_lt b v = negb (v_lt v b).
  Proof.
    intros E. destruct total_order as (T & _ & _ & _ & G & _). destruct (T v b) as [(X & _ & Z)|[(_ & Y & _)|(X & _ & Z)]]; try congruence; rewrite G in Z; now rewrite X, Z.
  Qed.

  Lemma early_lt e s : early v -> ordinary (bare e s) -> v_lt v (bare e s) = v_le r (bare e s).
  Proof. intros E B. apply bool_iff. rewrite (below_le e s B), (bare_lt v e s V B). tauto. Qed.
  Lemma early_gt e s : early v -> ordinary (bare e s) -> v_lt (bare e s) v = v_lt (bare e s) r.
  Proof. intros E B. rewrite (above_lt _ (early_other e s E B)), (early_lt e s E B), lt_flip. apply negb_involutive. Qed.

  Lemma late_stage : late v -> ~ early v.
  Proof. intros [P L]. unfold early, stage. rewrite P. destruct (v_post v), (v_dev v); try lia. destruct L as [?|[? _]]; congruence. Qed.
  Lemma late_lt e s : late v -> ordinary (bare e s) -> v_lt v (bare e s) = v_lt r (bare e s).
  Proof.
    intros L B. apply bool_iff. rewrite (bare_lt r e s release_ordinary B), (bare_lt v e s V B). pose proof (late_stage L). pose proof release_stage.
    change (v_epoch r) with (v_epoch v). change (v_release r) with (v_release v). tauto.
  Qed.
  Lemma late_gt e s : late v -> ordinary (bare e s) -> v_lt (bare e s) v = v_le (bare e s) r.
  Proof. intros L B. now rewrite (above_lt _ (late_other e s L B)), (late_lt e s L B), lt_flip. Qed.

  (** A version is early, late or equal to its release. *)
  Lemma three_kinds : early v \/ late v \/ v = r.
  Proof.
    unfold early, stage, late, r, release_of. destruct v as [e s [p|] [q|] [d|] [l|]]; cbn; try (left; lia); try (right; left; split; [reflexivity|]; (left; congruence) || (right; split; congruence)).
    now right; right.
  Qed.

  Theorem around : (early v <-> v_lt v r = true) /\ (late v <-> v_lt r v = true) /\ (v = r <-> v_eq v r = true).
  Proof.
    pose proof release_ordinary as O. destruct total_order as (T & _ & _ & _ & G & _).
    assert (E : early v -> v_lt v r = true) by (intros K; unfold r, release_of in *; rewrite (early_lt _ _ K O); apply le_refl).
    assert (L : late v -> v_lt r v = true) by (intros K; unfold r, release_of in *; rewrite (late_gt _ _ K O); apply le_refl).
    assert (Q : v = r -> v_eq v r = true) by (intros <-; apply eq_key; reflexivity).
    destruct (T v r) as [(X & Y & Z)|[(X & Y & Z)|(X & Y & Z)]]; rewrite G in Z; rewrite X, Y, Z in *; destruct three_kinds as [K|[K|K]];
      try (apply E in K; discriminate); try (apply L in K; discriminate); try (apply Q in K; discriminate); intuition discriminate.
  Qed.
End Around.

(** ** Specifiers *)

Lemma bound_release t w b : w = release_of w -> op_bound t w b -> exists e s, b = bare e s.
Proof.
  intros W [-> | B]; [now exists (v_epoch w), (v_release w)|]. destruct t; try contradiction; destruct B as (s & -> & _); now exists (v_epoch w), s.
Qed.

Lemma parsed_bound x s t w b : parse_specifier x = Ok s -> names_releases s -> leaf t w s -> op_bound t w b ->
  exists e r, b = bare e r /\ ordinary (bare e r).
Proof.
  intros X N J B. destruct (parsed_made x s X) as [M _]. destruct (bound_release t w b (N t w J) B) as (e & r & ->). exists e, r. split; [reflexivity|].
  apply wf_ordinary. destruct (proj1 (each_leaf writable s) (parsed_writable x s X) t w J) as (W1 & W2 & _). apply (op_bound_wf t w); auto.
Qed.

Lemma same_orders a b c : v_eq a b = true -> v_lt a c = v_lt b c /\ v_lt c a = v_lt c b.
Proof. intros E. destruct total_order as (_ & _ & _ & _ & _ & _ & _ & _ & _ & _ & Q). exact (Q a b c E). Qed.

Theorem early_alike x s u v : parse_specifier x = Ok s -> names_releases s -> ordinary u -> ordinary v -> early u -> early v ->
  v_eq (release_of u) (release_of v) = true -> accepts s u = accepts s v.
Proof.
  intros X N U V EU EV E. apply (parsed_local x s u v X). intros t w b J B. destruct (parsed_bound x s t w b X N J B) as (e & r & -> & O).
  destruct (same_orders _ _ (bare e r) E) as [A C]. split.
  - rewrite (early_lt u U e r EU O), (early_lt v V e r EV O), !lt_flip. now rewrite C.
  - now rewrite (early_gt u U e r EU O), (early_gt v V e r EV O).
Qed.

Theorem late_alike x s u v : parse_specifier x = Ok s -> names_releases s -> ordinary u -> ordinary v -> late u -> late v ->
  v_eq (release_of u) (release_of v) = true -> accepts s u = accepts s v.
Proof.
  intros X N U V EU EV E. apply (parsed_local x s u v X). intros t w b J B. destruct (parsed_bound x s t w b X N J B) as (e & r & -> & O).
  destruct (same_orders _ _ (bare e r) E) as [A C]. split.
  - now rewrite (late_lt u U e r EU O), (late_lt v V e r EV O).
  - rewrite (late_gt u U e r EU O), (late_gt v V e r EV O), !lt_flip. now rewrite A.
Qed.

Theorem away_alike x s v : parse_specifier x = Ok s -> names_releases s -> ordinary v ->
  (forall t w b, leaf t w s -> op_bound t w b -> v_eq (release_of v) b = false) -> accepts s v = accepts s (release_of v).
Proof.
  intros X N V H. apply (parsed_local x s v _ X). intros t w b J B. specialize (H t w b J B). destruct (parsed_bound x s t w b X N J B) as (e & r & -> & O).
  destruct total_order as (T & LE & _ & _ & G & _). unfold same_side.
  destruct (three_kinds v V) as [K|[K|K]]; [| |now rewrite <- K].
  - rewrite (early_lt v V e r K O), (early_gt v V e r K O), LE, H, orb_false_r. auto.
  - rewrite (late_lt v V e r K O), (late_gt v V e r K O), lt_flip. split; [reflexivity|].
    destruct (T (release_of v) (bare e r)) as [(Y & _ & Z)|[(_ & Y & _)|(Y & _ & Z)]]; try congruence; rewrite G in Z; now rewrite Y, Z.
Qed.

(** ** At the ends of an operator *)

Theorem operator_ends t w i r v : ordinary w -> w = release_of w -> breaks w t (Increased i) -> bumped (v_release w) i r -> ordinary v ->
  (v_eq (release_of v) w = true -> op_matches t v w = Ok true <-> ~ early v)
  /\ (v_eq (release_of v) (bare (v_epoch w) r) = true -> op_matches t v w = Ok true <-> early v).
Proof.
  intros W R B U V. destruct (breaks_bound w t _ (proj1 W) B) as (r' & B' & M). cbn [bound_of] in B'. assert (r' = r) as -> by now apply (bumped_unique (v_release w) i).
  pose proof (bound_ordinary w (Increased i) r W U) as O. pose proof (bumped_lt w i r W U) as L. rewrite M. clear M.
  assert (W' : ordinary (bare (v_epoch w) (v_release w))) by (unfold release_of in R; now rewrite <- R).
  assert (F : forall b, v_eq (release_of v) b = true -> v_le (release_of v) b = true) by (intros b E; apply v_le_iff; auto).
  unfold release_of in R. split; intros E.
  - destruct (same_orders _ _ (bare (v_epoch w) r) E) as [A C]. rewrite not_lt_le. rewrite R at 1. destruct (three_kinds v V) as [K|K].
    + rewrite (early_lt v V _ _ K W'). rewrite <- R. rewrite (F _ E). split; [intros [X _]; now elim X|tauto].
    + assert (K' : ~ early v) by (destruct K as [K| ->]; [now apply late_stage|apply release_stage]).
      split; [auto|]. intros _. rewrite (bare_lt v _ _ V W'). destruct (eq_same _ _ (proj1 (release_ordinary v V)) (proj1 W)) as [S _]. specialize (S E) as (S1 & S2 & _).
      cbn [release_of bare v_epoch v_release] in S1, S2. split.
      * intros [X|(_ & [(n & _ & X)|[_ X]])]; [lia|rewrite (S2 n) in X; lia|contradiction].
      * rewrite L in A. apply (bare_lt _ _ _ (release_ordinary v V) O) in A. apply (bare_lt _ _ _ V O). cbn [release_of bare v_epoch v_release] in A. pose proof (release_stage v). tauto.
  - destruct (same_orders _ _ w E) as [A C]. destruct (three_kinds v V) as [K|K].
    + split; [auto|]. intros _. rewrite (early_lt v V _ _ K O). split; [|now apply F]. apply v_le_iff. left. rewrite R at 1. rewrite (early_gt v V _ _ K W'), <- R, C. exact L.
    + assert (K' : ~ early v) by (destruct K as [K| ->]; [now apply late_stage|apply release_stage]).
      split; [|tauto]. intros [_ X]. exfalso. apply (bare_lt _ _ _ V O) in X. destruct (eq_same _ _ (proj1 (release_ordinary v V)) (proj1 O)) as [S _]. specialize (S E) as (S1 & S2 & _).
      cbn [release_of bare v_epoch v_release] in S1, S2. destruct X as [X|(_ & [(n & _ & X)|[_ X]])]; [lia|rewrite (S2 n) in X; lia|contradiction].
Qed.
