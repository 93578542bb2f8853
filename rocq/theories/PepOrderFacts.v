(** Where the order of versions leaves PEP 440 (C81): proofs. *)

From Coq Require Import List ZArith NArith String Bool Lia.
From Verif Require Import Py Segments Version Operators Specifiers Parsers Patterns Spec Orders OrderFacts Grammar ParseFacts ParseTheorems MetaFacts PepSpec PepFacts PepOrderSpec.
Import ListNotations.
Open Scope Z_scope.

(** ** PEP 440's order is that of the lowered versions *)

Definition lowered (v : version) : version :=
  let n := normal_version v in Version (v_epoch n) (v_release n) (v_pre n) (v_post n) (v_dev n) (small_words (v_local n)).

Lemma alpha_to_small c : is_alpha c = true -> is_alpha (to_small c) = true.
Proof.
  intros H. unfold to_small. destruct (N.leb_spec 65 c), (N.leb_spec c 90); cbn [andb]; auto. apply small_alpha. unfold small. lia.
Qed.

Lemma alnum_to_small c : is_alnum c = true -> is_alnum (to_small c) = true.
Proof.
  unfold is_alnum. rewrite !orb_true_iff. intros [H|H]; [left; now apply alpha_to_small|].
  unfold is_digit in H. apply andb_true_iff in H as [H1 H2]. apply N.leb_le in H1, H2.
  assert (E : to_small c = c). { unfold to_small. destruct (N.leb_spec 65 c); cbn [andb]; [lia|reflexivity]. }
  rewrite E. right. apply digit_is. lia.
Qed.



Lemma lowered_local o : wf_local o -> wf_local (small_words o).
Proof.
  destruct o as [l|]; [|exact (fun H => H)]. intros [N F]. cbn [small_words option_map wf_local]. split; [destruct l; [congruence|discriminate]|].
  apply Forall_map. eapply Forall_impl; [|exact F]. intros [z|s] H; [exact H|]. destruct H as [H1 H2]. split.
  - apply forallb_forall. intros c C. apply in_map_iff in C as (d & <- & D). rewrite forallb_forall in H1. now apply alnum_to_small, H1.
  - apply existsb_exists in H2 as (c & C & A). apply existsb_exists. exists (to_small c). split; [now apply in_map|now apply alpha_to_small].
Qed.

Lemma lowered_wf v : wf v -> wf (lowered v) /\ usual (lowered v).
Proof.
  intros W. destruct (normalize_eq v W) as (_ & W' & I'). assert (U : usual (normal_version v)) by now apply usual_normal.
  destruct W' as (A & B & C & D & E & F & G). apply lowered_local in G. split; [|exact U].
  unfold wf, lowered, nonneg_release in *. cbn [v_epoch v_release v_pre v_post v_dev v_local]. auto 10.
Qed.

Lemma lowered_rank v : wf v -> rank (lowered v) = rank v.
Proof. intros W. rewrite <- (rank_normal v W). reflexivity. Qed.

Theorem pep_lowered v w : wf v -> wf w ->
  (v_lt (lowered v) (lowered w) = true <-> pep_before v w) /\ (v_eq (lowered v) (lowered w) = true <-> pep_same v w).
Proof.
  intros V W. destruct (lowered_wf v V) as (V1 & V2), (lowered_wf w W) as (W1 & W2).
  destruct (rank_tags _ _ V1 W1 V2 W2) as [A B].
  apply wf_ordinary in V1 as V', W1 as W'. rewrite (lt_before _ _ V' W'), (eq_same _ _ (proj1 V') (proj1 W')).
  unfold before, pep_before, same, pep_same. rewrite <- (lowered_rank v V), <- (lowered_rank w W), A, B.
  change (v_local (lowered v)) with (small_words (v_local v)). change (v_local (lowered w)) with (small_words (v_local w)).
  change (v_epoch (lowered v)) with (v_epoch v). change (v_epoch (lowered w)) with (v_epoch w).
  change (v_release (lowered v)) with (v_release v). change (v_release (lowered w)) with (v_release w).
  split; [|tauto].
  assert (T : v_pre (lowered v) = v_pre (lowered w) -> v_post (lowered v) = v_post (lowered w) -> v_dev (lowered v) = v_dev (lowered w) -> stage (lowered v) = stage (lowered w))
    by (unfold stage; intros -> -> ->; reflexivity).
  tauto.
Qed.

(** ** Crossings *)

Lemma pre_words t u : wf_tag PreTag t -> wf_tag PreTag u -> position (phase t) PHASE_ORDER < position (phase u) PHASE_ORDER ->
  letter t < letter u \/ late t /\ late u.
Proof.
  intros P Q. pose proof (wf_phase PreTag t P ltac:(discriminate)) as X. pose proof (wf_phase PreTag u Q ltac:(discriminate)) as Y.
  destruct t as [p n], u as [q m]. unfold letter, late. cbn [phase] in *. cbn in X, Y.
  repeat (destruct X as [<-|X]; [repeat (destruct Y as [<-|Y]; [intros H; vm_compute in H; try discriminate H; first [left; reflexivity | right; repeat split; discriminate]|]); destruct Y|]). destruct X.
Qed.

Lemma same_letter t u : phase t = phase u -> letter t = letter u.
Proof. unfold letter. now intros ->. Qed.

Lemma late_letter t : late t -> letter t = 3.
Proof. intros [A B]. unfold letter. destruct (list_eq_dec _ _ _); [congruence|]. destruct (list_eq_dec _ _ _); [congruence|reflexivity]. Qed.

Lemma post_words t u : wf_tag PostTag t -> wf_tag PostTag u -> position (phase t) POST_ORDER < position (phase u) POST_ORDER ->
  phase t = lit "post" /\ phase u = lit "rev".
Proof.
  intros P Q. pose proof (wf_phase PostTag t P ltac:(discriminate)) as X. pose proof (wf_phase PostTag u Q ltac:(discriminate)) as Y.
  destruct t as [p n], u as [q m]. cbn [phase] in *. cbn in X, Y.
  repeat (destruct X as [<-|X]; [repeat (destruct Y as [<-|Y]; [intros H; vm_compute in H; try discriminate H; split; reflexivity|]); destruct Y|]). destruct X.
Qed.

Lemma before_word v w : wf v -> wf w -> before v w -> word_first v w \/ pep_before v w.
Proof.
  intros (_ & _ & _ & P & Q & D & _) (_ & _ & _ & P' & Q' & D' & _). unfold before, word_first, pep_before.
  intros [H|(E & [H|(R & H)])]; [right; auto..|].
  enough (X : first_less (rank v) (rank w) \/ (exists t u, v_pre v = Some t /\ v_pre w = Some u /\ late t /\ late u /\ position (phase t) PHASE_ORDER < position (phase u) PHASE_ORDER)
    \/ (v_pre v = v_pre w /\ exists t u, v_post v = Some t /\ v_post w = Some u /\ phase t = lit "post" /\ phase u = lit "rev")
    \/ (v_pre v = v_pre w /\ v_post v = v_post w /\ v_dev v = v_dev w /\ local_before (v_local v) (v_local w))) by tauto.
  unfold stage, rank in *.
  destruct (v_pre v) as [p|] eqn:P1, (v_pre w) as [p'|] eqn:P2; cbn [wf_otag none_first] in *;
    try pose proof (letter_range p); try pose proof (letter_range p');
  destruct (v_post v) as [q|] eqn:Q1, (v_post w) as [q'|] eqn:Q2; cbn [wf_otag none_first] in *;
  destruct (v_dev v) as [d|] eqn:D1, (v_dev w) as [d'|] eqn:D2; cbn [wf_otag none_last first_less app] in *;
  unfold tag_before in *;
  repeat match goal with
  | H : _ \/ _ |- _ => destruct H as [H|H]
  | H : _ /\ _ |- _ => destruct H
  | H : False |- _ => destruct H
  | H : Some _ = Some _ |- _ => injection H as ->
  | H : Some _ = None |- _ => discriminate H
  | H : None = Some _ |- _ => discriminate H
  | H : phase ?t = phase ?u |- _ => apply same_letter in H
  end; try lia;
  try (left; unfold wf_tag in *; lia);
  try match goal with
  | X : position (phase p) PHASE_ORDER < _ |- _ => pose proof X as Y; apply pre_words in Y; [destruct Y as [Y|[Y1 Y2]]; [left; lia|right; left; eauto 10]|assumption..]
  | X : position _ [] < _ |- _ => cbn [position] in X; lia
  | X : position (phase q) POST_ORDER < _ |- _ => apply post_words in X; [destruct X; right; right; left; eauto 10|assumption..]
  end;
  try (right; right; right; auto).
Qed.

Lemma word_before v w : word_first v w -> before v w.
Proof.
  unfold word_first, before, stage. intros (E & R & H). right. split; [exact E|]. right. split; [exact R|]. right.
  destruct H as [(t & u & -> & -> & _ & _ & L)|[(P & t & u & Q & Q' & T & U)|(-> & -> & -> & L)]].
  - split; [reflexivity|]. left. left. exact L.
  - rewrite P, Q, Q'. split; [destruct (v_pre w); reflexivity|]. right. split; [reflexivity|]. left. left. rewrite T, U. reflexivity.
  - split; [reflexivity|]. right. split; [reflexivity|]. right. split; [reflexivity|]. right. split; [reflexivity|exact L].
Qed.

Theorem pep_crossed v w : wf v -> wf w -> (v_lt v w = true /\ ~ pep_before v w) <-> crossed v w.
Proof.
  intros V W. pose proof (wf_ordinary v V) as V'. pose proof (wf_ordinary w W) as W'. rewrite (lt_before v w V' W'). unfold crossed. split.
  - intros [B N]. destruct (before_word v w V W B); tauto.
  - intros [B N]. split; [now apply word_before|exact N].
Qed.

Lemma same_pep v w : same v w -> pep_same v w.
Proof. unfold same, pep_same, rank. intros (E & R & -> & -> & -> & ->). auto. Qed.

Lemma v_trichotomy v w : (v_lt v w = true /\ v_lt w v = false /\ v_eq v w = false) \/ (v_lt v w = false /\ v_lt w v = true /\ v_eq v w = false)
  \/ (v_lt v w = false /\ v_lt w v = false /\ v_eq v w = true).
Proof. unfold v_lt, v_eq, v_cmp. rewrite (law_anti lawful_key (key v) (key w)). destruct (key_cmp (key v) (key w)); cbn; auto. Qed.

Theorem pep_agrees v w : wf v -> wf w ->
  ((v_lt v w = true <-> pep_before v w) /\ (v_lt w v = true <-> pep_before w v) /\ (v_eq v w = true <-> pep_same v w)) <-> ~ crossed v w /\ ~ crossed w v.
Proof.
  intros V W. pose proof (wf_ordinary v V) as V'. pose proof (wf_ordinary w W) as W'.
  destruct (pep_lowered v w V W) as [A B], (pep_lowered w v W V) as [C _]. split.
  - intros (H1 & H2 & _). rewrite <- !pep_crossed by assumption. tauto.
  - intros [N1 N2]. rewrite <- pep_crossed in N1, N2 by assumption.
    assert (D1 : pep_before v w \/ ~ pep_before v w) by (rewrite <- A; destruct (v_lt (lowered v) (lowered w)); intuition discriminate).
    assert (D2 : pep_before w v \/ ~ pep_before w v) by (rewrite <- C; destruct (v_lt (lowered w) (lowered v)); intuition discriminate).
    assert (I1 : v_lt v w = true -> pep_before v w) by tauto. assert (I2 : v_lt w v = true -> pep_before w v) by tauto.
    assert (I3 : v_eq v w = true -> pep_same v w) by (intros H; apply same_pep, (eq_same v w (proj1 V') (proj1 W')), H).
    destruct (v_trichotomy v w) as [(X & Y & Z)|[(X & Y & Z)|(X & Y & Z)]], (v_trichotomy (lowered v) (lowered w)) as [(X' & Y' & Z')|[(X' & Y' & Z')|(X' & Y' & Z')]];
      rewrite X, Y, Z in *; rewrite <- A, <- B, <- C, X', Y', Z' in *; intuition discriminate.
Qed.
