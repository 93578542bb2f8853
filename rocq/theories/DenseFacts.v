(** Neighbours in the order of versions. *)

From Coq Require Import List ZArith NArith String Bool Lia.
From Verif Require Import Py Segments Version VersionSets Parsers Spec
  Orders OrderFacts SetVersions BumpFacts BumpSpec BumpLeast Grammar ParseFacts ParseTheorems SetCounter DenseSpec.
Import ListNotations.
Local Open Scope Z_scope.
Local Opaque key.

Lemma wf_ordinary v : wf v -> ordinary v.
Proof. intros W. split; [now apply wf_valid|apply W]. Qed.

Lemma following_shape v : valid_version v = true -> exists p d,
  following v = Ok (Version (v_epoch v) (v_release v) (v_pre v) p (Some d) None)
  /\ match v_dev v with
     | Some t => p = v_post v /\ d = Tag (phase t) (value t + 1)
     | None => d = Tag (lit "dev") 0 /\ p = Some match v_post v with None => Tag (lit "post") 0 | Some t => Tag (phase t) (value t + 1) end
     end.
Proof.
  intros V. unfold following, is_dev_release. destruct (v_dev v) as [t|] eqn:D.
  - destruct (next_dev_shape v V) as (d & E & H). rewrite D in H. exists (v_post v), d. auto.
  - destruct (next_post_shape v V) as (p & E & H). rewrite E. cbn [bind].
    assert (V' : valid_version (Version (v_epoch v) (v_release v) (v_pre v) (Some p) None None) = true).
    { unfold valid_version in *. cbn [v_release v_pre v_post v_dev v_local] in *. rewrite !andb_true_iff in *. destruct V as [[[[V1 V2] V3] V4] V5].
      destruct (v_post v); subst p; repeat split; auto. }
    destruct (next_dev_shape _ V') as (d & E' & H'). cbn [v_epoch v_release v_pre v_post v_dev] in E', H'. exists (Some p), d. rewrite E'. repeat split; auto.
    destruct (v_post v); now subst p.
Qed.

Lemma following_public v w : wf v -> following v = Ok w -> public w.
Proof.
  intros W E. destruct (following_shape v (wf_valid v W)) as (p & d & E' & H). rewrite E' in E. injection E as <-.
  destruct W as (We & Wr & Wn & Wp & Wq & Wd & Wl). split; [|reflexivity]. unfold wf. cbn [v_epoch v_release v_pre v_post v_dev v_local]. unfold nonneg_release in *. cbn [v_release].
  destruct (v_dev v) as [t|].
  - destruct H as [-> ->]. destruct Wd as [Vd Nd]. repeat split; auto. cbn. lia.
  - destruct H as [-> ->]. repeat split; auto; try (cbn; lia); destruct (v_post v) as [q|]; auto; try (cbn; lia); destruct Wq; auto. cbn. lia.
Qed.

Lemma following_above v w : wf v -> following v = Ok w -> v_lt v w = true.
Proof.
  intros W E. pose proof (following_public v w W E) as [W' _]. apply lt_before; try now apply wf_ordinary.
  destruct (following_shape v (wf_valid v W)) as (p & d & E' & H). rewrite E' in E. injection E as <-. clear E' W'.
  unfold before, stage. cbn [v_epoch v_release v_pre v_post v_dev v_local]. right. split; [reflexivity|]. right. split; [intros n; reflexivity|]. right.
  destruct (v_dev v) as [t|].
  - destruct H as [-> ->]. split; [reflexivity|]. right. split; [reflexivity|]. right. split; [reflexivity|]. left. right. split; [reflexivity|]. cbn. lia.
  - destruct H as [-> ->]. split; [now destruct (v_pre v), (v_post v)|]. right. split; [reflexivity|]. left. destruct (v_post v) as [q|]; [|exact I]. right. split; [reflexivity|]. cbn. lia.
Qed.

Lemma following_least v w u : wf v -> following v = Ok w -> public u -> v_lt v u = true -> v_le w u = true.
Proof.
  intros W E [U L] K. pose proof (following_public v w W E) as [W' _]. destruct (v_dev v) as [t|] eqn:D.
  - assert (E' : next_dev v = Ok w) by (unfold following, is_dev_release in E; now rewrite D in E).
    apply (next_dev_least v u w); auto using wf_ordinary. congruence.
  - apply le_of; try now apply wf_ordinary. apply lt_before in K; try now apply wf_ordinary.
    destruct (following_shape v (wf_valid v W)) as (p & d & E' & H). rewrite E' in E. injection E as <-. clear E' W'. rewrite D in H. destruct H as [-> ->].
    unfold before, same, stage in *. rewrite D, L in *. cbn [v_epoch v_release v_pre v_post v_dev v_local].
    assert (S : match v_pre v with Some _ => 1 | None => match v_post v with Some _ => 2 | None => 2 end end = match v_pre v with Some _ => 1 | None => 2 end) by now destruct (v_pre v), (v_post v).
    rewrite S in K. destruct K as [K|[E1 [K|[E2 [K|[E3 [K|[E4 [K|[E5 [K|[E6 K]]]]]]]]]]]]; auto 6.
    + left. right. split; [exact E1|]. right. split; [exact E2|]. left. exact K.
    + left. right. split; [exact E1|]. right. split; [exact E2|]. right. split; [exact E3|]. left. exact K.
    + destruct (v_post u) as [q|] eqn:Pq; [|destruct (v_post v); destruct K].
      destruct U as (_ & _ & _ & _ & Wq & Wd & _). rewrite Pq in Wq.
      assert (X : tag_before POST_ORDER match v_post v with None => Tag (lit "post") 0 | Some t => Tag (phase t) (value t + 1) end q
        \/ match v_post v with None => Tag (lit "post") 0 | Some t => Tag (phase t) (value t + 1) end = q).
      { destruct (v_post v) as [o|]; [now apply next_value_before|]. destruct Wq as [Vu Nu]. pose proof (valid_phase _ _ Vu) as [H|[H|[]]].
        + destruct (Z.eq_dec (value q) 0) as [Z|Z]; [right; destruct q; cbn in *; congruence|left; right; split; auto; cbn; lia].
        + left. left. rewrite <- H. reflexivity. }
      destruct X as [X|X].
      * left. right. split; [exact E1|]. right. split; [exact E2|]. right. split; [exact E3|]. right. split; [exact E4|]. left. exact X.
      * rewrite X. destruct (v_dev u) as [d|] eqn:Du.
        -- destruct Wd as [Vd Nd]. pose proof (valid_phase _ _ Vd) as [H|[]].
           destruct (Z.eq_dec (value d) 0) as [Z|Z].
           ++ right. repeat split; auto. f_equal. destruct d. cbn in *. congruence.
           ++ left. right. split; [exact E1|]. right. split; [exact E2|]. right. split; [exact E3|]. right. split; [exact E4|]. right. split; [reflexivity|]. left. right. split; [exact H|]. cbn. lia.
        -- left. right. split; [exact E1|]. right. split; [exact E2|]. right. split; [exact E3|]. right. split; [exact E4|]. right. split; [reflexivity|]. left. exact I.
    + destruct K.
    + destruct (v_local v); destruct K.
Qed.

Lemma dense_ascending v w n : wf v -> wf w -> v_lt v w = true -> exists us, List.length us = n /\ Forall wf us /\ ascending (v :: us ++ [w]).
Proof.
  intros V W. revert v V. induction n as [|n IH]; intros v V K.
  - exists []. now repeat split.
  - destruct (wf_between v w V W K) as (u & U & A & B). destruct (IH u U B) as (us & L & F & C). exists (u :: us). split; [cbn; now rewrite L|]. split; [now constructor|].
    cbn [app]. split; [exact A|exact C].
Qed.

Lemma parsed_texts us : Forall wf us -> exists zs, Forall2 (fun z u => parse_version z = Ok u) zs us.
Proof. induction 1 as [|u us U _ (zs & F)]; [exists []; constructor|]. exists (to_short_string u :: zs). constructor; auto. now apply parse_short. Qed.

Theorem dense_texts x y v w n : parse_version x = Ok v -> parse_version y = Ok w -> v_lt v w = true ->
  exists zs us, List.length us = n /\ Forall2 (fun z u => parse_version z = Ok u) zs us /\ ascending (v :: us ++ [w]).
Proof.
  intros X Y K. destruct (dense_ascending v w n (parse_wf x v X) (parse_wf y w Y) K) as (us & L & F & A). destruct (parsed_texts us F) as (zs & Z). eauto.
Qed.

Theorem endless x v : parse_version x = Ok v -> exists z w, parse_version z = Ok w /\ v_lt v w = true.
Proof. intros X. destruct (next_epoch_wf v (parse_wf x v X)) as (w & W & K). exists (to_short_string w), w. split; [now apply parse_short|exact K]. Qed.

Theorem first_version x v : parse_version x = Ok v -> v_le lowest v = true.
Proof.
  intros X. apply parse_wf in X. destruct total_order as (_ & T & _). rewrite T. destruct (lowest_le v X) as [-> | ->]; auto using orb_true_r.
Qed.

Theorem following_next v : wf v -> exists w, following v = Ok w /\ public w /\ v_lt v w = true /\ forall u, public u -> v_lt v u = true -> v_le w u = true.
Proof.
  intros W. destruct (following_shape v (wf_valid v W)) as (p & d & E & _). eexists. split; [exact E|]. split; [now apply (following_public v)|]. split; [now apply (following_above v)|].
  intros u. now apply following_least.
Qed.

Lemma successor_follows w : public w -> successor w -> exists v, public v /\ following v = Ok w.
Proof.
  intros [W L] (d & D & H). destruct w as [e r pre post dev loc]. cbn [v_dev v_post v_local] in *. subst dev loc.
  destruct W as (We & Wr & Wn & Wp & Wq & [Vd Nd] & _). cbn [v_epoch v_release v_pre v_post v_dev v_local] in *. unfold nonneg_release in Wn. cbn [v_release] in Wn.
  pose proof (valid_phase _ _ Vd) as [Pd|[]].
  assert (B : forall v, public v -> (forall p t, following v = Ok (Version (v_epoch v) (v_release v) (v_pre v) p (Some t) None)
     -> match v_dev v with
        | Some u => p = v_post v /\ t = Tag (phase u) (value u + 1)
        | None => t = Tag (lit "dev") 0 /\ p = Some match v_post v with None => Tag (lit "post") 0 | Some t => Tag (phase t) (value t + 1) end
        end -> Version (v_epoch v) (v_release v) (v_pre v) p (Some t) None = Version e r pre post (Some d) None) -> exists v, public v /\ following v = Ok (Version e r pre post (Some d) None)).
  { intros v V K. exists v. split; [exact V|]. destruct (following_shape v (wf_valid v (proj1 V))) as (p & t & E & S). rewrite E. f_equal. now apply K. }
  destruct (Z.eq_dec (value d) 0) as [Z|Z].
  - destruct H as [H|(p & -> & H)]; [lia|]. destruct Wq as [Vp Np]. destruct (Z.eq_dec (value p) 0) as [Y|Y].
    + apply (B (Version e r pre None None None)); [repeat split; auto|]. cbn [v_epoch v_release v_pre v_post v_dev]. intros q t _ [-> ->]. repeat f_equal; [destruct p|destruct d]; cbn in *; subst; try reflexivity. destruct H as [H| ->]; [lia|reflexivity].
    + apply (B (Version e r pre (Some (Tag (phase p) (value p - 1))) None None)); [repeat split; auto; cbn; lia|]. cbn [v_epoch v_release v_pre v_post v_dev phase value]. intros q t _ [-> ->]. repeat f_equal; [destruct p; cbn; f_equal; lia|destruct d; cbn in *; congruence].
  - apply (B (Version e r pre post (Some (Tag (phase d) (value d - 1))) None)); [repeat split; auto; cbn; lia|]. cbn [v_epoch v_release v_pre v_post v_dev phase value]. intros q t _ [-> ->]. repeat f_equal. destruct d. cbn. f_equal. lia.
Qed.

Lemma follows_successor v w : wf v -> following v = Ok w -> successor w.
Proof.
  intros W E. destruct (following_shape v (wf_valid v W)) as (p & d & E' & H). rewrite E' in E. injection E as <-. exists d. split; [reflexivity|]. cbn [v_post].
  destruct W as (_ & _ & _ & _ & Wq & Wd & _). destruct (v_dev v) as [t|].
  - destruct H as [_ ->]. left. destruct Wd as [_ Nd]. cbn. lia.
  - destruct H as [-> ->]. right. eexists. split; [reflexivity|]. destruct (v_post v) as [q|]; [left; destruct Wq; cbn; lia|now right].
Qed.

Lemma successor_eq v w : wf v -> wf w -> v_eq v w = true -> successor v -> successor w.
Proof.
  intros V W E (d & D & H). apply eq_same in E; try now apply wf_valid. destruct E as (_ & _ & _ & P & Q & _). exists d. split; [congruence|]. now rewrite <- P.
Qed.

(** What comes right before a version, if anything does. *)
Theorem previous w : public w -> (exists v, public v /\ v_lt v w = true /\ forall u, public u -> v_lt v u = true -> v_le w u = true) <-> successor w.
Proof.
  intros W. split.
  - intros (v & V & K & L). destruct (following_next v (proj1 V)) as (x & E & X & A & M). pose proof (L x X A) as L1. pose proof (M w W K) as L2.
    apply (successor_eq x w); [apply X|apply W| |now apply (follows_successor v); [apply V|]].
    apply le_not_lt in L1. rewrite le_not_lt in L2. destruct total_order as (T & _). specialize (T x w). destruct total_order as (_ & _ & _ & _ & G & _). rewrite G, L2 in T. rewrite L1 in T. intuition congruence.
  - intros S. destruct (successor_follows w W S) as (v & V & E). exists v. destruct (following_next v (proj1 V)) as (x & E' & X & A & M). rewrite E in E'. injection E' as <-. auto.
Qed.

(** Words that cannot be written fill a gap. *)
Theorem words_matter : exists v w, valid_version v = true /\ valid_version w = true /\ v_lt v w = true
  /\ forall u, valid_version u = true -> v_lt v u = true -> v_lt u w = false.
Proof.
  exists (bare 0 [1]), (set_local (bare 0 [1]) (Some [LStr []])). split; [reflexivity|]. split; [reflexivity|]. split; [now vm_compute|].
  intros u U K. destruct (v_lt u (set_local (bare 0 [1]) (Some [LStr []]))) eqn:E; auto. exfalso. apply (gap_no_version u U). split; [exact K|exact E].
Qed.
