(** Facts about the clauses of PEP 440 (PepClauses.v). *)

From Coq Require Import List ZArith NArith String Bool Lia.
From Verif Require Import Py Segments Version Operators Specifiers Spec Orders OrderFacts BumpFacts OperatorFacts SpecifierFacts MetaFacts PepSpec PepFacts PepClauses.
Import ListNotations.
Local Open Scope Z_scope.

Lemma wf_public w : wf w -> wf (public w).
Proof. intros (A & B & C & D & E & F & _). unfold wf, public. cbn [v_epoch v_release v_pre v_post v_dev v_local]. unfold nonneg_release in *. cbn [v_release]. repeat (split; [assumption|]). exact I. Qed.
Lemma usual_public w : usual w -> usual (public w).
Proof. exact (fun H => H). Qed.
Lemma small_public w : small_local (public w).
Proof. exact I. Qed.
Lemma rank_public w : rank (public w) = rank w.
Proof. reflexivity. Qed.

Lemma small_none l : small_words l = None <-> l = None.
Proof. destruct l; cbn; split; congruence. Qed.

Lemma local_before_none l : ~ local_before l None.
Proof. destruct l; cbn; auto. Qed.
Lemma local_before_of_none l : local_before None l <-> l <> None.
Proof. destruct l; cbn; split; congruence || auto. Qed.

(** Local versions come right after the public one. *)
Lemma before_public w v : v_local v = None -> pep_before w v <-> pep_before (public w) v.
Proof.
  intros L. unfold pep_before. rewrite rank_public, L. cbn [public v_epoch v_release v_local].
  pose proof (local_before_none (small_words (v_local w))). pose proof (local_before_none (small_words None)). cbn [small_words option_map] in *. tauto.
Qed.

Lemma public_before w v : v_local v = None ->
  pep_before v w <-> pep_before v (public w) \/ (v_local w <> None /\ pep_same (public w) v).
Proof.
  intros L. unfold pep_before, pep_same. rewrite rank_public, L. cbn [public v_epoch v_release v_local].
  pose proof (local_before_of_none (small_words (v_local w))) as A. pose proof (local_before_none (small_words None)) as B. cbn [small_words option_map] in *.
  pose proof (small_none (v_local w)) as C. unfold small_words in C.
  assert (S : rel_same (v_release v) (v_release w) <-> rel_same (v_release w) (v_release v)) by (split; apply rel_same_sym).
  assert (R : rank v = rank w <-> rank w = rank v) by (split; congruence).
  assert (E : v_epoch v = v_epoch w <-> v_epoch w = v_epoch v) by (split; congruence).
  rewrite S, R, E. tauto.
Qed.

Lemma same_public w v : v_local v = None -> pep_same w v <-> v_local w = None /\ pep_same (public w) v.
Proof.
  intros L. unfold pep_same. rewrite rank_public, L. cbn [public v_epoch v_release v_local]. rewrite small_none.
  cbn [small_words option_map]. tauto.
Qed.

Lemma first_less_irrefl l : ~ first_less l l.
Proof. induction l as [|x l IH]; cbn [first_less]; [auto|]. intros [H|[_ H]]; [lia|auto]. Qed.

Lemma same_not_before w v : v_local v = None -> pep_same (public w) v -> ~ pep_before v (public w).
Proof.
  intros L (E & S & R & _). unfold pep_before. rewrite R. cbn [public v_epoch v_release v_local] in *. intros [H|(_ & [H|(_ & [H|(_ & H)])])].
  - lia.
  - apply (rel_before_irrefl _ _ H). now apply rel_same_sym.
  - now apply first_less_irrefl in H.
  - exact (local_before_none _ H).
Qed.

Lemma made_allowed t v : wf v -> (t = TILDE_EQUAL -> (2 <= List.length (v_release v))%nat) -> op_made t v.
Proof.
  intros V H. split; [|exact H]. apply (wf_ordinary v V).
Qed.

(** ** Prefixes *)

Lemma part_removelast r n : (S n < List.length r)%nat -> part (removelast r) n = part r n.
Proof.
  revert n. induction r as [|x r IH]; intros n H; [cbn in H; lia|]. destruct r as [|y r]; [cbn in H; lia|].
  change (removelast (x :: y :: r)) with (x :: removelast (y :: r)). destruct n as [|n]; [reflexivity|].
  unfold part in *. cbn [nth]. apply IH. cbn [List.length] in *. lia.
Qed.
Lemma length_removelast (r : list Z) : List.length (removelast r) = (List.length r - 1)%nat.
Proof. induction r as [|x [|y r] IH]; auto. change (removelast (x :: y :: r)) with (x :: removelast (y :: r)). cbn [List.length] in *. lia. Qed.

Lemma starts_removelast s r : starts_with s (removelast r) <-> forall n, (S n < List.length r)%nat -> part s n = part r n.
Proof.
  unfold starts_with. rewrite length_removelast. split; intros H n L.
  - rewrite <- (part_removelast r) by lia. apply H. lia.
  - rewrite (part_removelast r) by lia. apply H. lia.
Qed.

Section Prefix.

Variables s r b : list Z.
Hypothesis Long : (2 <= List.length r)%nat.
Hypothesis Pos : Forall (fun x => 0 <= x) s.
Hypothesis B : bumped r (List.length r - 2) b.

Lemma starts_before : starts_with s (removelast r) -> rel_before s b.
Proof using Long B.
  rewrite starts_removelast. intros H. destruct B as [_ P]. exists (List.length r - 2)%nat. split.
  - intros m L. rewrite P, H by lia. destruct (Nat.ltb_spec m (List.length r - 2)); [reflexivity|lia].
  - rewrite P, H by lia. rewrite Nat.ltb_irrefl, Nat.eqb_refl. lia.
Qed.

Lemma before_starts : ~ rel_before s r -> rel_before s b -> starts_with s (removelast r).
Proof using Long Pos B.
  intros N (n & E & L). destruct B as [_ P]. rewrite starts_removelast. set (k := (List.length r - 2)%nat) in *.
  pose proof (part_nonneg s n Pos) as S0. rewrite P in L.
  destruct (Nat.ltb_spec n k) as [H|H].
  - exfalso. apply N. exists n. split; [|exact L]. intros m Hm. rewrite E, P by exact Hm. destruct (Nat.ltb_spec m k); [reflexivity|lia].
  - destruct (Nat.eqb_spec n k) as [->|]; [|lia].
    assert (E' : forall m, (m < k)%nat -> part s m = part r m).
    { intros m Hm. rewrite E, P by exact Hm. destruct (Nat.ltb_spec m k); [reflexivity|lia]. }
    intros m Hm. destruct (Nat.eq_dec m k) as [->|NE]; [|apply E'; lia].
    destruct (Z.lt_trichotomy (part s k) (part r k)) as [T|[T|T]]; [|exact T|lia].
    exfalso. apply N. exists k. auto.
Qed.

End Prefix.

Lemma next_prefix_exists v : wf v -> (2 <= List.length (v_release v))%nat -> exists b, next_prefix v b /\ Forall (fun x => 0 <= x) b.
Proof.
  intros (_ & N & F & _) L. destruct (next_at_spec (v_release v) (Z.of_nat (List.length (v_release v) - 2)) N ltac:(lia)) as (b & E & Nb & Bb).
  exists b. rewrite Nat2Z.id in Bb. split; [exact Bb|]. destruct Bb as [Lb P].
  apply Forall_forall. intros x I. destruct (In_nth b x 0 I) as (n & Hn & <-). change (0 <= part b n). rewrite P.
  pose proof (fun n => part_nonneg (v_release v) n F). destruct (n <? _)%nat; [auto|]. destruct (n =? _)%nat; [|lia].
  specialize (H (List.length (v_release v) - 2)%nat). lia.
Qed.

Lemma next_prefix_unique v b c : next_prefix v b -> next_prefix v c -> rel_same b c.
Proof. intros [_ P] [_ Q] n. now rewrite P, Q. Qed.

(** ** The clauses *)

Section Clauses.

Variables v w : version.
Hypotheses (V : wf v) (W : wf w) (Uv : usual v) (Uw : usual w) (Sv : small_local v) (Sw : small_local w).

Lemma clause_equal : op_matches DOUBLE_EQUAL w v = Ok true <-> pep_same w v.
Proof using All. rewrite matches_true by (apply made_allowed; [exact V|discriminate]). apply (pep_order w v); assumption. Qed.

Lemma clause_less : op_matches LESS w v = Ok true <-> pep_before w v.
Proof using All. rewrite matches_true by (apply made_allowed; [exact V|discriminate]). apply (pep_order w v); assumption. Qed.

Lemma clause_not_equal : op_matches NOT_EQUAL w v = Ok true <-> ~ pep_same w v.
Proof using All.
  rewrite matches_true by (apply made_allowed; [exact V|discriminate]). cbn [op_sat]. destruct (pep_order w v) as [_ <-]; try assumption.
  destruct (v_eq w v); intuition congruence.
Qed.

Lemma clause_greater : op_matches GREATER w v = Ok true <-> pep_before v w.
Proof using All. rewrite matches_true by (apply made_allowed; [exact V|discriminate]). apply (pep_order v w); assumption. Qed.

Lemma clause_at_most : op_matches LESS_OR_EQUAL w v = Ok true <-> ~ pep_before v w.
Proof using All.
  rewrite matches_true by (apply made_allowed; [exact V|discriminate]). cbn [op_sat]. rewrite not_lt_le.
  destruct (pep_order v w) as [<- _]; try assumption. reflexivity.
Qed.

Lemma clause_at_least : op_matches GREATER_OR_EQUAL w v = Ok true <-> ~ pep_before w v.
Proof using All.
  rewrite matches_true by (apply made_allowed; [exact V|discriminate]). cbn [op_sat]. rewrite not_lt_le.
  destruct (pep_order w v) as [<- _]; try assumption. reflexivity.
Qed.

Lemma clause_compatible : v_local v = None -> (2 <= List.length (v_release v))%nat ->
  op_matches TILDE_EQUAL w v = Ok true <-> ~ pep_before w v /\ v_epoch w = v_epoch v
    /\ (starts_with (v_release w) (removelast (v_release v)) \/ early w /\ exists r, next_prefix v r /\ rel_same (v_release w) r).
Proof using All.
  intros Lv L. rewrite matches_true by (apply made_allowed; auto). cbn [op_sat]. unfold from_to, tilde_equal_upper. rewrite not_lt_le.
  destruct (pep_order w v) as [-> _]; try assumption.
  destruct (next_prefix_exists v V L) as (b & B & Fb).
  assert (Fw : Forall (fun x => 0 <= x) (v_release w)) by apply W.
  assert (Ow : ordinary w) by now apply wf_ordinary.
  assert (Ob : forall r, next_prefix v r -> ordinary (bare (v_epoch v) r)).
  { intros r [Lr P]. apply wf_ordinary. split; [apply V|]. split.
    - cbn [bare v_release]. intros ->. cbn in Lr. lia.
    - split; [|repeat (split; [exact I|]); exact I]. unfold nonneg_release. cbn [bare v_release].
      apply Forall_forall. intros x Ix. destruct (In_nth r x 0 Ix) as (n & Hn & <-). change (0 <= part r n). rewrite P.
      destruct B as [_ Q]. pose proof (fun n => part_nonneg b n Fb) as G. rewrite <- Q. apply G. }
  split.
  - intros (N & u & (r & -> & R) & H). split; [exact N|]. apply (bare_lt w _ _ Ow (Ob r R)) in H.
    destruct H as [H|(E & H)]; [exfalso; apply N; left; exact H|]. split; [exact E|].
    destruct H as [H|(H & Ey)]; [left|right; eauto].
    apply (before_starts _ _ _ L Fw R); [|exact H]. intros K. apply N. right. split; [exact E|]. left. exact K.
  - intros (N & E & H). split; [exact N|]. exists (bare (v_epoch v) b). split; [exists b; auto|].
    apply (bare_lt w _ _ Ow (Ob b B)). right. split; [exact E|]. destruct H as [H|(Ey & r & R & H)].
    + left. exact (starts_before _ _ _ L B H).
    + right. split; [|exact Ey]. intros n. rewrite (H n). exact (next_prefix_unique v r b R B n).
Qed.

End Clauses.

Lemma removelast_snoc (r : list Z) x : removelast (r ++ [x]) = r.
Proof. exact (removelast_last r x). Qed.

Lemma clause_wildcard e r w : wf (bare e (r ++ [0])) -> wf w -> r <> [] ->
  op_matches WILDCARD_DOUBLE_EQUAL w (bare e (r ++ [0])) = Ok true <->
  v_epoch w = e /\ (starts_with (v_release w) r /\ ~ (rel_same (v_release w) (r ++ [0]) /\ early w)
                    \/ early w /\ exists b, next_prefix (bare e (r ++ [0])) b /\ rel_same (v_release w) b).
Proof.
  intros V W N. assert (F : Forall (fun x => 0 <= x) r).
  { destruct V as (_ & _ & F & _). unfold nonneg_release in F. cbn [bare v_release] in F. apply Forall_app in F. apply F. }
  destruct (next_at_spec r (Z.of_nat (List.length r - 1)) N ltac:(lia)) as (b & _ & _ & B). rewrite Nat2Z.id in B.
  rewrite (wildcard_prefix_matches e r b w N F B (wf_ordinary w W)).
  assert (L1 : (1 <= List.length r)%nat) by (destruct r; [congruence|cbn; lia]).
  assert (P0 : forall n, part (r ++ [0]) n = part r n).
  { intros n. unfold part. destruct (Nat.lt_ge_cases n (List.length r)).
    - now rewrite app_nth1.
    - rewrite app_nth2 by assumption. rewrite (nth_overflow r) by assumption. destruct (n - List.length r)%nat as [|[|]]; reflexivity. }
  assert (S0 : rel_same (v_release w) (r ++ [0]) <-> rel_same (v_release w) r) by (unfold rel_same; split; intros H n; rewrite H; auto).
  rewrite S0.
  assert (X : (exists b', next_prefix (bare e (r ++ [0])) b' /\ rel_same (v_release w) b') <-> rel_same (v_release w) b).
  { unfold next_prefix. cbn [bare v_release]. rewrite app_length. cbn [List.length]. replace (List.length r + 1 - 2)%nat with (List.length r - 1)%nat by lia.
    destruct B as [Lb Pb]. split.
    - intros (b' & [_ P] & H) n. rewrite (H n), P, Pb, !P0. reflexivity.
    - intros H. exists (b ++ [0]). split.
      + split; [rewrite !app_length, Lb; cbn; lia|]. intros n. rewrite !P0, <- Pb.
        unfold part. destruct (Nat.lt_ge_cases n (List.length b)).
        * now rewrite app_nth1.
        * rewrite app_nth2 by assumption. rewrite (nth_overflow b) by assumption. destruct (n - List.length b)%nat as [|[|]]; reflexivity.
      + intros n. rewrite (H n). symmetry. unfold part. destruct (Nat.lt_ge_cases n (List.length b)).
        * now rewrite app_nth1.
        * rewrite app_nth2 by assumption. rewrite (nth_overflow b) by assumption. destruct (n - List.length b)%nat as [|[|]]; reflexivity. }
  rewrite X. tauto.
Qed.

(** ** All of them *)

Lemma not_wildcard v w : valid_version v = true ->
  op_matches WILDCARD_NOT_EQUAL w v = Ok true <-> ~ (op_matches WILDCARD_DOUBLE_EQUAL w v = Ok true).
Proof. intros H. rewrite !matches_true by (split; [exact H|discriminate]). reflexivity. Qed.

Lemma rel_before_asym r s : rel_before r s -> ~ rel_before s r.
Proof.
  intros (n & E & L) (m & F & K). destruct (Nat.lt_trichotomy n m) as [T|[->|T]].
  - specialize (F n T). lia.
  - lia.
  - specialize (E m T). lia.
Qed.

Lemma same_starts s r : rel_same s (r ++ [0]) -> starts_with s r.
Proof. intros H n L. rewrite (H n). unfold part. now rewrite app_nth1. Qed.

Lemma starts_not_next s v b : (2 <= List.length (v_release v))%nat -> next_prefix v b -> starts_with s (removelast (v_release v)) -> ~ rel_same s b.
Proof.
  intros L B S H. exact (rel_before_irrefl _ _ (starts_before _ _ _ L B S) H).
Qed.

Lemma stage_early w : early w \/ ~ early w.
Proof. unfold early. lia. Qed.

Theorem clauses t v w : wf v -> wf w -> usual v -> usual w -> small_local v -> small_local w -> pep_allowed t v ->
  (op_matches t w v = Ok true <-> pep_clause t v w) <-> ~ pep_differs t v w.
Proof.
  intros V W Uv Uw Sv Sw (I & L & T & C).
  assert (DW : v_local w = None \/ v_local w <> None) by (destruct (v_local w); [right; discriminate|left; reflexivity]).
  destruct t; cbn in I; try (exfalso; intuition discriminate); clear I; unfold pep_clause, pep_differs.
  - (* ~= *)
    assert (Lv : v_local v = None) by (apply L; discriminate). specialize (T eq_refl).
    rewrite (clause_compatible v w) by auto. rewrite (before_public w v Lv).
    assert (X : (exists r, next_prefix v r /\ rel_same (v_release w) r) -> ~ starts_with (v_release w) (removelast (v_release v))).
    { intros (r & R & H) S. exact (starts_not_next _ v r T R S H). }
    assert (Y : v_epoch w = v_epoch v -> (exists r, next_prefix v r /\ rel_same (v_release w) r) -> ~ pep_before (public w) v).
    { intros E (r & [Lr P] & H) [K|(_ & K)]; cbn [public v_epoch v_release] in K; [lia|].
      assert (Bw : rel_before (v_release v) (v_release w)).
      { exists (List.length (v_release v) - 2)%nat. split.
        - intros m Hm. rewrite (H m), P. destruct (Nat.ltb_spec m (List.length (v_release v) - 2)); [reflexivity|lia].
        - rewrite (H (List.length (v_release v) - 2)%nat), P, Nat.ltb_irrefl, Nat.eqb_refl. lia. }
      destruct K as [K|(K & _)]; [exact (rel_before_asym _ _ Bw K)|]. exact (rel_before_irrefl _ _ Bw (rel_same_sym _ _ K)). }
    tauto.
  - (* == *)
    rewrite (clause_equal v w) by auto. destruct (v_local v) as [l|] eqn:Lv; [intuition discriminate|].
    rewrite (same_public w v Lv). tauto.
  - (* != *)
    rewrite (clause_not_equal v w) by auto. destruct (v_local v) as [l|] eqn:Lv; [intuition discriminate|].
    rewrite (same_public w v Lv). tauto.
  - rewrite (clause_less v w) by auto. tauto.
  - assert (Lv : v_local v = None) by (apply L; discriminate). rewrite (clause_at_most v w) by auto.
    rewrite (public_before w v Lv). pose proof (same_not_before w v Lv). tauto.
  - rewrite (clause_greater v w) by auto. tauto.
  - assert (Lv : v_local v = None) by (apply L; discriminate). rewrite (clause_at_least v w) by auto.
    rewrite (before_public w v Lv). tauto.
  - destruct (C (or_introl eq_refl)) as (e & r & N & ->). rewrite (clause_wildcard e r w) by auto.
    change (v_epoch (bare e (r ++ [0]))) with e. change (v_release (bare e (r ++ [0]))) with (r ++ [0]). rewrite removelast_snoc.
    pose proof (same_starts (v_release w) r). pose proof (stage_early w).
    assert (X : (exists b, next_prefix (bare e (r ++ [0])) b /\ rel_same (v_release w) b) -> ~ starts_with (v_release w) r).
    { intros (b & B & H') S. apply (starts_not_next (v_release w) (bare e (r ++ [0])) b); auto; cbn [bare v_release].
      - rewrite app_length. destruct r; [congruence|cbn; lia].
      - now rewrite removelast_snoc. }
    tauto.
  - destruct (C (or_intror eq_refl)) as (e & r & N & ->).
    rewrite (not_wildcard (bare e (r ++ [0])) w) by (apply wf_ordinary; exact V). rewrite (clause_wildcard e r w) by auto.
    change (v_epoch (bare e (r ++ [0]))) with e. change (v_release (bare e (r ++ [0]))) with (r ++ [0]). rewrite removelast_snoc.
    pose proof (same_starts (v_release w) r). pose proof (stage_early w).
    assert (X : (exists b, next_prefix (bare e (r ++ [0])) b /\ rel_same (v_release w) b) -> ~ starts_with (v_release w) r).
    { intros (b & B & H') S. apply (starts_not_next (v_release w) (bare e (r ++ [0])) b); auto; cbn [bare v_release].
      - rewrite app_length. destruct r; [congruence|cbn; lia].
      - now rewrite removelast_snoc. }
    tauto.
Qed.

Lemma released_same t v w : released w -> (t = GREATER -> v_post w = None \/ v_post v <> None) -> ~ pep_differs t v w.
Proof.
  intros (P & D & L) G. assert (Ey : ~ early w) by (unfold early, stage; rewrite P, D; destruct (v_post w); lia).
  unfold pep_differs, prerelease. rewrite P, D, L.
  destruct t; auto; try tauto; try (intuition congruence).
Qed.

Lemma spec_clauses s w : spec_made s -> each_op (fun t v => op_matches t w v = Ok true <-> pep_clause t v w) s ->
  accepts s w = Ok true <-> pep_spec s w.
Proof.
  intros M H. destruct (accepts_sat s w M) as (b & E & B). rewrite E.
  assert (X : sat s w <-> pep_spec s w).
  { clear E B. revert M H. induction s as [| |t' v'|ss H|ss H] using spec_members; cbn [spec_made each_op sat pep_spec]; try tauto.
    - intros M. rewrite matches_true by exact M. auto.
    - intros [_ M] K. induction H as [|s ss Hs _ IH]; [reflexivity|]. destruct M as [M1 M2], K as [K1 K2]. rewrite (Hs M1 K1), (IH M2 K2). reflexivity.
    - intros [_ M] K. induction H as [|s ss Hs _ IH]; [reflexivity|]. destruct M as [M1 M2], K as [K1 K2]. rewrite (Hs M1 K1), (IH M2 K2). reflexivity. }
  rewrite <- X, <- B. destruct b; intuition congruence.
Qed.

Lemma each_op_weaken (P Q : op_type -> version -> Prop) s : (forall t v, P t v -> Q t v) -> each_op P s -> each_op Q s.
Proof.
  intros PQ. induction s as [| |t' v'|ss H|ss H] using spec_members; cbn [each_op]; [auto|auto|apply PQ| |].
  - induction H as [|s ss Hs _ IH]; [auto|]. intros [A B]. split; [now apply Hs|now apply IH].
  - induction H as [|s ss Hs _ IH]; [auto|]. intros [A B]. split; [now apply Hs|now apply IH].
Qed.

Theorem spec_agrees s w : pep_version w -> spec_made s ->
  each_op (fun t v => pep_version v /\ pep_allowed t v /\ ~ pep_differs t v w) s -> accepts s w = Ok true <-> pep_spec s w.
Proof.
  intros (W & Uw & Sw) M H. apply spec_clauses; [exact M|]. revert H. apply each_op_weaken.
  intros t v ((V & Uv & Sv) & A & D). now apply (clauses t v w).
Qed.

Theorem spec_released s w : pep_version w -> released w -> spec_made s ->
  each_op (fun t v => pep_version v /\ pep_allowed t v /\ (t = GREATER -> v_post w = None \/ v_post v <> None)) s ->
  accepts s w = Ok true <-> pep_spec s w.
Proof.
  intros W R M H. apply spec_agrees; auto. revert H. apply each_op_weaken. intros t v (V & A & G). split; [exact V|]. split; [exact A|]. now apply released_same.
Qed.
