(** Lemmas for C124. *)

From Coq Require Import List ZArith NArith String Bool Lia.
From Verif Require Import Py Segments Version VersionSets Operators Specifiers Orders Spec OrderFacts SetVersions BumpFacts OperatorFacts SpecifierFacts NestSpec NestFacts.
Import ListNotations.
Open Scope Z_scope.

Local Opaque key.

Lemma not_le v w : v_le v w = false <-> v_lt w v = true.
Proof.
  destruct total_order as (T & LE & _ & _ & GT & _). rewrite LE. specialize (T v w). rewrite <- (GT v w).
  destruct T as [(A & B & C) | [(A & B & C) | (A & B & C)]]; rewrite A, B, C; cbn; split; congruence.
Qed.

Lemma release_moved w i u : ordinary w -> 0 <= i -> next_at w i = Ok u ->
  exists q r, u = bare (v_epoch w) r /\ bound_of w q r
    /\ (final w -> q = Increased (Z.to_nat i)) /\ (~ final w -> q = Itself)
    /\ (v_le w u = true <-> ~ post_dev w).
Proof.
  intros O I E. destruct (next_at_shape w i (proj1 O) I) as (r & E' & B). rewrite E in E'. injection E' as ->.
  destruct (next_at_lt w i O I) as (x & E' & L). rewrite E in E'. injection E' as <-.
  exists (if is_stable w then Increased (Z.to_nat i) else Itself), r. split; [reflexivity |].
  split; [destruct (is_stable w); exact B |]. split; [intros F; now rewrite (proj2 (stable_final w) F) |].
  split; [intros F; now rewrite (proj2 (unstable_final w) F) |].
  rewrite v_le_iff, L. split; [intros [H | H]; [exact H |] | tauto]. intros P.
  pose proof (valid_parts w (proj1 O)) as (N & _).
  assert (R : r <> []). { destruct (is_stable w); [| congruence]. destruct B as [B _]. intros ->. cbn in B. lia. }
  apply eq_same in H; [| apply O | now apply bare_valid]. destruct H as (_ & _ & _ & H & _). destruct P as (_ & P & _). cbn in H. contradiction.
Qed.

Theorem stays_release t w p i u : ordinary w -> breaks w t p -> 0 <= i -> next_at w i = Ok u ->
  op_matches t u w = Ok true <->
  (final w /\ exists j, p = Increased j /\ (j < Z.to_nat i)%nat) \/ (~ final w /\ ~ post_dev w /\ p <> Itself).
Proof.
  intros O B I E. destruct (release_moved w i u O I E) as (q & r & -> & Q & F & NF & L).
  destruct (breaks_bound w t p (proj1 O) B) as (s & P & H). rewrite H, L. clear H L.
  assert (X : v_lt (bare (v_epoch w) r) (bare (v_epoch w) s) = true <-> ~ at_or_above q p).
  { destruct (above_dec q p) as [A | [A NA]].
    - split; [intros K | tauto]. pose proof (bound_le w q p r s O Q P A) as K'. apply not_le in K. congruence.
    - split; [auto |]. intros _. apply lt_before; [eapply bound_ordinary; eauto | eapply bound_ordinary; eauto |].
      right. split; [reflexivity |]. left. cbn [bare v_release]. exact (bound_strict w q p r s Q P A NA). }
  rewrite X. destruct (final_dec w) as [FW | FW].
  - rewrite (F FW). assert (NP : ~ post_dev w) by (intros (_ & _ & D); apply D, FW).
    destruct p as [j |]; cbn [at_or_above].
    + split; [intros [_ K]; left; split; [exact FW |]; exists j; split; [reflexivity | lia] |].
      intros [(_ & k & J & K) | (K & _)]; [injection J as <-; split; [exact NP | lia] | contradiction].
    + split; [tauto |]. intros [(_ & k & J & _) | (_ & _ & K)]; [discriminate | congruence].
  - rewrite (NF FW). destruct p as [j |]; cbn [at_or_above].
    + split; [intros [K _]; right; split; [exact FW |]; split; [exact K | discriminate] |].
      intros [(K & _) | (_ & K & _)]; [contradiction | tauto].
    + split; [tauto |]. intros [(K & _) | (_ & _ & K)]; [contradiction | congruence].
Qed.

(** ** Tags *)

Lemma tag_ordinary e r pre post dev : r <> [] -> Forall (fun x => 0 <= x) r ->
  valid_otag PreTag pre = true -> valid_otag PostTag post = true -> valid_otag DevTag dev = true ->
  ordinary (Version e r pre post dev None).
Proof.
  intros N F A B C. split; [| exact F]. unfold valid_version. cbn [v_release v_pre v_post v_dev v_local]. rewrite A, B, C.
  destruct r; [congruence | reflexivity].
Qed.

(** Versions of the same release below a bound. *)
Lemma below_bound w p s u : ordinary w -> bound_of w p s -> ordinary u -> v_epoch u = v_epoch w -> v_release u = v_release w ->
  v_lt u (bare (v_epoch w) s) = true <-> p <> Itself \/ early u.
Proof.
  intros O P U E R. rewrite (lt_before u _ U (bound_ordinary w p s O P)). unfold before. cbn [bare v_epoch v_release v_pre v_post v_dev v_local stage]. rewrite E, R.
  assert (ST : stage u <= 2) by (unfold stage; destruct (v_pre u), (v_post u), (v_dev u); lia).
  change (stage (Version (v_epoch w) s None None None None)) with 2. unfold early.
  destruct p as [i |]; cbn [bound_of] in P.
  - split; [intros _; left; discriminate |]. intros _. right. split; [reflexivity |]. left. now apply bumped_before with i.
  - subst s. split.
    + intros [K | (_ & [K | (_ & [K | (S2 & K)])])]; [lia | | now right |].
      * destruct K as (n & _ & K). lia.
      * exfalso. assert (PR : v_pre u = None) by (unfold stage in S2; destruct (v_pre u); [discriminate | reflexivity]).
        rewrite PR in K. destruct K as [K | (_ & K)]; [exact K |].
        destruct (v_post u) eqn:PO; cbn [none_first] in K.
        -- destruct K as [K | (K & _)]; [exact K | discriminate K].
        -- destruct K as [K | (_ & K)]; [exact K |]. unfold stage in S2. rewrite PR, PO in S2. destruct (v_dev u); [discriminate |].
           cbn [none_last] in K. destruct K as [K | (_ & K)]; [exact K |]. destruct (v_local u); exact K.
    + intros [K | K]; [congruence |]. right. split; [reflexivity |]. right. split; [intros n; reflexivity |]. now left.
Qed.

Lemma valid_post_next v t : valid_otag PostTag (v_post v) = true ->
  match v_post v with None => t = Tag (lit "post") 0 | Some u => t = Tag (phase u) (value u + 1) end -> valid_otag PostTag (Some t) = true.
Proof. destruct (v_post v); intros H ->; [exact H | reflexivity]. Qed.
Lemma valid_pre_next v t : valid_otag PreTag (v_pre v) = true ->
  match v_pre v with None => t = Tag (lit "alpha") 0 | Some u => t = Tag (phase u) (value u + 1) end -> valid_otag PreTag (Some t) = true.
Proof. destruct (v_pre v); intros H ->; [exact H | reflexivity]. Qed.
Lemma valid_dev_next v t : valid_otag DevTag (v_dev v) = true ->
  match v_dev v with None => t = Tag (lit "dev") 0 | Some u => t = Tag (phase u) (value u + 1) end -> valid_otag DevTag (Some t) = true.
Proof. destruct (v_dev v); intros H ->; [exact H | reflexivity]. Qed.

Lemma lt_implies_le v w : v_lt v w = true -> v_le v w = true.
Proof. intros H. apply v_le_iff. now left. Qed.

Theorem stays_tags t w p u : ordinary w -> breaks w t p ->
  (next_post w = Ok u -> op_matches t u w = Ok true <-> p <> Itself \/ v_pre w <> None)
  /\ (next_pre w = Ok u -> op_matches t u w = Ok true <-> early w)
  /\ (next_dev w = Ok u -> op_matches t u w = Ok true <-> v_dev w <> None /\ (p <> Itself \/ early w))
  /\ op_matches t (next_epoch w) w <> Ok true.
Proof.
  intros O B. destruct (breaks_bound w t p (proj1 O) B) as (s & P & H).
  pose proof (valid_parts w (proj1 O)) as (N & V1 & V2 & V3 & V4).
  assert (F : Forall (fun x => 0 <= x) (v_release w)) by apply O.
  destruct (tag_bump_shapes w (proj1 O)) as ((t1 & E1 & T1) & (t2 & E2 & T2) & (t3 & E3 & T3) & _).
  split; [| split; [| split]].
  - intros E. rewrite E in E1. injection E1 as ->. destruct (next_post_lt w (proj1 O)) as (x & E' & L). rewrite E in E'. injection E' as <-.
    rewrite H, (lt_implies_le _ _ L).
    rewrite (below_bound w p s _ O P); [| apply tag_ordinary; auto; eapply valid_post_next; eauto | reflexivity | reflexivity].
    unfold early, stage. cbn [v_pre v_post v_dev]. destruct (v_pre w); [| split; [intros [_ [K | K]]; [now left | lia] | intros [K | K]; [tauto | congruence]]].
    split; [intros _; right; discriminate |]. intros _. split; [reflexivity |]. right. lia.
  - intros E. rewrite E in E2. injection E2 as ->. destruct (next_pre_lt w (proj1 O)) as (x & E' & L & NE). rewrite E in E'. injection E' as <-.
    rewrite H, v_le_iff, L, NE.
    rewrite (below_bound w p s _ O P); [| apply tag_ordinary; auto; eapply valid_pre_next; eauto | reflexivity | reflexivity].
    unfold early, stage. cbn [v_pre v_post v_dev].
    destruct (v_pre w), (v_post w), (v_dev w); split; intros K; try lia; repeat split; try (right; lia); try (left; left; discriminate);
      try (left; right; split; [reflexivity | discriminate]); try (exfalso; lia);
      destruct K as [[[K | [K1 K2]] | K] _]; try lia; try congruence; exfalso; congruence.
  - intros E. rewrite E in E3. injection E3 as ->. destruct (next_dev_lt w (proj1 O)) as (x & E' & L1 & L2). rewrite E in E'. injection E' as <-.
    rewrite H.
    rewrite (below_bound w p s _ O P); [| apply tag_ordinary; auto; eapply valid_dev_next; eauto | reflexivity | reflexivity].
    destruct (v_dev w) as [d |] eqn:D.
    + rewrite (lt_implies_le _ _ (L1 ltac:(discriminate))). unfold early, stage. cbn [v_pre v_post v_dev]. rewrite D.
      split; [intros [_ K]; split; [discriminate | exact K] | intros [_ K]; split; [reflexivity | exact K]].
    + apply not_le in L2; [| reflexivity]. rewrite L2. split; [intros [K _]; discriminate | intros [K _]; congruence].
  - intros K. apply H in K as [_ K].
    assert (OE : ordinary (next_epoch w)).
    { split; [| exact F]. destruct O as [V _]. exact V. }
    apply lt_before in K; [| exact OE | eapply bound_ordinary; eauto]. unfold before, next_epoch, set_epoch, bare in K. cbn [v_epoch] in K. destruct K as [K | [K _]]; lia.
Qed.

(** Versions of three parts. *)
Theorem stays_semantic w a b c : ordinary w -> final w -> v_release w = [a; b; c] ->
  (forall u, next_major w = Ok u -> op_matches CARET u w <> Ok true /\ op_matches TILDE u w <> Ok true)
  /\ (forall u, next_minor w = Ok u -> (op_matches CARET u w = Ok true <-> a <> 0) /\ op_matches TILDE u w <> Ok true)
  /\ (forall u, next_micro w = Ok u -> (op_matches CARET u w = Ok true <-> a <> 0 \/ b <> 0) /\ op_matches TILDE u w = Ok true).
Proof.
  intros O F R. pose proof (caret_final w F) as C. pose proof (tilde_final w F) as T. rewrite R in C, T. cbn [List.length Nat.sub Nat.min] in T.
  assert (X : forall t j i u, breaks w t (Increased j) -> 0 <= i -> next_at w i = Ok u -> op_matches t u w = Ok true <-> (j < Z.to_nat i)%nat).
  { intros t j i u B I E. rewrite (stays_release t w _ i u O B I E). split.
    - intros [(_ & k & J & K) | (K & _)]; [injection J as <-; exact K | contradiction].
    - intros K. left. split; [exact F |]. exists j. split; [reflexivity | exact K]. }
  cbn [breaking_index] in C.
  assert (P1 : 0 <= MAJOR) by (unfold MAJOR; lia). assert (P2 : 0 <= MINOR) by (unfold MINOR; lia). assert (P3 : 0 <= MICRO) by (unfold MICRO; lia).
  split; [| split]; intros u E.
  - rewrite (X _ _ _ u C P1 E), (X _ _ _ u T P1 E). change (Z.to_nat MAJOR) with 0%nat. lia.
  - rewrite (X _ _ _ u C P2 E), (X _ _ _ u T P2 E). change (Z.to_nat MINOR) with 1%nat. destruct (Z.eqb_spec a 0), (Z.eqb_spec b 0); lia.
  - rewrite (X _ _ _ u C P3 E), (X _ _ _ u T P3 E). change (Z.to_nat MICRO) with 2%nat. destruct (Z.eqb_spec a 0), (Z.eqb_spec b 0); lia.
Qed.
