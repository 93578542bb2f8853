(** Equal operators mean the same exactly if they are written precisely enough. *)

From Coq Require Import List ZArith NArith String Bool Arith Lia.
From Verif Require Import Py Segments Version VersionSets Operators SetStrings Specifiers Orders Spec OrderFacts OperatorFacts SpecifierFacts BumpFacts BumpLeast.
Import ListNotations.
Open Scope Z_scope.

Lemma bumped_before r r' i j b b' : rel_same r r' -> (i < j)%nat -> bumped r i b -> bumped r' j b' -> rel_before b' b.
Proof.
  intros E L [_ B] [_ B']. exists i. split.
  - intros m H. rewrite B, B'. destruct (Nat.ltb_spec m i); [|lia]. destruct (Nat.ltb_spec m j); [|lia]. symmetry. apply E.
  - rewrite B, B'. rewrite Nat.ltb_irrefl, Nat.eqb_refl. destruct (Nat.ltb_spec i j); [|lia]. rewrite (E i). lia.
Qed.

Lemma bumped_after r i b : bumped r i b -> rel_before r b.
Proof.
  intros [_ B]. exists i. split.
  - intros m H. rewrite B. destruct (Nat.ltb_spec m i); [reflexivity|lia].
  - rewrite B, Nat.ltb_irrefl, Nat.eqb_refl. lia.
Qed.

Lemma bumped_nonneg r i b : Forall (fun x => 0 <= x) r -> bumped r i b -> Forall (fun x => 0 <= x) b.
Proof.
  intros F [L B]. apply Forall_forall. intros x H. apply (In_nth _ _ 0) in H as (n & N & <-). change (nth n b 0) with (part b n). rewrite B.
  pose proof (part_nonneg r n F). pose proof (part_nonneg r i F). destruct (n <? i)%nat; auto. destruct (n =? i)%nat; lia.
Qed.

Lemma bare_ordinary e r : r <> [] -> Forall (fun x => 0 <= x) r -> ordinary (bare e r).
Proof. intros N F. split; [now apply bare_valid|exact F]. Qed.

(** The bound of the more precise operator tells the two apart. *)
Lemma bounds_tell w w' i j b b' : ordinary w -> ordinary w' -> v_eq w w' = true -> (i < j)%nat ->
  bumped (v_release w) i b -> bumped (v_release w') j b' ->
  v_le w (bare (v_epoch w') b') = true /\ v_lt (bare (v_epoch w') b') (bare (v_epoch w) b) = true.
Proof.
  intros O O' E L B B'. apply eq_same in E as (E1 & E2 & _); [|apply O|apply O'].
  assert (Q : ordinary (bare (v_epoch w) b)) by (apply bare_ordinary; [now apply bumped_nonempty in B|apply (bumped_nonneg _ _ _ (proj2 O) B)]).
  assert (Q' : ordinary (bare (v_epoch w') b')) by (apply bare_ordinary; [now apply bumped_nonempty in B'|apply (bumped_nonneg _ _ _ (proj2 O') B')]).
  split.
  - apply le_of; auto. left. apply before_bare. right. split; [exact E1|]. left. apply bumped_after in B'. destruct B' as (n & N & H).
    exists n. split; [intros m M; rewrite (E2 m); now apply N|]. rewrite (E2 n). exact H.
  - apply lt_before; auto. apply before_bare. right. split; [now symmetry|]. left. now apply (bumped_before (v_release w) (v_release w') i j).
Qed.

Lemma lt_irrefl v : v_lt v v = false.
Proof. apply total_order. Qed.

Lemma from_to_tell (up : version -> version -> Prop) w w' i j b b' : ordinary w -> ordinary w' -> v_eq w w' = true -> (i < j)%nat ->
  bumped (v_release w) i b -> bumped (v_release w') j b' -> up w (bare (v_epoch w) b) -> (forall u, up w' u -> u = bare (v_epoch w') b') ->
  exists v, from_to up w v /\ ~ from_to up w' v.
Proof.
  intros O O' E L B B' U U'. destruct (bounds_tell w w' i j b b' O O' E L B B') as [H K]. exists (bare (v_epoch w') b'). split.
  - split; [exact H|]. eauto.
  - intros [_ (u & V & X)]. rewrite (U' u V), lt_irrefl in X. discriminate.
Qed.

Lemma wildcard_tell w w' : ordinary w -> ordinary w' -> v_eq w w' = true -> final w -> (List.length (v_release w) < List.length (v_release w'))%nat ->
  exists v, (wildcard_any w \/ from_to wildcard_upper w v) /\ ~ (wildcard_any w' \/ from_to wildcard_upper w' v).
Proof.
  intros O O' E F L. pose proof (proj1 O) as V. pose proof (proj1 O') as V'. pose proof E as S. apply eq_same in S as (E1 & E2 & E3 & E4 & E5 & E6); auto.
  assert (F' : final w') by (unfold final in *; now rewrite <- E3, <- E5). destruct (valid_parts w V) as (N & _).
  assert (LN : (1 <= List.length (v_release w))%nat) by (destruct (v_release w); [congruence|cbn; lia]).
  destruct (wildcard_bound w' V') as [[(_ & _ & A) _]|(A & u' & _ & U')]; [lia|]. destruct (proj2 (U' u') eq_refl) as (b' & -> & X1 & X2 & _).
  destruct (wildcard_bound w V) as [[B _]|(B & u & _ & U)].
  - exists (bare (v_epoch w') b'). split; [now left|]. intros [H|[_ (u & H & K)]]; [contradiction|]. rewrite (proj1 (U' u) H), lt_irrefl in K. discriminate.
  - destruct (proj2 (U u) eq_refl) as (b & -> & Y1 & Y2 & _). destruct (v_post w) as [p|] eqn:P.
    + destruct (from_to_tell wildcard_upper w w' (List.length (v_release w) - 1) (List.length (v_release w') - 1) b b' O O' E ltac:(lia)) as (v & C & D);
        [apply Y2; auto; discriminate|apply X2; auto; rewrite <- E4; discriminate|now apply U|intros u H; now apply U'|]. exists v. split; [now right|tauto].
    + assert (L2 : (2 <= List.length (v_release w))%nat).
      { destruct (Nat.eq_dec (List.length (v_release w)) 1) as [Q|Q]; [|lia]. exfalso. apply B. split; [exact F|]. auto. }
      destruct (from_to_tell wildcard_upper w w' (List.length (v_release w) - 2) (List.length (v_release w') - 2) b b' O O' E ltac:(lia)) as (v & C & D);
        [apply Y1; auto|apply X1; auto|now apply U|intros u H; now apply U'|]. exists v. split; [now right|tauto].
Qed.

Lemma not_lax_final t w : ~ op_lax t w -> t = TILDE_EQUAL \/ final w.
Proof. intros H. destruct (final_dec w) as [F|F]; auto. destruct t; cbn [op_lax] in H; auto; exfalso; apply H; auto. Qed.

Lemma reach_tell t w w' : ordinary w -> ordinary w' -> op_made t w -> op_made t w' -> v_eq w w' = true -> ~ op_lax t w ->
  (reach t (v_release w) < reach t (v_release w'))%nat -> exists v, ~ (op_sat t w v <-> op_sat t w' v).
Proof.
  intros O O' M M' E X L. pose proof (proj1 O) as V. pose proof (proj1 O') as V'. pose proof E as S. apply eq_same in S as (E1 & E2 & E3 & E4 & E5 & E6); auto.
  destruct (not_lax_final t w X) as [->|F].
  - destruct (tilde_equal_bound w V) as (u & _ & U); [now apply M|]. destruct (tilde_equal_bound w' V') as (u' & _ & U'); [now apply M'|]. cbn [reach] in L.
    destruct (proj2 (U u) eq_refl) as (b & -> & B), (proj2 (U' u') eq_refl) as (b' & -> & B').
    assert (L2 : (2 <= List.length (v_release w))%nat) by now apply M.
    destruct (from_to_tell tilde_equal_upper w w' (List.length (v_release w) - 2) (List.length (v_release w') - 2) b b' O O' E ltac:(lia) B B') as (v & C & D); [now apply U|intros x H; now apply U'|].
    exists v. cbn [op_sat]. tauto.
  - assert (F' : final w') by (unfold final in *; now rewrite <- E3, <- E5).
    assert (W : forall L : (List.length (v_release w) < List.length (v_release w'))%nat,
      exists v, ~ ((wildcard_any w \/ from_to wildcard_upper w v) <-> (wildcard_any w' \/ from_to wildcard_upper w' v))).
    { intros Q. destruct (wildcard_tell w w' O O' E F Q) as (v & C & D). exists v. tauto. }
    destruct t; cbn [op_lax] in X; try (exfalso; apply X; exact I); cbn [reach op_sat] in *.
    + destruct (tilde_equal_bound w V) as (u & _ & U); [now apply M|]. destruct (tilde_equal_bound w' V') as (u' & _ & U'); [now apply M'|].
      destruct (proj2 (U u) eq_refl) as (b & -> & B), (proj2 (U' u') eq_refl) as (b' & -> & B').
      assert (L2 : (2 <= List.length (v_release w))%nat) by now apply M.
      destruct (from_to_tell tilde_equal_upper w w' (List.length (v_release w) - 2) (List.length (v_release w') - 2) b b' O O' E ltac:(lia) B B') as (v & C & D); [now apply U|intros x H; now apply U'|].
      exists v. tauto.
    + destruct (caret_bound w V) as (u & _ & U), (caret_bound w' V') as (u' & _ & U').
      destruct (proj2 (U u) eq_refl) as (b & -> & B & _), (proj2 (U' u') eq_refl) as (b' & -> & B' & _).
      destruct (from_to_tell caret_upper w w' _ _ b b' O O' E L (B F) (B' F')) as (v & C & D); [now apply U|intros x H; now apply U'|]. exists v. tauto.
    + destruct (tilde_bound w V) as (u & _ & U), (tilde_bound w' V') as (u' & _ & U').
      destruct (proj2 (U u) eq_refl) as (b & -> & B & _), (proj2 (U' u') eq_refl) as (b' & -> & B' & _).
      destruct (from_to_tell tilde_upper w w' _ _ b b' O O' E L (B F) (B' F')) as (v & C & D); [now apply U|intros x H; now apply U'|]. exists v. tauto.
    + now apply W.
    + now apply W.
    + destruct (W L) as (v & H). exists v. cbn [op_sat]. destruct (wildcard_tell w w' O O' E F L) as (x & _). tauto.
Qed.

Lemma lax_dec t w : op_lax t w \/ ~ op_lax t w.
Proof. destruct t; cbn [op_lax]; auto; destruct (final_dec w); try tauto. destruct (Z.eq_dec (part (v_release w) 0) 0); tauto. Qed.

Lemma lax_equal t w w' : valid_version w = true -> valid_version w' = true -> v_eq w w' = true -> op_lax t w' -> op_lax t w.
Proof.
  intros V V' E. apply eq_same in E as (E1 & E2 & E3 & E4 & E5 & E6); auto. assert (FN : final w <-> final w') by (unfold final; rewrite E3, E5; reflexivity).
  assert (Z0 : part (v_release w) 0 = part (v_release w') 0) by apply E2. destruct t; cbn [op_lax]; auto; rewrite ?Z0; tauto.
Qed.

Theorem operators_alike_iff t w t' w' : op_made t w -> op_made t' w' -> nonneg_release w -> nonneg_release w' -> op_eqb t t' = true -> v_eq w w' = true ->
  (forall v, op_matches t v w = op_matches t' v w') <-> as_precise t w t' w'.
Proof.
  intros M M' N N' Et E. assert (T : forall v, op_matches t' v w' = op_matches t v w') by (intros v; destruct t, t'; try discriminate Et; reflexivity).
  assert (Mt : op_made t w') by (split; [apply M'|]; intros ->; destruct t'; try discriminate Et; now apply M').
  assert (Q : forall v, op_matches t v w = op_matches t' v w' <-> (op_sat t w v <-> op_sat t w' v)).
  { intros v. rewrite T. destruct (op_matches_sat t w v M) as (b & -> & <-), (op_matches_sat t w' v Mt) as (c & -> & <-). destruct b, c; split; intros H; try tauto; try congruence; exfalso; intuition congruence. }
  assert (O : ordinary w) by (split; [apply M|exact N]). assert (O' : ordinary w') by (split; [apply M'|exact N']).
  pose proof (proj1 O) as V. pose proof (proj1 O') as V'. assert (E' : v_eq w' w = true) by now rewrite v_eq_sym. split.
  - intros H. destruct (lax_dec t w) as [L|L]; [now left|]. right. destruct (lt_eq_lt_dec (reach t (v_release w)) (reach t (v_release w'))) as [[K|K]|K]; [|exact K|]; exfalso.
    + destruct (reach_tell t w w' O O' M Mt E L K) as (v & X). apply X, Q, H.
    + destruct (reach_tell t w' w O' O Mt M E') as (v & X); [intros X; apply L; now apply (lax_equal t w w')|exact K|]. apply X. symmetry. apply Q, H.
  - intros [L|L] v; apply Q; split.
    + now apply op_sat_lax.
    + apply op_sat_lax; auto. now apply (lax_equal t w' w).
    + now apply op_sat_reach.
    + now apply op_sat_reach.
Qed.
