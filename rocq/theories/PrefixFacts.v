(** Lemmas for C123. *)

From Coq Require Import List ZArith NArith String Bool Lia.
From Verif Require Import Py Segments Version VersionSets Operators Specifiers Orders Spec OrderFacts SetVersions BumpFacts OperatorFacts SpecifierFacts NestSpec NestFacts PrefixSpec.
Import ListNotations.
Open Scope Z_scope.

Local Opaque key.

Lemma stem_length p : stem p -> (0 < List.length p)%nat.
Proof. intros [N _]. destruct p; [congruence | cbn; lia]. Qed.

Lemma part_beyond (r : list Z) n : (List.length r <= n)%nat -> part r n = 0.
Proof. intros H. now apply nth_overflow. Qed.

Lemma stage_decides v : early v \/ ~ early v.
Proof. unfold early. lia. Qed.

Lemma zeros_decide (r : list Z) k : (forall n, (k <= n)%nat -> part r n = 0) \/ ~ (forall n, (k <= n)%nat -> part r n = 0).
Proof.
  revert k. induction r as [| a r IH]; intros k.
  - left. intros n _. now destruct n.
  - destruct k as [| k].
    + destruct (Z.eq_dec a 0) as [-> | A].
      * destruct (IH 0%nat) as [H | H].
        -- left. intros [| n] _; [reflexivity | apply (H n); lia].
        -- right. intros K. apply H. intros n _. apply (K (S n)). lia.
      * right. intros K. apply A, (K 0%nat). lia.
    + destruct (IH k) as [H | H].
      * left. intros [| n] L; [lia | apply (H n); lia].
      * right. intros K. apply H. intros n L. apply (K (S n)). lia.
Qed.

Lemma opening_decides v k : opening v k \/ ~ opening v k.
Proof. unfold opening. destruct (stage_decides v), (zeros_decide (v_release v) k); tauto. Qed.

(** Which wildcards accept a version. *)
Theorem selects_which e p v : stem p -> ordinary v ->
  selects e p v <-> v_epoch v = e /\ (~ opening v (List.length p) /\ starts_with (v_release v) p
                                      \/ opening v (List.length p) /\ after (v_release v) p).
Proof.
  intros S O. pose proof (stem_length p S) as L. destruct S as [N F].
  destruct (bumped_exists p (List.length p - 1)) as [b B]. unfold selects.
  rewrite (wildcard_prefix_matches e p b v N F B O).
  assert (X : forall r, rel_same r p <-> starts_with r p /\ forall n, (List.length p <= n)%nat -> part r n = 0).
  { intros r. unfold rel_same, starts_with. split.
    - intros H. split; intros n K; rewrite H; [reflexivity | now apply part_beyond].
    - intros [H K] n. destruct (Nat.lt_ge_cases n (List.length p)) as [Q | Q]; [auto | now rewrite K, part_beyond]. }
  assert (Y : forall r, rel_same r b <-> after r p /\ forall n, (List.length p <= n)%nat -> part r n = 0).
  { intros r. destruct B as [_ B]. unfold rel_same, after. split.
    - intros H. split; [split |].
      + intros n K. rewrite H, B. destruct (Nat.ltb_spec n (List.length p - 1)); [reflexivity | lia].
      + rewrite H, B, Nat.ltb_irrefl, Nat.eqb_refl. reflexivity.
      + intros n K. rewrite H, B. destruct (Nat.ltb_spec n (List.length p - 1)); [lia |].
        destruct (Nat.eqb_spec n (List.length p - 1)); [lia | reflexivity].
    - intros [[H K] Z] n. rewrite B. destruct (Nat.ltb_spec n (List.length p - 1)); [apply H; lia |].
      destruct (Nat.eqb_spec n (List.length p - 1)); [subst; exact K | apply Z; lia]. }
  rewrite X, Y. unfold opening. destruct (stage_decides v), (zeros_decide (v_release v) (List.length p)); tauto.
Qed.

Lemma parts_equal (p q : list Z) : List.length p = List.length q -> (forall n, (n < List.length p)%nat -> part p n = part q n) -> p = q.
Proof. intros L H. apply (nth_ext p q 0 0 L). exact H. Qed.

(** At most one of each length. *)
Theorem selects_unique e e' p q v : stem p -> stem q -> ordinary v -> List.length p = List.length q ->
  selects e p v -> selects e' q v -> e = e' /\ p = q.
Proof.
  intros P Q O L A B. pose proof (stem_length p P) as K. apply (selects_which e p v P O) in A as [<- A]. apply (selects_which e' q v Q O) in B as [<- B].
  split; [reflexivity |]. rewrite <- L in B. apply parts_equal; [exact L |]. intros n M.
  destruct A as [[N A] | [N A]], B as [[N' B] | [N' B]]; try tauto.
  - rewrite <- (A n M). apply B. lia.
  - destruct A as [A1 A2], B as [B1 B2]. rewrite <- L in B1, B2. destruct (Nat.eq_dec n (List.length p - 1)) as [-> | D].
    + lia.
    + rewrite <- (A1 n ltac:(lia)). apply B1. lia.
Qed.

Lemma stem_firstn k p : stem p -> (0 < k)%nat -> stem (firstn k p).
Proof.
  intros [N F] K. split.
  - destruct p; [congruence |]. destruct k; [lia | discriminate].
  - rewrite <- (firstn_skipn k p) in F. now apply Forall_app in F as [F _].
Qed.

Lemma part_firstn (p : list Z) k n : (n < k)%nat -> part (firstn k p) n = part p n.
Proof.
  intros H. unfold part. revert k n H. induction p as [| a p IH]; intros [| k] [| n] H; try lia; cbn; auto. apply IH. lia.
Qed.

Lemma part_nonneg (p : list Z) n : Forall (fun x => 0 <= x) p -> 0 <= part p n.
Proof.
  intros F. destruct (Nat.lt_ge_cases n (List.length p)) as [H | H].
  - rewrite Forall_forall in F. apply F. now apply nth_In.
  - now rewrite part_beyond.
Qed.

(** With a wildcard all shorter ones accept a version. *)
Theorem selects_shorter e p v k : stem p -> ordinary v -> (0 < k)%nat -> selects e p v -> selects e (firstn k p) v.
Proof.
  intros P O K A. destruct (Nat.le_gt_cases (List.length p) k) as [C | C]; [now rewrite firstn_all2 |].
  apply (selects_which e p v P O) in A as [<- A]. apply (selects_which _ _ v (stem_firstn k p P K) O). split; [reflexivity |].
  assert (L : List.length (firstn k p) = k) by (rewrite firstn_length; lia). rewrite L.
  destruct A as [[N A] | [N A]].
  - left. split.
    + intros [E Z]. apply N. split; [exact E |]. intros n H. apply Z. lia.
    + intros n H. rewrite L in H. rewrite part_firstn by exact H. apply A. lia.
  - destruct A as [A1 A2], P as [_ F]. pose proof (part_nonneg p (List.length p - 1) F) as Q. left. split.
    + intros [_ Z]. specialize (Z (List.length p - 1)%nat ltac:(lia)). lia.
    + intros n H. rewrite L in H. rewrite part_firstn by exact H. apply A1. lia.
Qed.

Definition parts_upto (r : list Z) (k : nat) : list Z := map (part r) (seq 0 k).

Lemma part_upto r k n : (n < k)%nat -> part (parts_upto r k) n = part r n.
Proof.
  intros H. unfold parts_upto. change (part (map (part r) (seq 0 k)) n) with (nth n (map (part r) (seq 0 k)) 0).
  rewrite (nth_indep _ 0 (part r 0)) by (rewrite map_length, seq_length; exact H). rewrite map_nth, seq_nth by exact H. reflexivity.
Qed.

Lemma upto_length r k : List.length (parts_upto r k) = k.
Proof. unfold parts_upto. now rewrite map_length, seq_length. Qed.

Lemma upto_stem r k : Forall (fun x => 0 <= x) r -> (0 < k)%nat -> stem (parts_upto r k).
Proof.
  intros F K. split.
  - intros H. apply (f_equal (@List.length Z)) in H. rewrite upto_length in H. cbn in H. lia.
  - apply Forall_forall. intros x I. apply in_map_iff in I as (n & <- & _). now apply part_nonneg.
Qed.

(** Which versions no wildcard of a length accepts. *)
Theorem selects_covered v k : ordinary v -> (0 < k)%nat ->
  (exists e p, stem p /\ List.length p = k /\ selects e p v) <-> ~ (opening v k /\ part (v_release v) (k - 1) = 0).
Proof.
  intros O K. split.
  - intros (e & p & P & L & A) [B Z]. apply (selects_which e p v P O) in A as [_ A]. rewrite L in A.
    destruct A as [[N _] | [_ [_ A]]]; [tauto |]. rewrite L, Z in A. pose proof (part_nonneg p (k - 1) (proj2 P)). lia.
  - intros H. destruct (opening_decides v k) as [B | B].
    + assert (F : Forall (fun x => 0 <= x) (v_release v)) by apply O.
      assert (N : part (v_release v) (k - 1) <> 0) by tauto. pose proof (part_nonneg _ (k - 1) F) as M.
      set (p := parts_upto (v_release v) (k - 1) ++ [part (v_release v) (k - 1) - 1]).
      assert (L : List.length p = k) by (unfold p; rewrite app_length, upto_length; cbn; lia).
      assert (P : stem p).
      { split; [unfold p; intros X; now apply app_eq_nil in X as [_ X] |]. unfold p. apply Forall_app. split; [| repeat constructor; lia].
        apply Forall_forall. intros x I. apply in_map_iff in I as (n & <- & _). now apply part_nonneg. }
      exists (v_epoch v), p. split; [exact P |]. split; [exact L |]. apply (selects_which _ p v P O). split; [reflexivity |]. right.
      rewrite L. split; [exact B |]. split.
      * intros n Q. rewrite L in Q. unfold p, part. rewrite app_nth1 by (rewrite upto_length; lia). symmetry. apply part_upto. lia.
      * rewrite L. unfold p, part at 2. rewrite app_nth2 by (rewrite upto_length; lia). rewrite upto_length, Nat.sub_diag. cbn [nth]. lia.
    + assert (P : stem (parts_upto (v_release v) k)) by (apply upto_stem; [apply O | exact K]).
      exists (v_epoch v), (parts_upto (v_release v) k). split; [exact P |]. rewrite upto_length. split; [reflexivity |].
      apply (selects_which _ _ v P O). rewrite upto_length. split; [reflexivity |]. left. split; [exact B |].
      intros n Q. rewrite upto_length in Q. now rewrite part_upto.
Qed.

(** ** Other operators *)

Lemma same_cmp w w' : v_eq w w' = true -> forall v, (v_le w v = v_le w' v) /\ (v_lt v w = v_lt v w').
Proof.
  intros E v. destruct total_order as (_ & LE & _ & _ & _ & _ & _ & _ & SY & TR & C). destruct (C w w' v E) as [C1 C2]. split; [| exact C2].
  rewrite !LE, C1. f_equal. destruct (v_eq w v) eqn:A, (v_eq w' v) eqn:B; auto.
  - rewrite SY in E. rewrite (TR w' w v E A) in B. discriminate.
  - rewrite (TR w w' v E B) in A. discriminate.
Qed.

Lemma bare_same e r s : r <> [] -> s <> [] -> rel_same r s -> v_eq (bare e r) (bare e s) = true.
Proof. intros R S E. apply eq_same; [now apply bare_valid | now apply bare_valid |]. repeat split; auto. Qed.

Lemma part_padded (p : list Z) n : part (p ++ [0]) n = part p n.
Proof.
  unfold part. destruct (Nat.lt_ge_cases n (List.length p)) as [H | H].
  - now rewrite app_nth1.
  - rewrite app_nth2 by exact H. rewrite (nth_overflow p) by exact H. destruct (n - List.length p)%nat as [| [| m]]; reflexivity.
Qed.

Lemma alike e r s t u i : r <> [] -> s <> [] -> rel_same r s -> breaks (bare e r) t (Increased i) -> breaks (bare e s) u (Increased i) ->
  forall v, op_matches t v (bare e r) = Ok true <-> op_matches u v (bare e s) = Ok true.
Proof.
  intros R S E A B v. destruct (breaks_bound (bare e r) t _ (bare_valid e r R) A) as (a & Ba & Ha), (breaks_bound (bare e s) u _ (bare_valid e s S) B) as (b & Bb & Hb).
  rewrite Ha, Hb. cbn [bound_of bare v_release v_epoch] in *.
  destruct (same_cmp _ _ (bare_same e r s R S E) v) as [-> _].
  destruct (same_cmp (bare e a) (bare e b) (bare_same e a b (bumped_nonempty _ _ _ Ba) (bumped_nonempty _ _ _ Bb) (bumped_same _ _ _ _ _ E Ba Bb)) v) as [_ ->].
  reflexivity.
Qed.

Theorem same_operators e p v : p <> [] ->
  (op_matches TILDE_EQUAL v (bare e (p ++ [0])) = Ok true <-> selects e p v)
  /\ ((List.length p <= 2)%nat -> op_matches TILDE v (bare e p) = Ok true <-> selects e p v)
  /\ (breaking_index p = (List.length p - 1)%nat -> op_matches CARET v (bare e p) = Ok true <-> selects e p v).
Proof.
  intros N. assert (L : (0 < List.length p)%nat) by (destruct p; [congruence | cbn; lia]).
  assert (L' : List.length (p ++ [0]) = S (S (List.length p - 1))) by (rewrite app_length; cbn; lia).
  assert (N' : p ++ [0] <> []) by (destruct p; discriminate).
  assert (F : forall r, final (bare e r)) by (intros r; split; reflexivity).
  assert (W : breaks (bare e (p ++ [0])) WILDCARD_DOUBLE_EQUAL (Increased (List.length p - 1))) by (apply wildcard_release; auto).
  assert (E : rel_same p (p ++ [0])) by (intros n; now rewrite part_padded).
  unfold selects. split; [| split].
  - apply (alike e (p ++ [0]) (p ++ [0]) TILDE_EQUAL WILDCARD_DOUBLE_EQUAL (List.length p - 1)); auto; [intros n; reflexivity | now apply tilde_equal].
  - intros K. apply (alike e p (p ++ [0]) TILDE WILDCARD_DOUBLE_EQUAL (List.length p - 1)); auto.
    pose proof (tilde_final (bare e p) (F p)) as T. cbn [bare v_release] in T. replace (Nat.min 1 (List.length p - 1)) with (List.length p - 1)%nat in T by lia. exact T.
  - intros K. apply (alike e p (p ++ [0]) CARET WILDCARD_DOUBLE_EQUAL (List.length p - 1)); auto.
    rewrite <- K. exact (caret_final (bare e p) (F p)).
Qed.
