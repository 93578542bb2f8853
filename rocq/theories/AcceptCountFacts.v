(** How often the answers of specifiers compare versions. *)

From Coq Require Import List ZArith Bool Lia.
From Verif Require Import Py Version Operators Specifiers SpecifierFacts Spec BumpFacts OperatorFacts BumpLeast Counts CountSpec CountFacts AcceptCounts.
Import ListNotations.
Local Open Scope nat_scope.

Lemma costs_attempt {A B} (m : counted (result A)) (f : A -> counted (result B)) r g n k : costs m r n ->
  (forall a, costs (f a) (g a) k) -> costs (attempt m f) (bind r g) (n + k).
Proof.
  intros [<- H] K. unfold attempt, costs, next. cbn [fst snd]. destruct (fst m) as [a|e]; cbn [bind].
  - destruct (K a) as [L M]. split; [exact L|lia].
  - split; [reflexivity|]. cbn [free snd]. lia.
Qed.

Lemma between_cost a v u : costs (between_c a v u) (between a v u) 2.
Proof.
  unfold between_c, between. change 2 with (1 + 1). eapply costs_next; [apply costs_once|]. destruct (v_le a v).
  - change 1 with (0 + 1). apply costs_attempt; [apply costs_free|]. intros w. apply costs_once.
  - eapply costs_le; [apply costs_free|lia].
Qed.
Lemma wildcard_cost v w : costs (matches_wildcard_equal_c v w) (matches_wildcard_equal v w) 2.
Proof.
  unfold matches_wildcard_equal_c, matches_wildcard_equal. change 2 with (0 + 2). apply costs_attempt; [apply costs_free|]. intros [u|]; [apply between_cost|].
  eapply costs_le; [apply costs_free|lia].
Qed.
Theorem op_matches_cost t v w : costs (op_matches_c t v w) (op_matches t v w) 2.
Proof.
  destruct t; cbn [op_matches_c op_matches]; try apply between_cost; try apply wildcard_cost; try (eapply costs_le; [apply costs_once|lia]).
  unfold matches_wildcard_not_equal. change 2 with (2 + 0). apply costs_attempt; [apply wildcard_cost|]. intros b. apply costs_free.
Qed.

Section Members.
  Context (f : spec -> result bool) (g : spec -> counted (result bool)).
  Lemma any_cost ss : Forall (fun s => costs (g s) (f s) (2 * members s)) ss -> costs (any_rc g ss) (any_r f ss) (2 * fold_right (fun s n => members s + n) 0 ss).
  Proof.
    induction 1 as [|s ss H _ IH]; [apply costs_free|]. cbn [any_rc any_r fold_right]. rewrite Nat.mul_add_distr_l. apply costs_attempt; [exact H|].
    intros [|]; [eapply costs_le; [apply costs_free|lia]|exact IH].
  Qed.
  Lemma all_cost ss : Forall (fun s => costs (g s) (f s) (2 * members s)) ss -> costs (all_rc g ss) (all_r f ss) (2 * fold_right (fun s n => members s + n) 0 ss).
  Proof.
    induction 1 as [|s ss H _ IH]; [apply costs_free|]. cbn [all_rc all_r fold_right]. rewrite Nat.mul_add_distr_l. apply costs_attempt; [exact H|].
    intros [|]; [exact IH|eapply costs_le; [apply costs_free|lia]].
  Qed.
End Members.

Theorem accepts_cost s v : costs (accepts_c s v) (accepts s v) (2 * members s).
Proof.
  induction s as [| |t w|ss IH|ss IH] using spec_members; cbn [accepts_c accepts].
  - eapply costs_le; [apply costs_free|lia].
  - eapply costs_le; [apply costs_free|lia].
  - apply op_matches_cost.
  - eapply costs_le; [exact (any_cost _ _ ss IH)|]. destruct ss; cbn [members fold_right]; lia.
  - eapply costs_le; [exact (all_cost _ _ ss IH)|]. destruct ss; cbn [members fold_right]; lia.
Qed.

(** Exactly. *)
Lemma between_exact a v u b : between a v u = Ok b -> snd (between_c a v u) = first_settles (v_lt v a).
Proof.
  unfold between, between_c, next, once. cbn [fst snd]. destruct (v_le a v) eqn:L.
  - apply le_not_lt in L. rewrite L. destruct u as [u|e]; [reflexivity|discriminate].
  - destruct (v_lt v a) eqn:K; [reflexivity|]. apply le_not_lt in K. congruence.
Qed.

Lemma wildcard_exact v w : valid_version w = true ->
  snd (matches_wildcard_equal_c v w) = if is_stable w && negb (is_post_release w) && (List.length (v_release w) =? 1) then 0 else first_settles (v_lt v w).
Proof.
  intros V. unfold matches_wildcard_equal_c, attempt, next. cbn [fst snd free].
  assert (P : is_post_release w = match v_post w with Some _ => true | None => false end) by (unfold is_post_release; now destruct (v_post w)).
  destruct (next_wildcard_shape w V) as [(S & Q & L & ->)|[(S & Q & L & r & -> & _)|[(S & Q & r & -> & _)|(S & ->)]]].
  - rewrite S, P, Q, L. reflexivity.
  - rewrite S, P, Q. replace (List.length (v_release w) =? 1) with false by (symmetry; apply Nat.eqb_neq; lia). cbn [andb negb].
    destruct (v_le w v) eqn:E; (eapply between_exact; unfold between; rewrite E; reflexivity).
  - rewrite S, P. destruct (v_post w); [|congruence]. cbn [andb negb]. destruct (v_le w v) eqn:E; (eapply between_exact; unfold between; rewrite E; reflexivity).
  - rewrite S. cbn [andb]. destruct (v_le w v) eqn:E; (eapply between_exact; unfold between; rewrite E; reflexivity).
Qed.

Theorem op_matches_exact t v w : op_made t w ->
  snd (op_matches_c t v w) = match t with
    | CARET | TILDE | TILDE_EQUAL => first_settles (v_lt v w)
    | WILDCARD_EQUAL | WILDCARD_DOUBLE_EQUAL | WILDCARD_NOT_EQUAL =>
        if is_stable w && negb (is_post_release w) && (List.length (v_release w) =? 1) then 0 else first_settles (v_lt v w)
    | _ => 1
    end.
Proof.
  intros M. destruct (op_matches_sat t w v M) as (b & E & _). destruct M as [V _].
  destruct t; cbn [op_matches_c op_matches] in *; try reflexivity; try exact (between_exact _ _ _ _ E); try exact (wildcard_exact v w V).
  rewrite <- (wildcard_exact v w V). unfold attempt at 1, next at 1. cbn [snd]. destruct (fst (matches_wildcard_equal_c v w)); cbn [free snd]; lia.
Qed.

(** The first member that settles a group is the last one asked. *)
Theorem first_asked s ss v :
  (accepts s v = Ok true -> accepts_c (AnyOf (s :: ss)) v = accepts_c s v) /\ (accepts s v = Ok false -> accepts_c (AllOf (s :: ss)) v = accepts_c s v).
Proof.
  destruct (accepts_cost s v) as [E _]. split; intros A; cbn [accepts_c any_rc all_rc]; unfold attempt, next; rewrite E, A; cbn [free fst snd];
    rewrite Nat.add_0_r; rewrite <- A, <- E; symmetry; apply surjective_pairing.
Qed.
