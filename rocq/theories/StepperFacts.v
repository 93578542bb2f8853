(** Proofs about [Stepper.v]. *)

From Coq Require Import List ZArith NArith String Bool Lia.
From Verif Require Import Py Segments Version VersionSets Stepper.
Import ListNotations.

Local Opaque item_difference is_strictly_lower is_strictly_higher is_higher.

(** What is left to consume. *)
Definition left_over (d : dstate) : nat := (List.length (d_items d) + List.length (d_others d))%nat.

Lemma next_other_left d d' : next_other_current d = (d', true) -> S (left_over d') = left_over d.
Proof.
  unfold next_other_current, next_or_none, left_over. destruct (d_others d) as [|o os] eqn:E; cbn; intros H; inversion H; subst; cbn. lia.
Qed.

Lemma next_current_left b d d' : next_current b d = (d', true) -> S (left_over d') = left_over d.
Proof.
  unfold next_current, next_or_none, left_over. destruct (d_items d) as [|o os] eqn:E; cbn; intros H; inversion H; subst; cbn. lia.
Qed.

Lemma d_step_left d d' : d_step d = Ok (d', true) -> S (left_over d') = left_over d.
Proof.
  unfold d_step. destruct (d_current d) as [c|]; [|discriminate]. destruct (d_other d) as [o|]; [|discriminate].
  destruct (is_strictly_lower o c).
  { intros H; inversion H as [H1]. now apply next_other_left. }
  destruct (is_strictly_higher o c).
  { intros H; inversion H as [H1]. now apply next_current_left with true. }
  destruct (item_difference c o) as [[|i|items]|e]; cbn [bind]; try discriminate.
  - intros H; inversion H as [H1]. now apply next_current_left with false.
  - destruct (is_higher i o); intros H; inversion H as [H1].
    + apply next_other_left in H1. exact H1.
    + apply next_current_left in H1. exact H1.
  - destruct items as [|l [|r [|x xs]]]; try discriminate. intros H; inversion H as [H1]. apply next_other_left in H1. exact H1.
Qed.

Lemma loop_same fuel : forall d, st_loop fuel (Stepper d true) = rmap (fun d' => Stepper d' true) (d_loop fuel d).
Proof.
  induction fuel as [|fuel IH]; intros d; cbn [st_loop d_loop]; [reflexivity|].
  unfold st_step, check_prepared, is_not_prepared. cbn [st_prepared negb bind st_state].
  destruct (d_step d) as [[d' []]|e]; cbn [bind fst snd rmap]; auto.
Qed.

Lemma prepare_new items others :
  st_prepare (stepper_new items others)
  = Ok (Stepper (DState (snd (next_or_none items)) (snd (next_or_none others)) (fst (next_or_none items)) (fst (next_or_none others)) []) true).
Proof. unfold st_prepare, stepper_new. cbn. destruct items, others; reflexivity. Qed.

Theorem compute_new items others :
  rmap snd (st_compute (stepper_new items others)) = items_difference items others.
Proof.
  unfold st_compute. rewrite prepare_new. cbn [bind]. rewrite loop_same. unfold items_difference, st_fuel, stepper_new. cbn [st_state d_items d_others].
  destruct (next_or_none items) as [c is] eqn:A, (next_or_none others) as [o os] eqn:B. cbn [fst snd].
  destruct (d_loop _ _) as [d|e]; reflexivity.
Qed.

Lemma loop_prepared fuel s q : st_loop fuel s = Ok q -> st_prepared q = true.
Proof.
  revert s. induction fuel as [|fuel IH]; intros [d p]; cbn [st_loop]; [discriminate|].
  unfold st_step, check_prepared, is_not_prepared. cbn [st_prepared st_state].
  destruct p; cbn [negb bind]; [|discriminate]. destruct (d_step d) as [[d' []]|e]; cbn [bind fst snd]; [|intros H; inversion H; reflexivity|discriminate].
  apply IH.
Qed.

Theorem compute_once s q r : st_compute s = Ok (q, r) ->
  st_prepared s = false /\ r = st_result q /\ st_compute q = Err ValueError /\ st_prepare q = Err ValueError.
Proof.
  unfold st_compute. destruct (st_prepare s) as [p|e] eqn:P; [|discriminate]. cbn [bind].
  destruct (st_loop (st_fuel s) p) as [q'|e] eqn:L; [|discriminate]. cbn [bind]. intros H. inversion H; subst q' r.
  apply loop_prepared in L. unfold st_prepare, check_not_prepared, is_prepared in *. rewrite L. cbn [bind]. split; auto. now destruct (st_prepared s).
Qed.

Theorem unprepared items others : let s := stepper_new items others in
  st_step s = Err ValueError /\ (forall n, st_loop (S n) s = Err ValueError)
  /\ exists p, st_prepare s = Ok p /\ is_prepared p = true /\ st_prepare p = Err ValueError.
Proof.
  cbv zeta. split; [reflexivity|]. split; [reflexivity|]. rewrite prepare_new. eexists. split; [reflexivity|]. split; reflexivity.
Qed.

(** Steps that asked to continue. *)
Inductive steps : stepper -> stepper -> Prop :=
| steps_none s : steps s s
| steps_more s s' q : st_step s = Ok (s', true) -> steps s' q -> steps s q.

Lemma steps_loop s q r : steps s q -> st_step q = Ok (r, false) -> forall fuel, (left_over (st_state s) < fuel)%nat -> st_loop fuel s = Ok r.
Proof.
  intros H E. induction H as [s|s s' q H _ IH]; intros [|fuel] F; try lia; cbn [st_loop].
  - rewrite E. reflexivity.
  - rewrite H. cbn [bind fst snd]. apply IH; auto.
    unfold st_step in H. destruct (check_prepared s) as [u|e]; [|discriminate]. cbn [bind] in H.
    destruct (d_step (st_state s)) as [[d b]|e] eqn:D; [|discriminate]. cbn [bind fst snd] in H. inversion H; subst s' b. cbn [st_state].
    apply d_step_left in D. lia.
Qed.

Theorem by_hand items others p q r : st_prepare (stepper_new items others) = Ok p -> steps p q -> st_step q = Ok (r, false) ->
  items_difference items others = Ok (st_result r).
Proof.
  intros P S E. rewrite <- compute_new. unfold st_compute. rewrite P. cbn [bind]. rewrite (steps_loop p q r S E).
  - reflexivity.
  - rewrite prepare_new in P. inversion P. unfold left_over, st_fuel, stepper_new. cbn [st_state d_items d_others].
    destruct items, others; cbn; lia.
Qed.

(** The number of steps. *)
Inductive step_count : stepper -> stepper -> nat -> Prop :=
| count_none s : step_count s s O
| count_more s s' q n : st_step s = Ok (s', true) -> step_count s' q n -> step_count s q (S n).

Lemma st_step_left s s' : st_step s = Ok (s', true) -> S (left_over (st_state s')) = left_over (st_state s).
Proof.
  intros H. unfold st_step in H. destruct (check_prepared s) as [u|e]; [|discriminate]. cbn [bind] in H.
  destruct (d_step (st_state s)) as [[d b]|e] eqn:D; [|discriminate]. cbn [bind fst snd] in H. inversion H; subst s' b. cbn [st_state].
  exact (d_step_left _ _ D).
Qed.

Lemma count_left s q n : step_count s q n -> (n + left_over (st_state q) = left_over (st_state s))%nat.
Proof. induction 1 as [|s s' q n H _ IH]; [reflexivity|]. apply st_step_left in H. lia. Qed.

Theorem steps_bound items others p q n : st_prepare (stepper_new items others) = Ok p -> step_count p q n ->
  (n < List.length items + List.length others \/ n = 0)%nat.
Proof.
  intros P H. apply count_left in H. rewrite prepare_new in P. inversion P; subst p. unfold left_over at 2 in H. cbn [st_state d_items d_others] in H.
  destruct items, others; cbn in *; lia.
Qed.
