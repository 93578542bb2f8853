(** Version ranges as half-open intervals of cuts.  A cut is a place between
    versions: just before or just after all versions with some key, or at
    either end.  Used only in proofs. *)

From Coq Require Import List ZArith NArith Bool.
From Verif Require Import Py Segments Version VersionSets Orders.
Import ListNotations.

#[global] Arguments key : simpl never.
#[global] Arguments key_cmp : simpl never.

Definition cut := ext (vkey * bool).

Definition bool_cmp (a b : bool) : comparison :=
  match a, b with false, true => Lt | true, false => Gt | _, _ => Eq end.

Definition pos_cmp (x y : vkey * bool) : comparison :=
  then_cmp (key_cmp (fst x) (fst y)) (bool_cmp (snd x) (snd y)).

Definition ccmp : cut -> cut -> comparison := ext_cmp pos_cmp.

Lemma lawful_bool : lawful bool_cmp.
Proof.
  split.
  - intros [] []; cbn; split; congruence.
  - intros [] []; reflexivity.
  - intros [] [] []; cbn; congruence.
Qed.

Lemma lawful_pos : lawful pos_cmp.
Proof.
  apply (lawful_then key_cmp bool_cmp fst snd lawful_key lawful_bool).
  intros [] []; cbn; congruence.
Qed.

Lemma lawful_cut : lawful ccmp.
Proof. apply lawful_ext, lawful_pos. Qed.

Definition clt (x y : cut) : Prop := ccmp x y = Lt.
Definition cle (x y : cut) : Prop := ccmp x y <> Gt.

Lemma clt_irrefl x : ~ clt x x.
Proof. unfold clt. rewrite (cmp_refl lawful_cut). congruence. Qed.
Lemma clt_trans x y z : clt x y -> clt y z -> clt x z.
Proof. apply (law_trans lawful_cut). Qed.
Lemma cle_refl x : cle x x.
Proof. unfold cle. rewrite (cmp_refl lawful_cut). congruence. Qed.
Lemma cle_lt_eq x y : cle x y <-> clt x y \/ x = y.
Proof.
  unfold cle, clt. rewrite <- (law_eq lawful_cut).
  destruct (ccmp x y); split; intuition congruence.
Qed.
Lemma clt_le x y : clt x y -> cle x y.
Proof. unfold clt, cle. congruence. Qed.
Lemma clt_le_trans x y z : clt x y -> cle y z -> clt x z.
Proof. rewrite cle_lt_eq. intros H [H2| ->]; eauto using clt_trans. Qed.
Lemma cle_lt_trans x y z : cle x y -> clt y z -> clt x z.
Proof. rewrite cle_lt_eq. intros [H1| ->] H; eauto using clt_trans. Qed.
Lemma cle_trans x y z : cle x y -> cle y z -> cle x z.
Proof.
  rewrite !cle_lt_eq. intros [H1| ->] [H2| ->]; eauto using clt_trans.
Qed.
Lemma cle_antisym x y : cle x y -> cle y x -> x = y.
Proof.
  rewrite !cle_lt_eq. intros [H1| ->] [H2|H2]; auto.
  exfalso. eapply clt_irrefl. eauto using clt_trans.
Qed.
Lemma not_clt x y : ~ clt x y <-> cle y x.
Proof.
  unfold clt, cle. rewrite (law_anti lawful_cut x y).
  destruct (ccmp x y); cbn; split; intuition congruence.
Qed.
Lemma not_cle x y : ~ cle x y <-> clt y x.
Proof.
  unfold clt, cle. rewrite (law_anti lawful_cut x y).
  destruct (ccmp x y); cbn; split; intuition congruence.
Qed.
Lemma clt_total x y : clt x y \/ x = y \/ clt y x.
Proof.
  destruct (ccmp x y) eqn:E.
  - apply (cmp_eq lawful_cut) in E. auto.
  - auto.
  - apply (cmp_gt_lt lawful_cut) in E. auto.
Qed.
Lemma clt_cle_dec x y : clt x y \/ cle y x.
Proof. destruct (clt_total x y) as [|[->|]]; auto using cle_refl, clt_le. Qed.

Lemma eq_cles (x y : cut) : x = y -> cle x y /\ cle y x.
Proof. intros ->. split; apply cle_refl. Qed.

(** Decides consequences of order facts: a contradiction is a cycle through
    a strict fact. *)
Ltac cnorm :=
  repeat match goal with
  | H : ~ clt _ _ |- _ => apply not_clt in H
  | H : ~ cle _ _ |- _ => apply not_cle in H
  | H : _ /\ _ |- _ => destruct H
  | H : _ = _ |- _ => apply eq_cles in H
  end.

Ltac cpath :=
  lazymatch goal with
  | |- cle ?a ?a => apply cle_refl
  | |- cle ?a ?b =>
      match goal with
      | H : cle a ?z |- _ => apply (cle_trans a z b H); clear H; cpath
      | H : clt a ?z |- _ => apply (cle_trans a z b (clt_le _ _ H)); clear H; cpath
      end
  end.

Ltac csat :=
  match goal with
  | H : clt ?x ?y |- _ =>
      exfalso; apply (clt_irrefl x); apply (clt_le_trans x y x H); cpath
  end.

Ltac corder :=
  intros; cnorm;
  match goal with
  | |- ~ clt ?x ?y => apply not_clt
  | |- ~ cle ?x ?y => apply not_cle
  | _ => idtac
  end;
  match goal with
  | |- clt ?x ?y =>
      let H := fresh in
      destruct (clt_cle_dec x y) as [H|H]; [exact H|exfalso; csat]
  | |- cle ?x ?y =>
      let H := fresh in
      destruct (clt_cle_dec y x) as [H|H]; [exfalso; csat|exact H]
  | |- False => csat
  | |- ?x = ?y =>
      let H := fresh in
      destruct (clt_total x y) as [H|[H|H]]; [exfalso; csat|exact H|exfalso; csat]
  | |- _ => exfalso; csat
  end.

(** Ends of an item. *)
Definition lo (i : item) : cut :=
  match i_min i with None => NegInf | Some v => Fin (key v, i_exclude_min i) end.
Definition hi (i : item) : cut :=
  match i_max i with None => PosInf | Some v => Fin (key v, i_include_max i) end.
Definition at_version (v : version) : cut := Fin (key v, false).

(** What the range constructor checks. *)
Definition valid_item (i : item) : Prop :=
  match i with
  | Point _ => True
  | Range min max imin imax =>
      (min = None -> imin = false) /\ (max = None -> imax = false)
      /\ b_cmp (lower_bound min) (upper_bound max) <> Gt
  end.

(** A point, or a range with its bounds strictly apart. *)
Definition proper (i : item) : Prop :=
  match i with
  | Point _ => True
  | Range min max imin imax =>
      (min = None -> imin = false) /\ (max = None -> imax = false)
      /\ b_cmp (lower_bound min) (upper_bound max) = Lt
  end.

Lemma proper_valid i : proper i -> valid_item i.
Proof. destruct i; cbn; intuition congruence. Qed.

Ltac unflag :=
  repeat match goal with
  | H : None = None -> _ |- _ => specialize (H eq_refl); subst
  | H : Some _ = None -> _ |- _ => clear H
  | H : _ /\ _ |- _ => destruct H
  end.

Ltac crush_items :=
  intros; cbn in *;
  repeat match goal with
  | i : item |- _ => destruct i as [?|[?|] [?|] [] []]
  end;
  cbn in *; unflag; try discriminate;
  unfold is_lower, is_higher, is_strictly_lower, is_strictly_higher, is_left_adjacent,
    is_right_adjacent, item_contains, item_eqb, item_compare, item_is_empty, item_is_point,
    is_empty_or_point, is_closed, is_left_closed, is_right_closed, item_is_universal, is_unbounded, is_left_unbounded, is_right_unbounded, comparable_min, comparable_max,
    lo, hi, b_cmp, v_eq, v_cmp, at_version, i_exclude_min, i_exclude_max in *; cbn in *;
  unfold pos_cmp, v_eq, v_cmp in *; cbn in *;
  repeat match goal with
  | |- context [key_cmp ?a ?b] => destruct (key_cmp a b) eqn:?
  end; cbn in *; try reflexivity; try congruence.

Lemma is_lower_cut s o : valid_item s -> valid_item o -> is_lower s o = is_lt (ccmp (lo s) (lo o)).
Proof. crush_items. Qed.

Lemma is_higher_cut s o : valid_item s -> valid_item o -> is_higher s o = is_gt (ccmp (hi s) (hi o)).
Proof. crush_items. Qed.

Lemma is_strictly_lower_cut s o :
  valid_item s -> valid_item o -> is_strictly_lower s o = negb (is_gt (ccmp (hi s) (lo o))).
Proof. crush_items. Qed.

Lemma is_strictly_higher_cut s o :
  valid_item s -> valid_item o -> is_strictly_higher s o = negb (is_lt (ccmp (lo s) (hi o))).
Proof. crush_items. Qed.

Lemma is_left_adjacent_cut s o :
  valid_item s -> valid_item o -> is_left_adjacent s o = is_eq (ccmp (hi s) (lo o)).
Proof. crush_items. Qed.

Lemma is_right_adjacent_cut s o :
  valid_item s -> valid_item o -> is_right_adjacent s o = is_eq (ccmp (lo s) (hi o)).
Proof. crush_items. Qed.

Lemma item_eqb_cut s o :
  valid_item s -> valid_item o ->
  item_eqb s o = is_eq (ccmp (lo s) (lo o)) && is_eq (ccmp (hi s) (hi o)).
Proof. crush_items. Qed.

Lemma item_compare_cut s o :
  valid_item s -> valid_item o ->
  item_compare s o = then_cmp (ccmp (lo s) (lo o)) (ccmp (hi s) (hi o)).
Proof. crush_items. Qed.

Lemma item_universal_cut i :
  valid_item i -> item_is_universal i = is_eq (ccmp (lo i) NegInf) && is_eq (ccmp (hi i) PosInf).
Proof. crush_items. Qed.

Lemma v_cmp_key v w : v_cmp v w = key_cmp (key v) (key w).
Proof. reflexivity. Qed.

Lemma item_contains_cut i v :
  valid_item i ->
  item_contains i v = is_gt (ccmp (hi i) (at_version v)) && negb (is_gt (ccmp (lo i) (at_version v))).
Proof.
  intros V. destruct i as [w|min max imin imax].
  - crush_items.
  - unfold item_contains, comparable_min, comparable_max, b_cmp, lo, hi, at_version, ccmp, pos_cmp,
      i_exclude_min, i_exclude_max.
    destruct V as (V1 & V2 & _).
    destruct min as [m|], max as [M|]; cbn -[key_cmp v_cmp]; unflag; rewrite ?v_cmp_key;
    try (rewrite (law_anti lawful_key (key m) (key v));
         destruct (key_cmp (key m) (key v)));
    try (rewrite (law_anti lawful_key (key M) (key v));
         destruct (key_cmp (key M) (key v)));
    try destruct imin; try destruct imax; reflexivity.
Qed.
