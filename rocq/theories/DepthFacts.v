(** The depth of recursion allowed does not matter, whatever the items. *)

From Coq Require Import List ZArith NArith Bool Lia.
From Verif Require Import Py Version VersionSets LoopFacts.
Import ListNotations.

Definition at_once (r : result vset) : result vset :=
  bind r (fun r => match r with Item i => Ok (Item i) | _ => Err InternalError end).

Definition in_order (s o : item) : item * item := if item_lt o s then (o, s) else (s, o).

Lemma in_order_again s o x y : in_order s o = (x, y) -> in_order x y = (x, y).
Proof.
  unfold in_order. destruct (item_lt o s) eqn:E; intros [= <- <-]; [|now rewrite E].
  now rewrite (lt_false_flip _ _ E).
Qed.

Lemma union_step s o : (exists r, forall f, item_union (S f) s o = r)
  \/ forall f, item_union (S f) s o = merge_with (item_union f) [Item s; Item o].
Proof.
  destruct s as [v|smin smax simin simax], o as [w|omin omax oimin oimax].
  - cbn [item_union]. destruct (v_eq v w); [left; now eexists|now right].
  - cbn [item_union]. destruct (item_contains _ v); [left; now eexists|now right].
  - cbn [item_union]. destruct (item_contains _ w); [left; now eexists|].
    destruct (o_eq (Some w) smin); [left; now eexists|]. destruct (o_eq (Some w) smax); [left; now eexists|now right].
  - cbn [item_union]. destruct (_ && _); [now right|left; now eexists].
Qed.

Lemma merge_pair s o x y : in_order s o = (x, y) -> (exists r, forall u, merge_with u [Item s; Item o] = r)
  \/ forall u, merge_with u [Item s; Item o] = at_once (u x y).
Proof.
  intros O. unfold merge_with. cbn [flat_map extract app]. destruct (existsb item_is_universal [s; o]); [left; now eexists|].
  assert (E : sort [s; o] = [x; y]). { unfold in_order in O. cbn [sort fold_right insert]. destruct (item_lt o s); now injection O as <- <-. }
  rewrite E. cbn [merge_loop]. destruct (_ || _).
  - right. intros u. unfold at_once. destruct (u x y) as [[|i|l]|]; reflexivity.
  - left. eexists. intros u. reflexivity.
Qed.

Lemma endless s o : in_order s o = (s, o) -> (forall f, item_union (S f) s o = at_once (item_union f s o)) -> forall f, item_union f s o = Err RecursionError.
Proof. intros O H f. induction f as [|f IH]; [reflexivity|]. rewrite H, IH. reflexivity. Qed.

Lemma in_order_depth s o : in_order s o = (s, o) -> exists r, forall f, item_union (S f) s o = r.
Proof.
  intros O. destruct (union_step s o) as [H|H]; [exact H|]. destruct (merge_pair s o s o O) as [[r M]|M].
  - exists r. intros f. now rewrite H.
  - exists (Err RecursionError). intros f. apply endless; [exact O|]. intros g. now rewrite H.
Qed.

Lemma any_depth s o : exists r, forall f, item_union (S (S f)) s o = r.
Proof.
  destruct (union_step s o) as [[r H]|H]; [exists r; intros f; apply H|].
  destruct (in_order s o) as [x y] eqn:O. destruct (merge_pair s o x y O) as [[r M]|M].
  - exists r. intros f. now rewrite H.
  - destruct (in_order_depth x y (in_order_again _ _ _ _ O)) as [r R]. exists (at_once r). intros f. now rewrite H, M, R.
Qed.

Lemma merge_loop_ext u u' rest : (forall s o, u s o = u' s o) -> forall cur, merge_loop u cur rest = merge_loop u' cur rest.
Proof.
  intros E. induction rest as [|x rest IH]; intros cur; cbn [merge_loop]; [reflexivity|]. rewrite E, IH.
  destruct (_ || _); [|reflexivity]. destruct (u' cur x) as [[|i|l]|]; cbn [bind]; auto.
Qed.

Lemma merge_with_ext u u' sets : (forall s o, u s o = u' s o) -> merge_with u sets = merge_with u' sets.
Proof.
  intros E. unfold merge_with. destruct (flat_map extract sets); [reflexivity|]. destruct (existsb _ _); [reflexivity|].
  destruct (sort _); [reflexivity|]. now rewrite (merge_loop_ext u u').
Qed.

Lemma union_any_depth d e s o : item_union (S (S d)) s o = item_union (S (S e)) s o.
Proof. destruct (any_depth s o) as [r H]. now rewrite !H. Qed.

Lemma merge_any_depth d e sets : merge_with (item_union (S (S d))) sets = merge_with (item_union (S (S e))) sets.
Proof. apply merge_with_ext. intros s o. apply union_any_depth. Qed.

Lemma depth_any d s o sets : union (Item s) (Item o) = item_union (S (S d)) s o /\ merge sets = merge_with (item_union (S (S d))) sets.
Proof. exact (conj (union_any_depth 298 d s o) (merge_any_depth 298 d sets)). Qed.
