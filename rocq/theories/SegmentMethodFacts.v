(** Segments updated and bumped by themselves. *)

From Coq Require Import List ZArith NArith Lia Bool.
From Verif Require Import Py Segments Version Orders Spec OrderFacts BumpFacts AccessFacts RichFacts Padding PadFacts SegmentMethods.
Import ListNotations.
Open Scope Z_scope.

Lemma set_alone r i x : r <> [] -> 0 <= i -> exists r', rel_set_at r i x = Ok r' /\ List.length r' = Nat.max (List.length r) (S (Z.to_nat i))
  /\ forall n, part r' n = if (n =? Z.to_nat i)%nat then x else part r n.
Proof. intros N H. destruct (set_at_spec r i x N H) as (r' & E & _ & L & P). exists r'. now split. Qed.

Lemma sets_alone r x : r <> [] ->
  (exists r', rel_set_major r x = Ok r' /\ List.length r' = List.length r /\ forall n, part r' n = match n with O => x | _ => part r n end)
  /\ (exists r', rel_set_minor r x = Ok r' /\ List.length r' = Nat.max (List.length r) 2 /\ forall n, part r' n = match n with 1%nat => x | _ => part r n end)
  /\ (exists r', rel_set_micro r x = Ok r' /\ rel_set_patch r x = Ok r' /\ List.length r' = Nat.max (List.length r) 3
      /\ forall n, part r' n = match n with 2%nat => x | _ => part r n end).
Proof.
  intros N. split; [|split].
  - destruct (set_alone r MAJOR x N) as (r' & E & L & P); [discriminate|]. exists r'. split; [exact E|]. split; [rewrite L; destruct r; [congruence|cbn; lia]|].
    intros n. rewrite P. now destruct n.
  - destruct (set_alone r MINOR x N) as (r' & E & L & P); [discriminate|]. exists r'. split; [exact E|]. split; [exact L|]. intros n. rewrite P. now destruct n as [|[|n]].
  - destruct (set_alone r MICRO x N) as (r' & E & L & P); [discriminate|]. exists r'. split; [exact E|]. split; [exact E|]. split; [exact L|].
    intros n. rewrite P. now destruct n as [|[|[|n]]].
Qed.

Lemma next_alone r i : r <> [] -> 0 <= i -> exists r', rel_next_at r i = Ok r' /\ List.length r' = Nat.max (List.length r) (S (Z.to_nat i))
  /\ (forall n, part r' n = if (n <? Z.to_nat i)%nat then part r n else if (n =? Z.to_nat i)%nat then part r n + 1 else 0).
Proof.
  intros N H. destruct (next_at_with_spec r i 0 0 N H) as (r' & E & L & P & Q & R). exists r'. split; [exact E|]. split; [exact L|].
  intros n. destruct (Nat.ltb_spec n (Z.to_nat i)); [now apply P|]. destruct (Nat.eqb_spec n (Z.to_nat i)) as [->|].
  - rewrite Q. destruct (Z.ltb_spec i (len r)) as [_|G]; [reflexivity|]. unfold part, len in *. rewrite (nth_overflow r) by lia. reflexivity.
  - destruct (Nat.ltb_spec n (List.length r)); [apply R; lia|]. unfold part. rewrite nth_overflow by lia. reflexivity.
Qed.

Lemma next_alone_more r i r' : Forall (fun x => 0 <= x) r -> r <> [] -> 0 <= i -> rel_next_at r i = Ok r' -> rel_cmp r r' = Lt.
Proof.
  intros F N H E. set (v := bare 0 r).
  assert (O : ordinary v) by (split; [destruct r; [congruence|reflexivity]|exact F]).
  destruct (next_at_lt v i O H) as (w & W & L). unfold next_at in W. change (is_stable v) with true in W. cbn [v_release v bare] in W. rewrite E in W. cbn [bind] in W. injection W as <-.
  rewrite <- (cmp_release v r r'). destruct L as [_ L].
  assert (X : v_lt v (set_release (without_tags_and_local v) r') = true) by (apply L; intros (_ & P & _); now apply P).
  unfold v_lt in X. change (set_release v r) with v. change (set_release v r') with (set_release (without_tags_and_local v) r'). now destruct (v_cmp _ _).
Qed.

Lemma nexts_alone r : r <> [] -> Forall (fun x => 0 <= x) r ->
  (exists r', rel_next_major r = Ok r' /\ List.length r' = List.length r /\ rel_cmp r r' = Lt /\ forall n, part r' n = match n with O => part r 0 + 1 | _ => 0 end)
  /\ (exists r', rel_next_minor r = Ok r' /\ List.length r' = Nat.max (List.length r) 2 /\ rel_cmp r r' = Lt
      /\ forall n, part r' n = match n with O => part r 0 | 1%nat => part r 1 + 1 | _ => 0 end)
  /\ (exists r', rel_next_micro r = Ok r' /\ rel_next_patch r = Ok r' /\ List.length r' = Nat.max (List.length r) 3 /\ rel_cmp r r' = Lt
      /\ forall n, part r' n = match n with O => part r 0 | 1%nat => part r 1 | 2%nat => part r 2 + 1 | _ => 0 end).
Proof.
  intros N F. split; [|split].
  - destruct (next_alone r MAJOR N) as (r' & E & L & P); [discriminate|]. exists r'. split; [exact E|]. split; [rewrite L; destruct r; [congruence|cbn; lia]|].
    split; [apply (next_alone_more r MAJOR r'); auto; discriminate|]. intros n. rewrite P. now destruct n.
  - destruct (next_alone r MINOR N) as (r' & E & L & P); [discriminate|]. exists r'. split; [exact E|]. split; [exact L|].
    split; [apply (next_alone_more r MINOR r'); auto; discriminate|]. intros n. rewrite P. now destruct n as [|[|n]].
  - destruct (next_alone r MICRO N) as (r' & E & L & P); [discriminate|]. exists r'. split; [exact E|]. split; [exact E|]. split; [exact L|].
    split; [apply (next_alone_more r MICRO r'); auto; discriminate|]. intros n. rewrite P. now destruct n as [|[|[|n]]].
Qed.

(** ** Indices from the end *)

Lemma update_length {A} (xs : list A) k a : List.length (update xs k a) = List.length xs.
Proof. revert k. induction xs as [|x xs IH]; intros [|k]; cbn; auto. Qed.

Lemma next_back r i d p : i < 0 ->
  rel_next_at_with r i d p = if i <? - len r then Err IndexError else if i =? -1 then Err ValueError else rel_next_at_with r (len r + i) d p.
Proof.
  intros H. unfold rel_next_at_with at 1.
  assert (G : rel_get_at r i d = py_get r i).
  { unfold rel_get_at, rel_has_at, rel_precision, len. destruct (Z.ltb_spec i (Z.of_nat (List.length r))); [reflexivity|lia]. }
  rewrite G. destruct (Z.ltb_spec i (- len r)) as [O|O]; [rewrite py_get_out by (left; exact O); reflexivity|].
  unfold len in *. set (k := Z.to_nat (Z.of_nat (List.length r) + i)). assert (K : (k < List.length r)%nat) by lia.
  assert (I : i = Z.of_nat k - len r) by (unfold len; lia). rewrite I, py_get_back by exact K. cbn [bind].
  assert (S : forall x, rel_set_at r (Z.of_nat k - len r) x = Ok (update r k x) /\ rel_set_at r (Z.of_nat k) x = Ok (update r k x)).
  { intros x. assert (U : update r k x <> []) by (intros U; apply (f_equal (@List.length Z)) in U; rewrite update_length in U; cbn in U; lia).
    unfold rel_set_at, rel_pad_to_index, rel_pad_to, rel_precision, rel_set_at_unchecked, len. split.
    - destruct (Z.ltb_spec (Z.of_nat (List.length r)) (Z.of_nat k - Z.of_nat (List.length r) + 1)); [lia|]. cbn [bind]. fold (len r). rewrite py_set_back by exact K. now apply release_new_ok.
    - destruct (Z.ltb_spec (Z.of_nat (List.length r)) (Z.of_nat k + 1)); [lia|]. cbn [bind]. rewrite py_set_front by exact K. now apply release_new_ok. }
  rewrite (proj1 (S _)). cbn [bind]. destruct (Z.eqb_spec i (-1)) as [E|E].
  - destruct (Z.eqb_spec (Z.of_nat k - len r) (-1)); [|lia]. replace (Z.of_nat k - len r + 1) with 0 by lia. reflexivity.
  - destruct (Z.eqb_spec (Z.of_nat k - len r) (-1)); [lia|]. unfold rel_next_at_with.
    replace (Z.of_nat (List.length r) + (Z.of_nat k - len r)) with (Z.of_nat k) by (unfold len; lia).
    rewrite get_at_spec by lia. destruct (Z.ltb_spec (Z.of_nat k) (len r)); [|unfold len in *; lia]. rewrite Nat2Z.id. cbn [bind].
    rewrite (proj2 (S _)). cbn [bind]. unfold rel_slice, rel_slice_parts, py_upto, norm_index, len. rewrite !update_length.
    unfold len in *. destruct (Z.ltb_spec (Z.of_nat k - Z.of_nat (List.length r) + 1) 0); [|lia]. destruct (Z.ltb_spec (Z.of_nat k + 1) 0); [lia|].
    now replace (Z.of_nat k - Z.of_nat (List.length r) + 1 + Z.of_nat (List.length r)) with (Z.of_nat k + 1) by lia.
Qed.

Lemma version_next_back v i : i < 0 -> is_stable v = true ->
  next_at v i = if i <? - len (v_release v) then Err IndexError else if i =? -1 then Err ValueError else next_at v (len (v_release v) + i).
Proof.
  intros H S. unfold next_at. rewrite S. change rel_next_at with (fun r i => rel_next_at_with r i 0 0). cbv beta. rewrite next_back by assumption.
  destruct (i <? _); [reflexivity|]. now destruct (i =? -1).
Qed.

(** ** Tags *)

Lemma next_phase_alone c t x : valid_tag c t = true ->
  (phase t = ALPHA /\ tag_next_phase_with c t x = Ok (Some (Tag BETA x)))
  \/ (phase t = BETA /\ tag_next_phase_with c t x = Ok (Some (Tag RC x)))
  \/ (phase t <> ALPHA /\ phase t <> BETA /\ tag_next_phase_with c t x = Ok None).
Proof.
  intros V. destruct t as [p y]. unfold valid_tag in V. apply andb_true_iff in V as [I E]. cbn [phase] in *. unfold str_in in I. apply existsb_exists in I as (q & I & Q).
  apply str_eqb_eq in Q. subst q. apply str_eqb_eq in E.
  destruct c; cbn in I; repeat (destruct I as [<-|I]; [try (vm_compute in E; discriminate E);
    first [left; split; [reflexivity|]; vm_compute; reflexivity | right; left; split; [reflexivity|]; vm_compute; reflexivity | right; right; split; [discriminate|]; split; [discriminate|]; vm_compute; reflexivity]|]); destruct I.
Qed.

Lemma next_phase_default c t : tag_next_phase_with c t 0 = tag_next_phase c t.
Proof. reflexivity. Qed.

(** ** Versions as written *)

Lemma versions_delegate v x :
  v_set_epoch_value v x = set_epoch v x /\ v_next_epoch v = set_epoch v (v_epoch v + 1)
  /\ v_set_major v x = set_major v x /\ v_set_minor v x = set_minor v x /\ v_set_micro v x = set_micro v x /\ v_set_patch v x = set_micro v x
  /\ v_next_major v = next_major v /\ v_next_minor v = next_minor v /\ v_next_micro v = next_micro v /\ v_next_patch v = next_micro v.
Proof.
  unfold v_set_major, v_set_minor, v_set_micro, v_set_patch, set_major, set_minor, set_micro, set_at, rel_set_major, rel_set_minor, rel_set_micro, rel_set_patch, rmap, bind.
  do 2 (split; [reflexivity|]). do 4 (split; [now destruct (rel_set_at _ _ _)|]). now repeat split.
Qed.

Lemma parts_alone r l : (r <> [] -> rel_from_parts r = Ok r /\ forall s, rel_set_parts s r = Ok r) /\ (l <> [] -> local_from_parts l = Ok l /\ forall m, local_set_parts m l = Ok l)
  /\ rel_from_parts [] = Err ValueError /\ rel_set_parts r [] = Err ValueError /\ local_from_parts [] = Err ValueError /\ local_set_parts l [] = Err ValueError.
Proof.
  split; [destruct r; [congruence|]; now split|]. split; [destruct l; [congruence|]; now split|]. now repeat split.
Qed.
