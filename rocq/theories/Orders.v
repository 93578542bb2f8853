(** Lawful three-way comparisons, and that the comparisons of the model are
    lawful. *)

From Coq Require Import List ZArith NArith Bool.
From Verif Require Import Py Segments Version.
Import ListNotations.

Record lawful {A} (c : A -> A -> comparison) : Prop := {
  law_eq : forall x y, c x y = Eq <-> x = y;
  law_anti : forall x y, c y x = CompOpp (c x y);
  law_trans : forall x y z, c x y = Lt -> c y z = Lt -> c x z = Lt
}.
Arguments law_eq {A c} _ x y.
Arguments law_anti {A c} _ x y.
Arguments law_trans {A c} _ x y z _ _.

Section Lawful.
  Context {A : Type} {c : A -> A -> comparison} (L : lawful c).

  Lemma cmp_refl x : c x x = Eq.
  Proof. now apply (law_eq L). Qed.

  Lemma cmp_eq x y : c x y = Eq -> x = y.
  Proof. now apply (law_eq L). Qed.

  Lemma cmp_gt_lt x y : c x y = Gt <-> c y x = Lt.
  Proof. rewrite (law_anti L x y). destruct (c x y); cbn; split; congruence. Qed.

  Lemma cmp_lt_gt x y : c x y = Lt <-> c y x = Gt.
  Proof. rewrite (law_anti L x y). destruct (c x y); cbn; split; congruence. Qed.

  Lemma cmp_gt_trans x y z : c x y = Gt -> c y z = Gt -> c x z = Gt.
  Proof. rewrite !cmp_gt_lt. intros H1 H2. exact (law_trans L _ _ _ H2 H1). Qed.
End Lawful.

Lemma lawful_Z : lawful Z.compare.
Proof.
  split.
  - apply Z.compare_eq_iff.
  - intros. apply Z.compare_antisym.
  - intros x y z. rewrite !Z.compare_lt_iff. apply Z.lt_trans.
Qed.

Lemma lawful_N : lawful N.compare.
Proof.
  split.
  - apply N.compare_eq_iff.
  - intros. apply N.compare_antisym.
  - intros x y z. rewrite !N.compare_lt_iff. apply N.lt_trans.
Qed.

Lemma lawful_lex {A} (c : A -> A -> comparison) : lawful c -> lawful (lex c).
Proof.
  intros L. split.
  - induction x as [|x xs IH]; destruct y as [|y ys]; cbn; try (split; congruence).
    destruct (c x y) eqn:E.
    + apply (cmp_eq L) in E as ->. rewrite IH. split; congruence.
    + split; [congruence|]. intros [= -> ->]. now rewrite (cmp_refl L) in E.
    + split; [congruence|]. intros [= -> ->]. now rewrite (cmp_refl L) in E.
  - induction x as [|x xs IH]; destruct y as [|y ys]; cbn; try reflexivity.
    rewrite (law_anti L x y). destruct (c x y); cbn; auto.
  - induction x as [|x xs IH]; destruct y as [|y ys], z as [|z zs]; cbn; try congruence.
    destruct (c x y) eqn:E1; destruct (c y z) eqn:E2; try congruence; intros H1 H2.
    + apply (cmp_eq L) in E1 as ->. apply (cmp_eq L) in E2 as ->.
      rewrite (cmp_refl L). eauto.
    + apply (cmp_eq L) in E1 as ->. now rewrite E2.
    + apply (cmp_eq L) in E2 as <-. now rewrite E1.
    + now rewrite (law_trans L _ _ _ E1 E2).
Qed.

Lemma lawful_ext {A} (c : A -> A -> comparison) : lawful c -> lawful (ext_cmp c).
Proof.
  intros L. split.
  - intros [|a|] [|b|]; cbn; split; intros H; try congruence; try (inversion H; fail).
    + now apply (cmp_eq L) in H as ->.
    + inversion H. apply (cmp_refl L).
  - intros [|a|] [|b|]; cbn; auto. apply (law_anti L).
  - intros [|a|] [|b|] [|d|]; cbn; try congruence. apply (law_trans L).
Qed.

(** Lexicographic combination through an injective pair of projections. *)
Lemma lawful_then {A B C} (cb : B -> B -> comparison) (cc : C -> C -> comparison)
  (f : A -> B) (g : A -> C) :
  lawful cb -> lawful cc ->
  (forall x y, f x = f y -> g x = g y -> x = y) ->
  lawful (fun x y => then_cmp (cb (f x) (f y)) (cc (g x) (g y))).
Proof.
  intros Lb Lc inj. split.
  - intros x y. unfold then_cmp. destruct (cb (f x) (f y)) eqn:E.
    + apply (cmp_eq Lb) in E. rewrite (law_eq Lc). split; [auto|now intros ->].
    + split; [congruence|]. intros ->. now rewrite (cmp_refl Lb) in E.
    + split; [congruence|]. intros ->. now rewrite (cmp_refl Lb) in E.
  - intros x y. rewrite (law_anti Lb (f x)), (law_anti Lc (g x)).
    now destruct (cb (f x) (f y)), (cc (g x) (g y)).
  - intros x y z. unfold then_cmp.
    destruct (cb (f x) (f y)) eqn:E1; destruct (cb (f y) (f z)) eqn:E2; try congruence;
      intros H1 H2.
    + apply (cmp_eq Lb) in E1, E2. rewrite E1, E2, (cmp_refl Lb).
      exact (law_trans Lc _ _ _ H1 H2).
    + apply (cmp_eq Lb) in E1. now rewrite E1, E2.
    + apply (cmp_eq Lb) in E2. now rewrite <- E2, E1.
    + now rewrite (law_trans Lb _ _ _ E1 E2).
Qed.

Lemma lawful_str : lawful str_cmp.
Proof. apply lawful_lex, lawful_N. Qed.

Lemma lawful_tag : lawful tag_cmp.
Proof.
  apply (lawful_then str_cmp Z.compare phase value lawful_str lawful_Z).
  intros [p v] [q w]; cbn; congruence.
Qed.

Lemma lawful_local_part_key : lawful local_part_key_cmp.
Proof.
  apply (lawful_then (ext_cmp Z.compare) str_cmp fst snd).
  - apply lawful_ext, lawful_Z.
  - apply lawful_str.
  - intros [a b] [c d]; cbn; congruence.
Qed.

Lemma lawful_key : lawful key_cmp.
Proof.
  set (LT := lawful_ext _ lawful_tag).
  set (LL := lawful_ext _ (lawful_lex _ lawful_local_part_key)).
  pose (p0 := fun k : vkey => (k_dev k, k_local k)).
  pose (p1 := fun k : vkey => (k_post k, p0 k)).
  pose (p2 := fun k : vkey => (k_pre k, p1 k)).
  pose (p3 := fun k : vkey => (k_release k, p2 k)).
  assert (L0 : lawful (fun x y : ext tag * _ =>
     then_cmp (ext_cmp tag_cmp (fst x) (fst y))
              (ext_cmp (lex local_part_key_cmp) (snd x) (snd y)))).
  { apply (lawful_then _ _ fst snd LT LL). intros [] []; cbn; congruence. }
  assert (L1 : lawful (fun x y : ext tag * (ext tag * _) =>
     then_cmp (ext_cmp tag_cmp (fst x) (fst y))
     (then_cmp (ext_cmp tag_cmp (fst (snd x)) (fst (snd y)))
              (ext_cmp (lex local_part_key_cmp) (snd (snd x)) (snd (snd y)))))).
  { apply (lawful_then _ _ fst snd LT L0). intros [] []; cbn; congruence. }
  assert (L2 : lawful (fun x y : ext tag * (ext tag * (ext tag * _)) =>
     then_cmp (ext_cmp tag_cmp (fst x) (fst y))
     (then_cmp (ext_cmp tag_cmp (fst (snd x)) (fst (snd y)))
     (then_cmp (ext_cmp tag_cmp (fst (snd (snd x))) (fst (snd (snd y))))
              (ext_cmp (lex local_part_key_cmp) (snd (snd (snd x))) (snd (snd (snd y)))))))).
  { apply (lawful_then _ _ fst snd LT L1). intros [] []; cbn; congruence. }
  assert (L3 : lawful (fun x y : list Z * (ext tag * (ext tag * (ext tag * _))) =>
     then_cmp (lex Z.compare (fst x) (fst y))
     (then_cmp (ext_cmp tag_cmp (fst (snd x)) (fst (snd y)))
     (then_cmp (ext_cmp tag_cmp (fst (snd (snd x))) (fst (snd (snd y))))
     (then_cmp (ext_cmp tag_cmp (fst (snd (snd (snd x)))) (fst (snd (snd (snd y)))))
              (ext_cmp (lex local_part_key_cmp)
                 (snd (snd (snd (snd x)))) (snd (snd (snd (snd y)))))))))).
  { apply (lawful_then _ _ fst snd (lawful_lex _ lawful_Z) L2). intros [] []; cbn; congruence. }
  apply (lawful_then _ _ k_epoch p3 lawful_Z L3).
  intros [] []; unfold p3, p2, p1, p0; cbn. intros -> [= -> -> -> -> ->]. reflexivity.
Qed.

Lemma v_eq_key v w : v_eq v w = true <-> key v = key w.
Proof.
  unfold v_eq, is_eq, v_cmp. rewrite <- (law_eq lawful_key).
  destruct (key_cmp (key v) (key w)); split; congruence.
Qed.

Lemma v_cmp_refl v : v_cmp v v = Eq.
Proof. apply (cmp_refl lawful_key). Qed.

Lemma str_eqb_eq s t : str_eqb s t = true <-> s = t.
Proof.
  unfold str_eqb. rewrite <- (law_eq lawful_str).
  destruct (str_cmp s t); split; congruence.
Qed.

Lemma str_eqb_refl s : str_eqb s s = true.
Proof. now apply str_eqb_eq. Qed.

Lemma str_in_In s l : str_in s l = true <-> In s l.
Proof.
  unfold str_in. rewrite existsb_exists. split.
  - intros (x & Hx & E). apply str_eqb_eq in E as ->. exact Hx.
  - intros H. exists s. split; [exact H|apply str_eqb_refl].
Qed.
