(** The caches with versions of several classes. *)

From Coq Require Import List ZArith NArith String Bool Lia.
From Verif Require Import Py Segments Version VersionSets Operators SetStrings Specifiers Parsers Spec Orders Cuts Caches Histories
  SpecifierFacts EqualFacts CacheFacts Typed TypedSpec TypedFacts GenericSets GenericFacts TypedSets MixedFacts RenameFacts TypedSetFacts TypedCaches SeparateSpec.
Import ListNotations.
Local Open Scope nat_scope.
Local Opaque key v_cmp v_eq. 

(** ** Equality *)

Section Members.
  Context (P : tspec -> Prop) (PN : P TNever) (PA : P TAlways) (P1 : forall t x, P (TOne t x))
    (PY : forall ss, Forall P ss -> P (TAnyOf ss)) (PL : forall ss, Forall P ss -> P (TAllOf ss)).
  Fixpoint tspec_members (s : tspec) : P s :=
    let fix members (ss : list tspec) : Forall P ss :=
      match ss with [] => Forall_nil P | s :: ss' => Forall_cons s (tspec_members s) (members ss') end in
    match s with
    | TNever => PN
    | TAlways => PA
    | TOne t x => P1 t x
    | TAnyOf ss => PY ss (members ss)
    | TAllOf ss => PL ss (members ss)
    end.
End Members.

Notation equals := (Forall2 (fun s u => tspec_eqb s u = true)).

Lemma teqb_any xs ys : tspec_eqb (TAnyOf xs) (TAnyOf ys) = true <-> equals xs ys.
Proof.
  cbn [tspec_eqb]. revert ys. induction xs as [|x xs IH]; intros [|y ys]; split; intros H; try discriminate; try (now inversion H); auto.
  - apply andb_true_iff in H as [H K]. constructor; auto. now apply IH.
  - inversion H; subst. apply andb_true_iff. split; auto. now apply IH.
Qed.
Lemma teqb_all xs ys : tspec_eqb (TAllOf xs) (TAllOf ys) = true <-> equals xs ys.
Proof.
  cbn [tspec_eqb]. revert ys. induction xs as [|x xs IH]; intros [|y ys]; split; intros H; try discriminate; try (now inversion H); auto.
  - apply andb_true_iff in H as [H K]. constructor; auto. now apply IH.
  - inversion H; subst. apply andb_true_iff. split; auto. now apply IH.
Qed.

Lemma t_same_refl x : t_same x x = true.
Proof. unfold t_same. rewrite Nat.eqb_refl. now apply v_eq_key. Qed.
Lemma t_same_iff x y : t_same x y = true <-> t_type x = t_type y /\ key (t_version x) = key (t_version y).
Proof. unfold t_same. rewrite andb_true_iff, Nat.eqb_eq, v_eq_key. tauto. Qed.
Lemma t_same_sym x y : t_same x y = true -> t_same y x = true.
Proof. rewrite !t_same_iff. intuition congruence. Qed.
Lemma t_same_trans x y z : t_same x y = true -> t_same y z = true -> t_same x z = true.
Proof. rewrite !t_same_iff. intuition congruence. Qed.

Lemma teqb_refl s : tspec_eqb s s = true.
Proof.
  induction s as [| |t x|ss IH|ss IH] using tspec_members; auto.
  - cbn. now rewrite op_eqb_refl, t_same_refl.
  - apply teqb_any. induction IH; constructor; auto.
  - apply teqb_all. induction IH; constructor; auto.
Qed.
Lemma teqb_sym s : forall u, tspec_eqb s u = true -> tspec_eqb u s = true.
Proof.
  induction s as [| |t x|ss IH|ss IH] using tspec_members; intros u H; destruct u as [| |t' x'|us|us]; try discriminate; auto.
  - cbn in *. apply andb_true_iff in H as [H K]. rewrite op_eqb_sym by assumption. now rewrite t_same_sym.
  - apply teqb_any in H. apply teqb_any. induction H; constructor; inversion IH; subst; auto.
  - apply teqb_all in H. apply teqb_all. induction H; constructor; inversion IH; subst; auto.
Qed.
Lemma teqb_trans s : forall u w, tspec_eqb s u = true -> tspec_eqb u w = true -> tspec_eqb s w = true.
Proof.
  induction s as [| |t x|ss IH|ss IH] using tspec_members; intros u w H K;
    destruct u as [| |t' x'|us|us]; try discriminate H; destruct w as [| |t'' x''|ws|ws]; try discriminate K; auto.
  - cbn in *. apply andb_true_iff in H as [H H']. apply andb_true_iff in K as [K K']. apply andb_true_iff. split.
    + eapply op_eqb_trans; eassumption.
    + eapply t_same_trans; eassumption.
  - apply teqb_any in H. apply teqb_any in K. apply teqb_any. revert ws K. induction H as [|s u ss us E F IHF]; intros ws K.
    + inversion K. constructor.
    + inversion K; subst. inversion IH; subst. constructor; eauto.
  - apply teqb_all in H. apply teqb_all in K. apply teqb_all. revert ws K. induction H as [|s u ss us E F IHF]; intros ws K.
    + inversion K. constructor.
    + inversion K; subst. inversion IH; subst. constructor; eauto.
Qed.

(** ** Dictionaries *)

Definition equivalence {K} (same : K -> K -> bool) : Prop :=
  (forall a, same a a = true) /\ (forall a b, same a b = true -> same b a = true)
  /\ (forall a b c, same a b = true -> same b c = true -> same a c = true).

Lemma class_left {K} (same : K -> K -> bool) a b c : equivalence same -> same a b = true -> same a c = same b c.
Proof.
  intros (R & S & T) E. destruct (same a c) eqn:A, (same b c) eqn:B; auto.
  - now rewrite (T _ _ _ (S _ _ E) A) in B.
  - now rewrite (T _ _ _ E B) in A.
Qed.

Lemma lookup_class {K V} (same : K -> K -> bool) a b (d : list (K * V)) : equivalence same -> same a b = true -> lookup same a d = lookup same b d.
Proof.
  intros Q E. induction d as [|[k v] d IH]; auto. cbn [lookup]. rewrite (class_left same a b k Q E). now destruct (same b k).
Qed.

Section Hash.
  Context (h : op_type -> N) (mix : list N -> N).

  Lemma same_tspec_equivalence : equivalence (same_tspec h mix).
  Proof.
    unfold equivalence, same_tspec. split; [|split].
    - intros a. now rewrite N.eqb_refl, teqb_refl.
    - intros a b H. apply andb_true_iff in H as [H K]. apply andb_true_iff. split; [|now apply teqb_sym]. apply N.eqb_eq in H. now apply N.eqb_eq.
    - intros a b c H K. apply andb_true_iff in H as [H H']. apply andb_true_iff in K as [K K']. apply andb_true_iff. split; [|eapply teqb_trans; eassumption].
      apply N.eqb_eq in H. apply N.eqb_eq in K. apply N.eqb_eq. congruence.
  Qed.

  Lemma oeq_equivalence : equivalence (g_oeq t_same).
  Proof.
    split; [|split].
    - intros [x|]; cbn; auto using t_same_refl.
    - intros [x|] [y|]; cbn; auto using t_same_sym.
    - intros [x|] [y|] [z|]; cbn; try discriminate; eauto using t_same_trans.
  Qed.
  Lemma item_equivalence : equivalence (g_item_eqb t_same).
  Proof.
    destruct oeq_equivalence as (R & S & T). unfold g_item_eqb. split; [|split].
    - intros a. now rewrite !R, !eqb_reflx.
    - intros a b. rewrite !andb_true_iff, !eqb_true_iff. intuition auto.
    - intros a b c. rewrite !andb_true_iff, !eqb_true_iff. intuition (eauto; congruence).
  Qed.
  Lemma t_set_equivalence : equivalence t_set_eqb.
  Proof.
    destruct item_equivalence as (R & S & T). unfold t_set_eqb. split; [|split].
    - intros [|i|is]; cbn; auto. induction is as [|i is IH]; cbn; auto. now rewrite R, IH.
    - intros [|i|is] [|j|js]; cbn; auto. revert js. induction is as [|i is IH]; intros [|j js]; cbn; auto.
      rewrite !andb_true_iff. intuition auto.
    - intros [|i|is] [|j|js] [|k|ks]; cbn; try discriminate; eauto. revert js ks.
      induction is as [|i is IH]; intros [|j js] [|k ks]; cbn; try discriminate; auto. rewrite !andb_true_iff. intuition eauto.
  Qed.
  Lemma same_tset_equivalence : equivalence (same_tset mix).
  Proof.
    destruct t_set_equivalence as (R & S & T). unfold equivalence, same_tset. split; [|split].
    - intros a. now rewrite N.eqb_refl, R.
    - intros a b H. apply andb_true_iff in H as [H K]. apply andb_true_iff. split; [|now apply S]. apply N.eqb_eq in H. now apply N.eqb_eq.
    - intros a b c H K. apply andb_true_iff in H as [H H']. apply andb_true_iff in K as [K K']. apply andb_true_iff. split; [|eauto].
      apply N.eqb_eq in H. apply N.eqb_eq in K. apply N.eqb_eq. congruence.
  Qed.

  (** In one class they are those of [Caches.v]. *)
  Lemma spec_hash_in T s : tspec_hash h mix (retype_spec T s) = spec_hash h mix s.
  Proof.
    induction s as [| |t v|ss IH|ss IH] using spec_members; auto; cbn [retype_spec tspec_hash spec_hash]; do 4 f_equal; rewrite map_map;
      induction IH; cbn; auto; f_equal; auto.
  Qed.
  Lemma same_spec_in T s u : same_tspec h mix (retype_spec T s) (retype_spec T u) = same_spec h mix s u.
  Proof. unfold same_tspec, same_spec. now rewrite !spec_hash_in, eqb_same. Qed.
  Lemma item_hash_in T i : gitem_hash mix (carry_item (Typed T) i) = item_hash mix i.
  Proof. destruct i as [v|[m|] [M|] x y]; reflexivity. Qed.
  Lemma set_hash_in T a : gset_hash mix (carry_set (Typed T) a) = set_hash mix a.
  Proof.
    destruct a as [|i|is]; auto; cbn [carry_set gset_hash set_hash]; [apply item_hash_in|]. do 4 f_equal. rewrite map_map. apply map_ext, item_hash_in.
  Qed.
  Lemma same_set_in T a b : same_tset mix (carry_set (Typed T) a) (carry_set (Typed T) b) = same_set mix a b.
  Proof. unfold same_tset, same_set. rewrite !set_hash_in. f_equal. exact (proj1 (class_tests T a b (Version 0 [] None None None None))). Qed.
End Hash.

(** ** Specifiers and sets that mention no version *)

Fixpoint plain (s : tspec) : bool :=
  match s with
  | TNever | TAlways => true
  | TOne _ _ => false
  | TAnyOf ss => forallb plain ss
  | TAllOf ss => forallb plain ss
  end.

Lemma teqb_plain s : forall u, tspec_eqb s u = true -> plain s = plain u.
Proof.
  induction s as [| |t x|ss IH|ss IH] using tspec_members; intros u H; destruct u as [| |t' x'|us|us]; try discriminate; auto; cbn [plain];
    [apply teqb_any in H|apply teqb_all in H]; induction H; cbn; auto; inversion IH; subst; f_equal; auto.
Qed.
Lemma plain_equal s : forall u, tspec_eqb s u = true -> plain s = true -> s = u.
Proof.
  induction s as [| |t x|ss IH|ss IH] using tspec_members; intros u H P; destruct u as [| |t' x'|us|us]; try discriminate; auto; cbn [plain] in P;
    f_equal; [apply teqb_any in H|apply teqb_all in H]; (induction H; auto; cbn in P; apply andb_true_iff in P as [P Q]; inversion IH; subst; f_equal; auto).
Qed.
Lemma plain_class T U s : plain (retype_spec T s) = true -> retype_spec T s = retype_spec U s.
Proof.
  induction s as [| |t v|ss IH|ss IH] using spec_members; auto; try discriminate; cbn [retype_spec plain]; intros P; f_equal;
    (induction IH; auto; cbn in *; apply andb_true_iff in P as [P Q]; f_equal; auto).
Qed.
Lemma classes_plain T U s u : T <> U -> tspec_eqb (retype_spec T s) (retype_spec U u) = true -> plain (retype_spec T s) = true.
Proof.
  intros D. revert u. induction s as [| |t v|ss IH|ss IH] using spec_members; intros u H; destruct u as [| |t' v'|us|us]; try discriminate; auto;
    cbn [retype_spec plain].
  - cbn in H. apply andb_true_iff in H as [_ H]. apply t_same_iff in H as [H _]. contradiction.
  - apply teqb_any in H. apply forallb_forall. intros x I. apply in_map_iff in I as (s & <- & I). revert us H. induction IH as [|y ss Y IH IHs]; intros us H; [contradiction|].
    destruct us as [|z us]; inversion H; subst. destruct I as [<-|I]; eauto.
  - apply teqb_all in H. apply forallb_forall. intros x I. apply in_map_iff in I as (s & <- & I). revert us H. induction IH as [|y ss Y IH IHs]; intros us H; [contradiction|].
    destruct us as [|z us]; inversion H; subst. destruct I as [<-|I]; eauto.
Qed.

Definition plain_item (i : gitem typed) : bool := match i with GRange None None _ _ => true | _ => false end.
Definition plain_set (a : gset typed) : bool := forallb plain_item (g_extract a).

Lemma plain_item_equal i j : g_item_eqb t_same i j = true -> plain_item i = plain_item j /\ (plain_item i = true -> i = j).
Proof.
  unfold g_item_eqb. rewrite !andb_true_iff, !eqb_true_iff. destruct i as [x|[m|] [M|] a b], j as [y|[m'|] [M'|] a' b']; cbn; intuition (try discriminate; congruence).
Qed.
Lemma plain_set_equal a b : t_set_eqb a b = true -> plain_set a = plain_set b /\ (plain_set a = true -> a = b).
Proof.
  unfold t_set_eqb, plain_set. destruct a as [|i|is], b as [|j|js]; cbn; try discriminate; auto.
  - intros H. apply plain_item_equal in H as [-> H]. split; auto. rewrite andb_true_r. intros K. f_equal. auto.
  - revert js. induction is as [|i is IH]; intros [|j js]; cbn; try discriminate; auto. intros H. apply andb_true_iff in H as [H K].
    apply plain_item_equal in H as [-> H]. destruct (IH js K) as [E F]. rewrite E. split; auto. intros L. apply andb_true_iff in L as [L L']. rewrite E in F. specialize (F L').
    injection F as ->. f_equal. f_equal. auto.
Qed.
Lemma sets_plain T U a b : T <> U -> t_set_eqb (carry_set (Typed T) a) (carry_set (Typed U) b) = true -> plain_set (carry_set (Typed T) a) = true.
Proof.
  intros D. assert (N : Nat.eqb T U = false) by now apply Nat.eqb_neq.
  assert (I : forall i j, g_item_eqb t_same (carry_item (Typed T) i) (carry_item (Typed U) j) = true -> plain_item (carry_item (Typed T) i) = true).
  { intros [x|[m|] [M|] p q] [y|[m'|] [M'|] p' q']; unfold g_item_eqb, t_same; cbn; rewrite ?N; cbn; rewrite ?andb_false_r; auto; discriminate. }
  unfold t_set_eqb, plain_set. destruct a as [|i|is], b as [|j|js]; cbn; try discriminate; auto.
  - intros H. rewrite (I i j H). reflexivity.
  - revert js. induction is as [|i is IH]; intros [|j js]; cbn; try discriminate; auto. intros H. apply andb_true_iff in H as [H K].
    rewrite (I i j H). cbn. eauto.
Qed.
