(** What a call does to the dictionaries. *)

From Coq Require Import List ZArith NArith String Bool Lia.
From Verif Require Import Py Segments Version VersionSets Operators SetStrings Specifiers Parsers Spec Orders Caches Histories
  SpecifierFacts CacheFacts Typed TypedSpec TypedFacts GenericSets GenericFacts TypedSets MixedFacts RenameFacts TypedSetFacts TypedCaches SeparateSpec SeparateFacts.
Import ListNotations.
Local Open Scope nat_scope.
Local Opaque key v_cmp v_eq t_union t_intersection t_complement t_translate t_item_to_specifier.

Inductive sub (u : tspec) : tspec -> Prop :=
| sub_self : sub u u
| sub_any s ss : In s ss -> sub u s -> sub u (TAnyOf ss)
| sub_all s ss : In s ss -> sub u s -> sub u (TAllOf ss).

Lemma sub_plain u p : sub u p -> plain p = true -> plain u = true.
Proof.
  induction 1 as [|s ss I S IH|s ss I S IH]; auto; cbn [plain]; intros P; apply IH; rewrite forallb_forall in P; auto.
Qed.
Lemma sub_class U u p : sub u (retype_spec U p) -> exists u0, u = retype_spec U u0.
Proof.
  induction p as [| |t v|ss IH|ss IH] using spec_members; intros S; inversion S as [|s ? I S'|s ? I S']; subst; eauto.
  - apply in_map_iff in I as (s0 & <- & I). rewrite Forall_forall in IH. eauto.
  - apply in_map_iff in I as (s0 & <- & I). rewrite Forall_forall in IH. eauto.
Qed.

Section States.
  Context (h : op_type -> N) (mix : list N -> N).
  Notation SM := (same_tspec h mix).
  Notation SS := (same_tset mix).
  Notation convert := (t_to_version_set_c h mix).
  Notation revert := (t_to_specifier_c mix).
  Notation item_revert := (t_item_to_specifier_c mix).

  Definition conv (q : tspec) (d : tcaches) : option (gset typed) := lookup SM q (tc_convert d).
  Definition rev_of (a : gset typed) (d : tcaches) : option tspec := lookup SS a (tc_revert d).

  Lemma SM_eqb s u : SM s u = true -> tspec_eqb s u = true.
  Proof. intros H. now apply andb_true_iff in H. Qed.
  Lemma SS_eqb a b : SS a b = true -> t_set_eqb a b = true.
  Proof. intros H. now apply andb_true_iff in H. Qed.

  (** *** The dictionary of conversions *)

  Definition rest_kept (d d' : tcaches) : Prop :=
    tc_version d = tc_version d' /\ tc_specifier d = tc_specifier d' /\ tc_set d = tc_set d' /\ tc_revert d = tc_revert d'.
  Lemma kept_refl d : rest_kept d d.
  Proof. now repeat split. Qed.
  Lemma kept_trans d e f : rest_kept d e -> rest_kept e f -> rest_kept d f.
  Proof. unfold rest_kept. intuition congruence. Qed.

  Definition body (s : tspec) : tact (gset typed) :=
    match s with
    | TOne t x => tlift (t_translate t x)
    | TNever => tlift (Ok GEmpty)
    | TAlways => tlift (Ok g_universal)
    | TAllOf ss => t_reduce_map_c t_intersection convert ss
    | TAnyOf ss => t_reduce_map_c t_union convert ss
    end.

  Definition stored (s : tspec) (r : result (gset typed) * tcaches) : result (gset typed) * tcaches :=
    match r with
    | (Ok v, d') => (Ok v, tput_convert ((s, v) :: tc_convert d') d')
    | (Err e, d') => (Err e, d')
    end.

  Lemma convert_eq s d : convert s d = match conv s d with Some v => (Ok v, d) | None => stored s (body s d) end.
  Proof. destruct s; reflexivity. Qed.

  Lemma conv_stored q s r : conv q (snd (stored s r)) = match fst r with Ok v => if SM q s then Some v else conv q (snd r) | Err _ => conv q (snd r) end.
  Proof. destruct r as [[v|e] d]; reflexivity. Qed.
  Lemma kept_stored s d r : rest_kept d (snd r) -> rest_kept d (snd (stored s r)).
  Proof. destruct r as [[v|e] d']; auto. Qed.
  Lemma fst_stored s r : fst (stored s r) = fst r.
  Proof. now destruct r as [[v|e] d']. Qed.

  (** A property of states kept by all conversions of members is kept by the fold. *)
  Lemma reduce_keeps (P : tcaches -> Prop) f ss : Forall (fun s => forall d, P d -> P (snd (convert s d))) ss ->
    forall d, P d -> P (snd (t_reduce_map_c f convert ss d)).
  Proof.
    intros F. assert (R : forall ss, Forall (fun s => forall d, P d -> P (snd (convert s d))) ss -> forall acc d, P d -> P (snd (t_reduce_from_c f convert acc ss d))).
    { clear. induction 1 as [|s ss S F IH]; intros acc d H; auto. cbn [t_reduce_from_c]. unfold tThen, tlift. specialize (S d H).
      destruct (convert s d) as [[y|e] d']; cbn [fst snd] in *; auto. destruct (f acc y); auto. }
    intros d H. destruct F as [|s ss S F]; auto. cbn [t_reduce_map_c]. unfold tThen. specialize (S d H).
    destruct (convert s d) as [[y|e] d']; cbn [fst snd] in *; auto.
  Qed.

  Lemma convert_keeps p : forall d, rest_kept d (snd (convert p d)).
  Proof.
    induction p as [| |t x|ss IH|ss IH] using tspec_members; intros d; rewrite convert_eq; destruct (conv _ d); try apply kept_refl; apply kept_stored; try apply kept_refl;
      cbn [body]; apply (reduce_keeps (rest_kept d)); try apply kept_refl; (eapply Forall_impl; [|exact IH]); intros s S e H; eapply kept_trans; eauto.
  Qed.

  Lemma convert_frame q p : (forall u, sub u p -> SM q u = false) -> forall d, conv q (snd (convert p d)) = conv q d.
  Proof.
    induction p as [| |t x|ss IH|ss IH] using tspec_members; intros F d; rewrite convert_eq; destruct (conv _ d); auto; rewrite conv_stored, F by constructor;
      try (now destruct (fst _)).
    - assert (K : conv q (snd (body (TAnyOf ss) d)) = conv q d).
      { cbn [body]. apply (reduce_keeps (fun e => conv q e = conv q d)); auto. apply Forall_forall. intros s I e H. rewrite <- H. rewrite Forall_forall in IH.
        apply IH; auto. intros u S. apply F. econstructor; eauto. }
      rewrite K. now destruct (fst _).
    - assert (K : conv q (snd (body (TAllOf ss) d)) = conv q d).
      { cbn [body]. apply (reduce_keeps (fun e => conv q e = conv q d)); auto. apply Forall_forall. intros s I e H. rewrite <- H. rewrite Forall_forall in IH.
        apply IH; auto. intros u S. apply F. apply sub_all with s; auto. }
      rewrite K. now destruct (fst _).
  Qed.

  Lemma convert_persists q a p : forall d, conv q d = Some a -> conv q (snd (convert p d)) = Some a.
  Proof.
    assert (Q := same_tspec_equivalence h mix).
    assert (N : forall s d, conv q d = Some a -> conv s d = None -> SM q s = false).
    { intros s d H K. destruct (SM q s) eqn:E; auto. unfold conv in *. rewrite (lookup_class _ q s _ Q E) in H. congruence. }
    induction p as [| |t x|ss IH|ss IH] using tspec_members; intros d H; rewrite convert_eq; (match goal with |- context [match conv ?s d with _ => _ end] => destruct (conv s d) eqn:C; [exact H|] end); rewrite conv_stored, (N _ d) by assumption;
      try (now destruct (fst _)).
    - assert (K : conv q (snd (body (TAnyOf ss) d)) = Some a) by (cbn [body]; now apply (reduce_keeps (fun e => conv q e = Some a))).
      rewrite K. now destruct (fst _).
    - assert (K : conv q (snd (body (TAllOf ss) d)) = Some a) by (cbn [body]; now apply (reduce_keeps (fun e => conv q e = Some a))).
      rewrite K. now destruct (fst _).
  Qed.

  Lemma convert_stores p a d : fst (convert p d) = Ok a -> conv p (snd (convert p d)) = Some a.
  Proof.
    rewrite convert_eq. destruct (conv p d) as [v|] eqn:C; cbn [fst snd].
    - intros H. congruence.
    - rewrite fst_stored, conv_stored. intros ->. destruct (same_tspec_equivalence h mix) as (R & _). now rewrite R.
  Qed.

  (** *** Specifiers without versions *)

  Definition plain_exact (d : tcaches) : Prop := forall q a, plain q = true -> conv q d = Some a -> t_to_version_set q = Ok a.

  Lemma reduce_plain f ss : Forall (fun s => forall d, plain_exact d -> plain_exact (snd (convert s d)) /\ (plain s = true -> fst (convert s d) = t_to_version_set s)) ss ->
    forall d, plain_exact d -> plain_exact (snd (t_reduce_map_c f convert ss d))
      /\ (forallb plain ss = true -> fst (t_reduce_map_c f convert ss d) = g_reduce_map f t_to_version_set ss).
  Proof.
    intros F. assert (R : forall ss, Forall (fun s => forall d, plain_exact d -> plain_exact (snd (convert s d)) /\ (plain s = true -> fst (convert s d) = t_to_version_set s)) ss ->
      forall acc d, plain_exact d -> forallb plain ss = true -> fst (t_reduce_from_c f convert acc ss d) = g_reduce_from f t_to_version_set acc ss).
    { clear. induction 1 as [|s ss S F IH]; intros acc d H P; auto. cbn in P. apply andb_true_iff in P as [P1 P2]. cbn [t_reduce_from_c g_reduce_from]. unfold tThen, tlift.
      destruct (S d H) as [S1 S2]. rewrite <- (S2 P1). destruct (convert s d) as [[y|e] d']; cbn [fst snd] in *; auto. cbn [bind]. destruct (f acc y); auto. cbn [bind]. auto. }
    intros d H. split.
    - apply (reduce_keeps plain_exact); auto. eapply Forall_impl; [|exact F]. intros s S e K. now apply S.
    - intros P. destruct F as [|s ss S F]; auto. cbn in P. apply andb_true_iff in P as [P1 P2]. cbn [t_reduce_map_c g_reduce_map]. unfold tThen.
      destruct (S d H) as [S1 S2]. rewrite <- (S2 P1). destruct (convert s d) as [[y|e] d']; cbn [fst snd bind] in *; auto.
  Qed.

  Lemma stored_plain s r : plain_exact (snd r) -> (plain s = true -> fst r = t_to_version_set s) ->
    plain_exact (snd (stored s r)) /\ (plain s = true -> fst (stored s r) = t_to_version_set s).
  Proof.
    intros H K. rewrite fst_stored. split; auto. intros q a P. rewrite conv_stored. destruct (fst r) as [v|e] eqn:F; [|now apply H].
    destruct (SM q s) eqn:E; [|now apply H]. apply SM_eqb in E. apply plain_equal in E; auto. subst q. rewrite <- K by assumption. congruence.
  Qed.

  Lemma convert_plain p : forall d, plain_exact d -> plain_exact (snd (convert p d)) /\ (plain p = true -> fst (convert p d) = t_to_version_set p).
  Proof.
    induction p as [| |t x|ss IH|ss IH] using tspec_members; intros d H; rewrite convert_eq;
      (destruct (conv _ d) as [v|] eqn:C; [cbn [fst snd]; split; [exact H|intros P; symmetry; now apply H]|]); apply stored_plain; auto; try discriminate.
    - now apply (reduce_plain t_union).
    - intros P. now apply (reduce_plain t_union).
    - now apply (reduce_plain t_intersection).
    - intros P. now apply (reduce_plain t_intersection).
  Qed.

  (** *** Two states that agree on a class *)

  Definition meet (T : vtype) (d e : tcaches) : Prop := plain_exact d /\ plain_exact e
    /\ forall q, plain (retype_spec T q) = false -> conv (retype_spec T q) d = conv (retype_spec T q) e.

  Definition goes_along {A} (T : vtype) (m : tact A) : Prop := forall d e, meet T d e -> fst (m d) = fst (m e) /\ meet T (snd (m d)) (snd (m e)).

  Lemma reduce_along T f ss : Forall (fun s => goes_along T (convert s)) ss -> goes_along T (t_reduce_map_c f convert ss).
  Proof.
    intros F. assert (R : forall ss, Forall (fun s => goes_along T (convert s)) ss -> forall acc, goes_along T (t_reduce_from_c f convert acc ss)).
    { clear. induction 1 as [|s ss S F IH]; intros acc d e M; [now split|]. cbn [t_reduce_from_c]. unfold tThen, tlift. destruct (S d e M) as [S1 S2].
      destruct (convert s d) as [[y|x] d'], (convert s e) as [[y'|x'] e']; cbn [fst snd] in *; try discriminate; [|now split]. injection S1 as <-.
      destruct (f acc y); [now apply IH|now split]. }
    intros d e M. destruct F as [|s ss S F]; [now split|]. cbn [t_reduce_map_c]. unfold tThen. destruct (S d e M) as [S1 S2].
    destruct (convert s d) as [[y|x] d'], (convert s e) as [[y'|x'] e']; cbn [fst snd] in *; try discriminate; [|now split]. injection S1 as <-. now apply R.
  Qed.

  Lemma plain_other q p : plain q = false -> plain p = true -> forall u, sub u p -> SM q u = false.
  Proof.
    intros Q P u S. destruct (SM q u) eqn:E; auto. apply SM_eqb, teqb_plain in E. rewrite (sub_plain u p S P) in E. congruence.
  Qed.
  Lemma class_other T U q p : T <> U -> plain (retype_spec T q) = false -> forall u, sub u (retype_spec U p) -> SM (retype_spec T q) u = false.
  Proof.
    intros D Q u S. destruct (SM (retype_spec T q) u) eqn:E; auto. apply SM_eqb in E. destruct (sub_class U u p S) as [u0 ->].
    rewrite (classes_plain T U q u0 D E) in Q. discriminate.
  Qed.

  Lemma convert_along T p : goes_along T (convert (retype_spec T p)).
  Proof.
    induction p as [| |t v|ss IH|ss IH] using spec_members; intros d e M;
    (match goal with |- context [convert ?s] => destruct (plain s) eqn:P;
       [destruct M as (Pd & Pe & M); destruct (convert_plain s d Pd) as [D1 D2], (convert_plain s e Pe) as [E1 E2];
        rewrite D2, E2 by assumption; split; [reflexivity|]; split; [assumption|]; split; [assumption|]; intros q Q;
        rewrite !convert_frame by (apply plain_other; assumption); now apply M|] end).
    1,2: discriminate P.
    - assert (M' := M). destruct M' as (Pd & Pe & C). rewrite !convert_eq, (C (One t v)) by assumption. destruct (conv _ e) as [w|]; [now split|].
      cbn [body retype_spec]. unfold stored, tlift. destruct (t_translate t (Typed T v)) as [w|x]; [|now split]. cbn [fst snd]. split; [reflexivity|].
      split; [|split].
      + apply (stored_plain (TOne t (Typed T v)) (Ok w, d)); auto. discriminate.
      + apply (stored_plain (TOne t (Typed T v)) (Ok w, e)); auto. discriminate.
      + intros q Q. change (conv (retype_spec T q) (snd (stored (TOne t (Typed T v)) (Ok w, d))) = conv (retype_spec T q) (snd (stored (TOne t (Typed T v)) (Ok w, e)))).
        rewrite !conv_stored. cbn [fst snd]. now rewrite C.
    - assert (M' := M). destruct M' as (Pd & Pe & C). rewrite !convert_eq, (C (AnyOf ss)) by assumption. destruct (conv _ e) as [w|]; [now split|].
      assert (B : goes_along T (body (retype_spec T (AnyOf ss)))) by (apply reduce_along; now apply Forall_map). destruct (B d e M) as (B1 & B2 & B3 & B4).
      rewrite !fst_stored. split; [exact B1|]. split; [|split].
      + apply stored_plain; auto. rewrite P. discriminate.
      + apply stored_plain; auto. rewrite P. discriminate.
      + intros q Q. rewrite !conv_stored, B1, B4 by assumption. reflexivity.
    - assert (M' := M). destruct M' as (Pd & Pe & C). rewrite !convert_eq, (C (AllOf ss)) by assumption. destruct (conv _ e) as [w|]; [now split|].
      assert (B : goes_along T (body (retype_spec T (AllOf ss)))) by (apply reduce_along; now apply Forall_map). destruct (B d e M) as (B1 & B2 & B3 & B4).
      rewrite !fst_stored. split; [exact B1|]. split; [|split].
      + apply stored_plain; auto. rewrite P. discriminate.
      + apply stored_plain; auto. rewrite P. discriminate.
      + intros q Q. rewrite !conv_stored, B1, B4 by assumption. reflexivity.
  Qed.

  Lemma convert_aside T U p d e : T <> U -> meet T d e -> meet T (snd (convert (retype_spec U p) d)) e.
  Proof.
    intros D (Pd & Pe & C). split; [now apply convert_plain|]. split; [assumption|]. intros q Q. rewrite convert_frame by (apply class_other; assumption). now apply C.
  Qed.
End States.
