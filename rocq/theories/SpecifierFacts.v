(** Facts about specifiers and their conversions to and from version sets. *)

From Coq Require Import List ZArith NArith String Bool Lia.
From Verif Require Import Py Segments Version VersionSets Operators Specifiers Dispatch Orders Cuts SetItems SetChains
  SetMerge SetOps Spec OrderFacts SetVersions SetTheorems SetAlgebra BumpFacts OperatorFacts.
Import ListNotations.
Open Scope Z_scope.

Local Opaque key.

(** ** Induction and quantifiers over members *)

Section Induction.
  Variable P : spec -> Prop.
  Hypothesis HN : P Never.
  Hypothesis HA : P Always.
  Hypothesis HO : forall t w, P (One t w).
  Hypothesis HY : forall ss, Forall P ss -> P (AnyOf ss).
  Hypothesis HL : forall ss, Forall P ss -> P (AllOf ss).
  Fixpoint spec_members (s : spec) : P s :=
    let fix members (ss : list spec) : Forall P ss :=
      match ss with
      | [] => Forall_nil P
      | s :: ss' => Forall_cons s (spec_members s) (members ss')
      end in
    match s with
    | Never => HN
    | Always => HA
    | One t w => HO t w
    | AnyOf ss => HY ss (members ss)
    | AllOf ss => HL ss (members ss)
    end.
End Induction.

Lemma sat_any ss v : sat (AnyOf ss) v <-> Exists (fun s => sat s v) ss.
Proof.
  induction ss as [|s ss IH]; [cbn; rewrite Exists_nil; tauto|].
  rewrite Exists_cons, <- IH. reflexivity.
Qed.
Lemma sat_all ss v : sat (AllOf ss) v <-> Forall (fun s => sat s v) ss.
Proof.
  induction ss as [|s ss IH]; [cbn; split; constructor|].
  rewrite Forall_cons_iff, <- IH. reflexivity.
Qed.
Lemma each_op_any P ss : each_op P (AnyOf ss) <-> Forall (each_op P) ss.
Proof.
  induction ss as [|s ss IH]; [cbn; split; constructor|].
  rewrite Forall_cons_iff, <- IH. reflexivity.
Qed.
Lemma each_op_all P ss : each_op P (AllOf ss) <-> Forall (each_op P) ss.
Proof. exact (each_op_any P ss). Qed.
Lemma made_any ss : spec_made (AnyOf ss) <-> (2 <= List.length ss)%nat /\ Forall spec_made ss.
Proof.
  assert (H : forall ss, (fix all ss := match ss with [] => True | s :: ss' => spec_made s /\ all ss' end) ss <-> Forall spec_made ss).
  { clear. induction ss as [|s ss IH]; [split; constructor|]. rewrite Forall_cons_iff, <- IH. reflexivity. }
  rewrite <- H. reflexivity.
Qed.
Lemma made_all ss : spec_made (AllOf ss) <-> (2 <= List.length ss)%nat /\ Forall spec_made ss.
Proof. exact (made_any ss). Qed.
Lemma no_any_all ss : no_any (AllOf ss) <-> Forall no_any ss.
Proof.
  induction ss as [|s ss IH]; [cbn; split; constructor|].
  rewrite Forall_cons_iff, <- IH. reflexivity.
Qed.

(** ** Acceptance *)

Lemma any_r_sat {A} (f : A -> result bool) (Q : A -> Prop) xs :
  Forall (fun x => exists b, f x = Ok b /\ (b = true <-> Q x)) xs ->
  exists b, any_r f xs = Ok b /\ (b = true <-> Exists Q xs).
Proof.
  induction 1 as [|x xs (b & E & H) _ (b' & E' & H')].
  - exists false. split; auto. rewrite Exists_nil. intuition discriminate.
  - cbn [any_r]. rewrite E. cbn [bind]. destruct b.
    + exists true. rewrite Exists_cons. tauto.
    + exists b'. rewrite Exists_cons. split; auto. rewrite H'. intuition discriminate.
Qed.
Lemma all_r_sat {A} (f : A -> result bool) (Q : A -> Prop) xs :
  Forall (fun x => exists b, f x = Ok b /\ (b = true <-> Q x)) xs ->
  exists b, all_r f xs = Ok b /\ (b = true <-> Forall Q xs).
Proof.
  induction 1 as [|x xs (b & E & H) _ (b' & E' & H')].
  - exists true. split; auto. split; constructor.
  - cbn [all_r]. rewrite E. cbn [bind]. destruct b.
    + exists b'. rewrite Forall_cons_iff. split; auto. tauto.
    + exists false. rewrite Forall_cons_iff. split; auto. intuition discriminate.
Qed.

Lemma accepts_sat s v : spec_made s -> exists b, accepts s v = Ok b /\ (b = true <-> sat s v).
Proof.
  induction s as [| |t w|ss IH|ss IH] using spec_members.
  - intros _. exists false. cbn. intuition discriminate.
  - intros _. exists true. cbn. tauto.
  - apply op_matches_sat.
  - rewrite made_any. intros [_ M].
    destruct (any_r_sat (fun s => accepts s v) (fun s => sat s v) ss) as (b & E & H); [|exists b; split; [exact E|now rewrite sat_any]].
    rewrite Forall_forall in *. auto.
  - rewrite made_all. intros [_ M].
    destruct (all_r_sat (fun s => accepts s v) (fun s => sat s v) ss) as (b & E & H); [|exists b; split; [exact E|now rewrite sat_all]].
    rewrite Forall_forall in *. auto.
Qed.

(** ** Specifiers to sets *)

Section Reduce.
  Variable f : vset -> vset -> result vset.
  Variable mix : Prop -> Prop -> Prop.
  Hypothesis mix_iff : forall p p' q q', (p <-> p') -> (q <-> q') -> (mix p q <-> mix p' q').
  Hypothesis f_ok : forall a b r, canonical a -> canonical b -> f a b = Ok r ->
    canonical r /\ forall v, contains r v = true <-> mix (in_set a v) (in_set b v).

  Fixpoint folded (p : Prop) (qs : list Prop) : Prop :=
    match qs with [] => p | q :: qs' => folded (mix p q) qs' end.

  Lemma folded_iff qs : forall p p', (p <-> p') -> (folded p qs <-> folded p' qs).
  Proof. induction qs as [|q qs IH]; intros p p' H; cbn; auto. apply IH, mix_iff; auto. reflexivity. Qed.

  Lemma reduce_from_ok (g : spec -> result vset) ss : forall acc a,
    Forall (fun s => forall a, g s = Ok a -> canonical a /\ forall v, contains a v = true <-> sat s v) ss ->
    canonical acc -> reduce_from f g acc ss = Ok a ->
    canonical a /\ forall v, contains a v = true <-> folded (in_set acc v) (map (fun s => sat s v) ss).
  Proof.
    induction ss as [|s ss IH]; intros acc a F C H; cbn [reduce_from] in H.
    - inversion H; subst. split; auto. intros v. apply in_set_contains.
    - inversion F as [|? ? Hs Hss]; subst. destruct (g s) as [y|] eqn:Eg; [|discriminate]. cbn [bind] in H.
      destruct (f acc y) as [acc'|] eqn:Ef; [|discriminate]. cbn [bind] in H.
      destruct (Hs y eq_refl) as [Cy My]. destruct (f_ok _ _ _ C Cy Ef) as [C' M'].
      destruct (IH acc' a Hss C' H) as [Ca Ma]. split; auto. intros v. rewrite Ma. cbn [map folded].
      apply folded_iff. rewrite <- in_set_contains, M'. apply mix_iff; [reflexivity|].
      rewrite <- in_set_contains. apply My.
  Qed.
End Reduce.

Lemma folded_or qs : forall p, folded or p qs <-> p \/ Exists (fun q => q) qs.
Proof.
  induction qs as [|q qs IH]; intros p; cbn [folded]; [rewrite Exists_nil; tauto|]. rewrite IH, Exists_cons. tauto.
Qed.
Lemma folded_and qs : forall p, folded and p qs <-> p /\ Forall (fun q => q) qs.
Proof.
  induction qs as [|q qs IH]; intros p; cbn [folded].
  - split; [split; auto|tauto].
  - rewrite IH, Forall_cons_iff. tauto.
Qed.

Lemma intersection_members a b r : canonical a -> canonical b -> intersection a b = Ok r ->
  canonical r /\ forall v, contains r v = true <-> in_set a v /\ in_set b v.
Proof.
  intros Ca Cb E. destruct (intersection_versions a b Ca Cb) as (r' & E' & H). rewrite E in E'. inversion E'. now subst.
Qed.
Lemma union_members a b r : canonical a -> canonical b -> union a b = Ok r ->
  canonical r /\ forall v, contains r v = true <-> in_set a v \/ in_set b v.
Proof.
  intros Ca Cb E. destruct (union_exact a b Ca Cb) as [[_ E']|(_ & r' & E' & H)]; rewrite E in E'; inversion E'. now subst.
Qed.

Lemma mix_or_iff p p' q q' : (p <-> p') -> (q <-> q') -> (p \/ q <-> p' \/ q').
Proof. tauto. Qed.
Lemma mix_and_iff p p' q q' : (p <-> p') -> (q <-> q') -> (p /\ q <-> p' /\ q').
Proof. tauto. Qed.

Lemma convert_sound s : spec_made s -> each_op plain_op s -> forall a, specifier_to_version_set s = Ok a ->
  canonical a /\ (forall v, contains a v = true <-> sat s v) /\ each_op free_op s.
Proof.
  induction s as [| |t w|ss IH|ss IH] using spec_members.
  - intros _ _ a H. inversion H; subst. cbn. repeat split; auto; discriminate || tauto.
  - intros _ _ a H. inversion H; subst. cbn. repeat split; auto.
  - intros M N a H. cbn in M, N, H. assert (O : ordinary w) by (split; [apply M|exact N]).
    destruct (op_stuck_dec t w) as [S|S].
    + rewrite (op_translate_stuck t w (proj1 O) S) in H. discriminate.
    + destruct (op_translate_sat t w O M S) as (a' & E & C & K). rewrite E in H. inversion H; subst. auto.
  - rewrite made_any, each_op_any. intros [_ M] N a H. rewrite each_op_any.
    assert (Q : Forall (fun s => forall a, specifier_to_version_set s = Ok a -> canonical a /\ forall v, contains a v = true <-> sat s v) ss).
    { rewrite Forall_forall in *. intros s Is a' E. destruct (IH s Is (M s Is) (N s Is) a' E) as (? & ? & _). auto. }
    assert (G : Forall (fun s => forall a, specifier_to_version_set s = Ok a -> each_op free_op s) ss).
    { rewrite Forall_forall in *. intros s Is a' E. now destruct (IH s Is (M s Is) (N s Is) a' E) as (_ & _ & ?). }
    cbn [specifier_to_version_set] in H. destruct ss as [|s ss]; [discriminate|]. cbn [reduce_map] in H.
    destruct (specifier_to_version_set s) as [y|] eqn:Ey; [|discriminate]. cbn [bind] in H.
    inversion Q as [|? ? Qs Qss]; subst. destruct (Qs y Ey) as [Cy My].
    destruct (reduce_from_ok union or mix_or_iff union_members specifier_to_version_set ss y a Qss Cy H) as [Ca Ma].
    split; auto. split.
    + intros v. rewrite Ma, folded_or, sat_any, Exists_cons, <- in_set_contains, My, !Exists_exists.
      split; (intros [?|(q & Iq & Hq)]; [tauto|]); right.
      * apply in_map_iff in Iq as (s' & <- & Is'). eauto.
      * exists (sat q v). split; auto. apply in_map_iff. eauto.
    + inversion G as [|? ? Gs Gss]; subst. constructor; [now apply (Gs y)|].
      clear - H Gss. revert y H. induction ss as [|s' ss IH]; intros y H; [constructor|].
      inversion Gss as [|? ? G1 G2]; subst. cbn [reduce_from] in H.
      destruct (specifier_to_version_set s') as [z|] eqn:Ez; [|discriminate]. cbn [bind] in H.
      destruct (union y z) as [acc|]; [|discriminate]. cbn [bind] in H. constructor; [now apply (G1 z)|now apply (IH G2 acc)].
  - rewrite made_all, each_op_all. intros [_ M] N a H. rewrite each_op_all.
    assert (Q : Forall (fun s => forall a, specifier_to_version_set s = Ok a -> canonical a /\ forall v, contains a v = true <-> sat s v) ss).
    { rewrite Forall_forall in *. intros s Is a' E. destruct (IH s Is (M s Is) (N s Is) a' E) as (? & ? & _). auto. }
    assert (G : Forall (fun s => forall a, specifier_to_version_set s = Ok a -> each_op free_op s) ss).
    { rewrite Forall_forall in *. intros s Is a' E. now destruct (IH s Is (M s Is) (N s Is) a' E) as (_ & _ & ?). }
    cbn [specifier_to_version_set] in H. destruct ss as [|s ss]; [discriminate|]. cbn [reduce_map] in H.
    destruct (specifier_to_version_set s) as [y|] eqn:Ey; [|discriminate]. cbn [bind] in H.
    inversion Q as [|? ? Qs Qss]; subst. destruct (Qs y Ey) as [Cy My].
    destruct (reduce_from_ok intersection and mix_and_iff intersection_members specifier_to_version_set ss y a Qss Cy H) as [Ca Ma].
    split; auto. split.
    + intros v. rewrite Ma, folded_and, sat_all, Forall_cons_iff, <- in_set_contains, My, !Forall_forall.
      apply mix_and_iff; [reflexivity|]. split.
      * intros K q Iq. apply K. apply in_map_iff. eauto.
      * intros K q Iq. apply in_map_iff in Iq as (s' & <- & Is'). auto.
    + inversion G as [|? ? Gs Gss]; subst. constructor; [now apply (Gs y)|].
      clear - H Gss. revert y H. induction ss as [|s' ss IH]; intros y H; [constructor|].
      inversion Gss as [|? ? G1 G2]; subst. cbn [reduce_from] in H.
      destruct (specifier_to_version_set s') as [z|] eqn:Ez; [|discriminate]. cbn [bind] in H.
      destruct (intersection y z) as [acc|]; [|discriminate]. cbn [bind] in H. constructor; [now apply (G1 z)|now apply (IH G2 acc)].
Qed.

(** ** Conversion returns *)

Lemma reduce_from_total f (g : spec -> result vset) ss :
  (forall a b, canonical a -> canonical b -> exists r, f a b = Ok r /\ canonical r) ->
  Forall (fun s => exists a, g s = Ok a /\ canonical a) ss ->
  forall acc, canonical acc -> exists a, reduce_from f g acc ss = Ok a.
Proof.
  intros Hf. induction 1 as [|s ss (y & E & C) _ IH]; intros acc Ca; cbn [reduce_from]; [eauto|].
  rewrite E. cbn [bind]. destruct (Hf acc y Ca C) as (r & Er & Cr). rewrite Er. cbn [bind]. auto.
Qed.

Lemma convert_total s : spec_made s -> each_op plain_op s -> each_op free_op s -> no_any s ->
  exists a, specifier_to_version_set s = Ok a.
Proof.
  induction s as [| |t w|ss IH|ss IH] using spec_members; try (eexists; reflexivity).
  - intros M N F _. destruct (op_translate_sat t w) as (a & E & _); auto; [split; [apply M|exact N]|eauto].
  - intros _ _ _ [].
  - rewrite made_all, !each_op_all, no_any_all. intros [L M] N F A.
    assert (Q : Forall (fun s => exists a, specifier_to_version_set s = Ok a /\ canonical a) ss).
    { rewrite Forall_forall in *. intros s Is. destruct (IH s Is) as (a & E); auto.
      exists a. split; auto. destruct (convert_sound s (M s Is) (N s Is) a E) as (? & _). auto. }
    cbn [specifier_to_version_set]. destruct ss as [|s ss]; [cbn in L; lia|]. cbn [reduce_map].
    inversion Q as [|? ? (y & E & C) Qss]; subst. rewrite E. cbn [bind].
    apply reduce_from_total; auto. intros a b Ca Cb. destruct (intersection_versions a b Ca Cb) as (r & Er & Cr & _). eauto.
Qed.

Lemma reduce_from_err f (g : spec -> result vset) ss (bad : error -> Prop) (P : spec -> error -> Prop) :
  (forall a b e, canonical a -> canonical b -> f a b = Err e -> bad e) ->
  (forall a b r, canonical a -> canonical b -> f a b = Ok r -> canonical r) ->
  Forall (fun s => (forall a, g s = Ok a -> canonical a) /\ forall e, g s = Err e -> P s e) ss ->
  forall acc e, canonical acc -> reduce_from f g acc ss = Err e -> bad e \/ Exists (fun s => P s e) ss.
Proof.
  intros H1 H2. induction 1 as [|s ss (C & E) _ IH]; intros acc e Ca H; cbn [reduce_from] in H; [discriminate|].
  destruct (g s) as [y|e'] eqn:Eg; cbn [bind] in H.
  - destruct (f acc y) as [r|e'] eqn:Ef; cbn [bind] in H.
    + destruct (IH r e) as [B|X]; eauto. 
    + inversion H; subst. left. eauto.
  - inversion H; subst. right. left. auto.
Qed.

Lemma each_op_some P ss : (forall t w, P t w \/ ~ P t w) -> ~ Forall (each_op P) ss -> Exists (fun s => ~ each_op P s) ss.
Proof.
  intros D. assert (K : forall s, each_op P s \/ ~ each_op P s).
  { intros s. induction s as [| |t w|xs IH|xs IH] using spec_members; try (left; exact I); [apply D| |];
      rewrite ?each_op_any, ?each_op_all; clear - IH;
      (induction IH as [|x xs [Hx|Hx] _ [H|H]]; [left; constructor|left; constructor; auto|right; intros X; inversion X; auto..]). }
  intros N. induction ss as [|s ss IH]; [exfalso; apply N; constructor|]. destruct (K s) as [H|H]; [|left; exact H].
  right. apply IH. intros F. apply N. now constructor.
Qed.

Lemma convert_errors s : spec_made s -> each_op plain_op s -> forall e, specifier_to_version_set s = Err e ->
  (e = ValueError /\ ~ each_op free_op s) \/ (e = RecursionError /\ ~ no_any s).
Proof.
  induction s as [| |t w|ss IH|ss IH] using spec_members.
  - intros _ _ e H. discriminate.
  - intros _ _ e H. discriminate.
  - intros M N e H. cbn in H. assert (O : ordinary w) by (split; [apply M|exact N]).
    destruct (op_stuck_dec t w) as [S|S].
    + rewrite (op_translate_stuck t w (proj1 O) S) in H. inversion H; subst. left. split; [reflexivity|]. intros X. exact (X S).
    + destruct (op_translate_sat t w O M S) as (a' & E & _). congruence.
  - rewrite made_any, each_op_any. intros [L M] N e H. rewrite each_op_any.
    assert (Q : Forall (fun s => (forall a, specifier_to_version_set s = Ok a -> canonical a)
                  /\ forall e, specifier_to_version_set s = Err e -> (e = ValueError /\ ~ each_op free_op s) \/ (e = RecursionError /\ ~ no_any s)) ss).
    { rewrite Forall_forall in *. intros s Is. split; [|auto]. intros a E. now destruct (convert_sound s (M s Is) (N s Is) a E). }
    assert (X : (e = RecursionError) \/ Exists (fun s => (e = ValueError /\ ~ each_op free_op s) \/ (e = RecursionError /\ ~ no_any s)) ss).
    { cbn [specifier_to_version_set] in H. destruct ss as [|s ss]; [cbn in L; lia|]. cbn [reduce_map] in H.
      inversion Q as [|? ? [C E] Qss]; subst. destruct (specifier_to_version_set s) as [y|e'] eqn:Ey; cbn [bind] in H.
      - apply (reduce_from_err union specifier_to_version_set ss (fun e => e = RecursionError)
          (fun s e => (e = ValueError /\ ~ each_op free_op s) \/ (e = RecursionError /\ ~ no_any s))) in H; auto.
        + destruct H as [H|H]; auto.
        + intros a b e' Ca Cb E'. destruct (union_exact a b Ca Cb) as [[_ Z]|(_ & r & Z & _)]; congruence.
        + intros a b r Ca Cb E'. now destruct (union_members a b r Ca Cb E').
      - inversion H; subst. right. left. auto. }
    destruct X as [->|X]; [right; split; auto|]. apply Exists_exists in X as (s & Is & [[-> K]|[-> K]]); [left|right]; (split; [reflexivity|auto]).
    rewrite Forall_forall. auto.
  - rewrite made_all, each_op_all. intros [L M] N e H. rewrite each_op_all, no_any_all.
    assert (Q : Forall (fun s => (forall a, specifier_to_version_set s = Ok a -> canonical a)
                  /\ forall e, specifier_to_version_set s = Err e -> (e = ValueError /\ ~ each_op free_op s) \/ (e = RecursionError /\ ~ no_any s)) ss).
    { rewrite Forall_forall in *. intros s Is. split; [|auto]. intros a E. now destruct (convert_sound s (M s Is) (N s Is) a E). }
    assert (X : Exists (fun s => (e = ValueError /\ ~ each_op free_op s) \/ (e = RecursionError /\ ~ no_any s)) ss).
    { cbn [specifier_to_version_set] in H. destruct ss as [|s ss]; [cbn in L; lia|]. cbn [reduce_map] in H.
      inversion Q as [|? ? [C E] Qss]; subst. destruct (specifier_to_version_set s) as [y|e'] eqn:Ey; cbn [bind] in H.
      - apply (reduce_from_err intersection specifier_to_version_set ss (fun e => False)
          (fun s e => (e = ValueError /\ ~ each_op free_op s) \/ (e = RecursionError /\ ~ no_any s))) in H; auto.
        + destruct H as [[]|H]; auto.
        + intros a b e' Ca Cb E'. destruct (intersection_versions a b Ca Cb) as (r & Z & _). congruence.
        + intros a b r Ca Cb E'. now destruct (intersection_members a b r Ca Cb E').
      - inversion H; subst. left. auto. }
    apply Exists_exists in X as (s & Is & [[-> K]|[-> K]]); [left|right]; (split; [reflexivity|]); rewrite Forall_forall; auto.
Qed.

(** ** Half-open specifiers *)

(** Sets made of half-open ranges [[a, b)] do not tell the two cuts at a version
    apart. *)
Definition half (a : vset) : Prop := forall k, dset a (Fin (k, false)) <-> dset a (Fin (k, true)).

Lemma half_no_point a v : canon a -> half a -> ~ In (Point v) (extract a).
Proof.
  intros C H I. assert (D : dset a (Fin (key v, true))).
  { apply H. exists (Point v). split; auto. apply den_point. reflexivity. }
  destruct D as (y & Iy & D1 & D2). pose proof (canon_chain a C) as Ch.
  assert (K : lo y = Fin (key v, true) \/ cle (lo y) (Fin (key v, false))).
  { destruct (clt_cle_dec (lo y) (Fin (key v, true))) as [A|A]; [right; now apply cut_step|left; now apply cle_antisym]. }
  destruct K as [K|K].
  - exact (chain_no_adjacent _ _ _ Ch I Iy (eq_trans (point_hi v) (eq_sym K))).
  - (* [y] covers the point: it is the point itself, which ends before *)
    assert (DY : den y (Fin (key v, false))) by (split; auto; pose proof (point_lt (key v)); corder).
    assert (DP : den (Point v) (Fin (key v, false))) by now apply den_point.
    clear K D1 H C. revert Ch I Iy. generalize (extract a) as xs. induction xs as [|z xs IH]; intros Ch I Iy; [destruct I|].
    pose proof (chain_proper _ Ch) as F. inversion F as [|? ? Pz F']; subst. destruct I as [E1|I], Iy as [E2|Iy]; subst.
    + rewrite point_hi in D2. now apply clt_irrefl in D2.
    + destruct Ch as [_ Ch]. pose proof (chain_from_lb _ _ _ Ch Iy) as L. rewrite point_hi in L. destruct DY as [DY _].
      pose proof (point_lt (key v)). corder.
    + destruct Ch as [_ Ch]. pose proof (chain_from_lb _ _ _ Ch I) as L. rewrite point_lo in L. destruct DY as [_ DY]. corder.
    + apply IH; auto. eapply chain_tail; eauto.
Qed.

Lemma half_no_clash a b : canon a -> canon b -> half a -> half b -> ~ union_stuck a b.
Proof.
  intros Ca Cb Ha Hb S. assert (P : exists v, In (Point v) (extract a ++ extract b)).
  { destruct a as [|i|xs], b as [|j|ys]; cbn [union_stuck] in S; try contradiction;
      try (destruct S as (v & _ & I & _); exists v; exact I).
    destruct S as [R _]. apply point_ends in R as (v & ->). exists v. left. reflexivity. }
  destruct P as (v & P). apply in_app_or in P as [P|P]; [exact (half_no_point a v Ca Ha P)|exact (half_no_point b v Cb Hb P)].
Qed.

Lemma half_range_set m M :
  half (Item (Range m M (match m with None => false | _ => true end) false)).
Proof.
  intros k. rewrite !dset_item. unfold den. rewrite range_lo, range_hi. pose proof (point_lt k) as P.
  assert (A : forall k', cle (Fin (k', false)) (Fin (k, false)) <-> cle (Fin (k', false)) (Fin (k, true))).
  { intros k'. split; [intros H; corder|]. intros H. destruct (clt_cle_dec (Fin (k, false)) (Fin (k', false))) as [L|L]; auto.
    apply cut_step' in L. destruct (clt_total (Fin (k, true)) (Fin (k', false))) as [X|[X|X]]; [corder|discriminate|corder]. }
  assert (B : forall k', clt (Fin (k, false)) (Fin (k', false)) <-> clt (Fin (k, true)) (Fin (k', false))).
  { intros k'. rewrite <- !not_cle. specialize (A k'). tauto. }
  destruct m as [m|], M as [M|]; cbn [lo_of hi_of negb].
  - rewrite A, B. reflexivity.
  - rewrite A. pose proof (cpos_gt (k, false)). pose proof (cpos_gt (k, true)). tauto.
  - rewrite B. pose proof (cneg_le (Fin (k, false))). pose proof (cneg_le (Fin (k, true))). tauto.
  - pose proof (cpos_gt (k, false)). pose proof (cpos_gt (k, true)). pose proof (cneg_le (Fin (k, false))). pose proof (cneg_le (Fin (k, true))). tauto.
Qed.

Lemma half_union a b r : canonical a -> canonical b -> half a -> half b -> union a b = Ok r -> half r.
Proof.
  rewrite !canonical_canon. intros Ca Cb Ha Hb E. destruct (union_spec a b Ca Cb) as [U _].
  destruct (U (half_no_clash a b Ca Cb Ha Hb)) as (r' & E' & _ & D). rewrite E in E'. inversion E'; subst r'.
  intros k. rewrite !D, (Ha k), (Hb k). reflexivity.
Qed.
Lemma half_intersection a b r : canonical a -> canonical b -> half a -> half b -> intersection a b = Ok r -> half r.
Proof.
  rewrite !canonical_canon. intros Ca Cb Ha Hb E. destruct (intersection_spec a b Ca Cb) as (r' & E' & _ & D).
  rewrite E in E'. inversion E'; subst r'. intros k. rewrite !D, (Ha k), (Hb k). reflexivity.
Qed.
Lemma half_complement a r : canonical a -> half a -> complement a = Ok r -> half r.
Proof.
  rewrite canonical_canon. intros Ca Ha E. destruct (complement_spec a Ca) as (r' & E' & _ & D).
  rewrite E in E'. inversion E'; subst r'. intros k. rewrite !D, (Ha k). pose proof (cpos_gt (k, false)). pose proof (cpos_gt (k, true)). tauto.
Qed.

Lemma range_half m M r : range_new (Some m) (Some M) true false = Ok r -> half (Item r).
Proof.
  intros H. destruct (range_new_cases (Some m) (Some M) true false) as [_ K].
  rewrite K in H by congruence. inversion H; subst. exact (half_range_set (Some m) (Some M)).
Qed.
Lemma universal_half : half UNIVERSAL_SET.
Proof. exact (half_range_set None None). Qed.

Lemma op_translate_half t w a : ordinary w -> op_made t w -> ~ op_stuck t w -> half_open_op t w ->
  op_translate t w = Ok a -> half a.
Proof.
  intros O M S H E.
  assert (B : forall x, bind x (fun u => bind (range_new (Some w) (Some u) true false) (fun r => Ok (Item r))) = Ok a -> half a).
  { intros [u|]; [|discriminate]. cbn [bind]. destruct (range_new (Some w) (Some u) true false) as [r|] eqn:R; [|discriminate].
    cbn [bind]. intros X. inversion X; subst. now apply range_half in R. }
  assert (W : forall a, translate_wildcard_equal w = Ok a -> half a).
  { clear B E. intros b. unfold translate_wildcard_equal. destruct (next_wildcard_breaking w) as [[u|]|]; cbn [bind]; [| |discriminate].
    - destruct (range_new (Some w) (Some u) true false) as [r|] eqn:R; [|discriminate].
      cbn [bind]. intros X. inversion X; subst. now apply range_half in R.
    - intros X. inversion X; subst. exact universal_half. }
  destruct t; cbn [half_open_op op_translate op_stuck] in *; try contradiction; try (now apply B in E); try (now apply W).
  - unfold translate_less in E. destruct (half_range None (Some w) false false) as [R _]; auto. rewrite R in E.
    inversion E; subst. exact (half_range_set None (Some w)).
  - unfold translate_greater_or_equal in E. destruct (half_range (Some w) None true false) as [R _]; auto; [discriminate|]. rewrite R in E.
    inversion E; subst. exact (half_range_set (Some w) None).
  - destruct (wildcard_translate w O S) as (b & Eb & Cb & _). unfold translate_wildcard_not_equal in E. rewrite Eb in E. cbn [bind] in E.
    destruct (complement b) as [c|] eqn:Ec; [|discriminate]. cbn [bind] in E.
    assert (c = a) by (destruct c; congruence). subst c. eapply half_complement; eauto.
Qed.

Lemma convert_half s : spec_made s -> each_op plain_op s -> each_op free_op s -> each_op half_open_op s ->
  exists a, specifier_to_version_set s = Ok a /\ canonical a /\ half a.
Proof.
  assert (R : forall f ss,
     (forall a b, canonical a -> canonical b -> half a -> half b -> exists r, f a b = Ok r /\ canonical r /\ half r) ->
     Forall (fun s => exists a, specifier_to_version_set s = Ok a /\ canonical a /\ half a) ss ->
     forall acc, canonical acc -> half acc -> exists a, reduce_from f specifier_to_version_set acc ss = Ok a /\ canonical a /\ half a).
  { clear s. intros f ss Hf. induction 1 as [|s ss (y & E & C & H) _ IH]; intros acc Ca Ha; cbn [reduce_from]; [eauto|].
    rewrite E. cbn [bind]. destruct (Hf acc y Ca C Ha H) as (r & Er & Cr & Hr). rewrite Er. cbn [bind]. auto. }
  assert (RU : forall a b, canonical a -> canonical b -> half a -> half b -> exists r, union a b = Ok r /\ canonical r /\ half r).
  { intros a b Ca Cb Ha Hb. pose proof (half_no_clash a b) as K. rewrite <- !canonical_canon in K.
    rewrite <- union_clash_stuck in K by now apply canonical_canon.
    destruct (union_exact a b Ca Cb) as [[X _]|(_ & r & E & C & _)]; [exfalso; exact (K Ca Cb Ha Hb X)|].
    exists r. split; [exact E|]. split; [exact C|]. exact (half_union a b r Ca Cb Ha Hb E). }
  assert (RI : forall a b, canonical a -> canonical b -> half a -> half b -> exists r, intersection a b = Ok r /\ canonical r /\ half r).
  { intros a b Ca Cb Ha Hb. destruct (intersection_versions a b Ca Cb) as (r & E & C & _).
    exists r. split; [exact E|]. split; [exact C|]. exact (half_intersection a b r Ca Cb Ha Hb E). }
  induction s as [| |t w|ss IH|ss IH] using spec_members.
  - intros. exists Empty. split; [reflexivity|]. split; [exact I|]. intros k. rewrite !dset_empty. reflexivity.
  - intros. exists UNIVERSAL_SET. split; [reflexivity|]. split; [apply canonical_canon, canon_universal|exact universal_half].
  - intros M N F H. destruct (op_translate_sat t w) as (a & E & C & _); auto; [split; [apply M|exact N]|].
    exists a. split; auto. split; auto. apply (op_translate_half t w a); auto. split; [apply M|exact N].
  - rewrite made_any, !each_op_any. intros [L M] N F H.
    assert (Q : Forall (fun s => exists a, specifier_to_version_set s = Ok a /\ canonical a /\ half a) ss)
      by (rewrite Forall_forall in *; auto).
    cbn [specifier_to_version_set]. destruct ss as [|s ss]; [cbn in L; lia|]. cbn [reduce_map].
    inversion Q as [|? ? (y & E & C & Hy) Qss]; subst. rewrite E. cbn [bind]. now apply R.
  - rewrite made_all, !each_op_all. intros [L M] N F H.
    assert (Q : Forall (fun s => exists a, specifier_to_version_set s = Ok a /\ canonical a /\ half a) ss)
      by (rewrite Forall_forall in *; auto).
    cbn [specifier_to_version_set]. destruct ss as [|s ss]; [cbn in L; lia|]. cbn [reduce_map].
    inversion Q as [|? ? (y & E & C & Hy) Qss]; subst. rewrite E. cbn [bind]. now apply R.
Qed.

(** ** Sets to specifiers *)

Lemma order_op t w v : match t with
  | LESS | LESS_OR_EQUAL | GREATER | GREATER_OR_EQUAL | EQUAL | DOUBLE_EQUAL | NOT_EQUAL =>
      exists b, op_matches t v w = Ok b /\ (b = true <-> op_sat t w v)
  | _ => True
  end.
Proof.
  destruct t; cbn [op_matches op_sat]; auto.
  - eexists. split; [reflexivity|]. reflexivity.
  - eexists. split; [reflexivity|]. unfold v_ne, v_eq. destruct (is_eq _); intuition discriminate.
  - eexists. split; [reflexivity|]. reflexivity.
  - eexists. split; [reflexivity|]. reflexivity.
  - eexists. split; [reflexivity|]. now rewrite v_gt_lt.
  - eexists. split; [reflexivity|]. now rewrite v_ge_le.
  - eexists. split; [reflexivity|]. reflexivity.
Qed.

Definition lo_op (b : bool) : op_type := if b then GREATER_OR_EQUAL else GREATER.
Definition hi_op (b : bool) : op_type := if b then LESS_OR_EQUAL else LESS.

Lemma lo_op_spec m b v : exists x, op_matches (lo_op b) v m = Ok x /\ (x = true <-> above_min (Some m) b v).
Proof.
  destruct b; cbn [lo_op above_min].
  - destruct (order_op GREATER_OR_EQUAL m v) as (x & E & H). eauto.
  - destruct (order_op GREATER m v) as (x & E & H). eauto.
Qed.
Lemma hi_op_spec m b v : exists x, op_matches (hi_op b) v m = Ok x /\ (x = true <-> below_max (Some m) b v).
Proof.
  destruct b; cbn [hi_op below_max].
  - destruct (order_op LESS_OR_EQUAL m v) as (x & E & H). eauto.
  - destruct (order_op LESS m v) as (x & E & H). eauto.
Qed.

Lemma lo_op_translate m b : op_translate (lo_op b) m = Ok (Item (Range (Some m) None b false))
  /\ proper (Range (Some m) None b false).
Proof.
  destruct b; cbn [lo_op op_translate].
  - destruct (half_range (Some m) None true false) as [E C]; auto; [discriminate|]. unfold translate_greater_or_equal. rewrite E. split; auto. now apply good_item_proper.
  - destruct (half_range (Some m) None false false) as [E C]; auto. unfold translate_greater. rewrite E. split; auto. now apply good_item_proper.
Qed.
Lemma hi_op_translate m b : op_translate (hi_op b) m = Ok (Item (Range None (Some m) false b))
  /\ proper (Range None (Some m) false b).
Proof.
  destruct b; cbn [hi_op op_translate].
  - destruct (half_range None (Some m) false true) as [E C]; auto; [discriminate|]. unfold translate_less_or_equal. rewrite E. split; auto. now apply good_item_proper.
  - destruct (half_range None (Some m) false false) as [E C]; auto. unfold translate_less. rewrite E. split; auto. now apply good_item_proper.
Qed.

(** The specifier of a proper item. *)
Definition item_spec (i : item) : spec :=
  match i with
  | Point v => One DOUBLE_EQUAL v
  | Range None None _ _ => Always
  | Range (Some m) None b _ => One (lo_op b) m
  | Range None (Some M) _ c => One (hi_op c) M
  | Range (Some m) (Some M) b c => AllOf [One (lo_op b) m; One (hi_op c) M]
  end.

Lemma item_to_specifier_eq i : proper i -> item_to_specifier i = Ok (item_spec i).
Proof.
  intros P. destruct i as [v|min max imin imax]; [reflexivity|]. unfold item_to_specifier, try_range_simple.
  rewrite item_is_empty_proper, item_is_point_proper by exact P. unfold item_is_universal, is_unbounded.
  destruct min as [m|], max as [M|]; destruct imin, imax; reflexivity.
Qed.

Lemma item_spec_accepts i v : exists b, accepts (item_spec i) v = Ok b /\ (b = true <-> in_item i v).
Proof.
  destruct i as [w|[m|] [M|] b c]; cbn [item_spec accepts in_item].
  - destruct (order_op DOUBLE_EQUAL w v) as (x & E & H). exists x. split; [exact E|]. rewrite H. cbn. now rewrite v_eq_sym.
  - destruct (lo_op_spec m b v) as (x & E & H), (hi_op_spec M c v) as (y & E' & H').
    exists (x && y). cbn [all_r accepts]. rewrite E. cbn [bind]. destruct x.
    + cbn [all_r accepts]. rewrite E'. cbn [bind]. destruct y; cbn; (split; [reflexivity|]); tauto.
    + cbn. split; [reflexivity|]. intuition discriminate.
  - destruct (lo_op_spec m b v) as (x & E & H). exists x. split; [exact E|]. rewrite H. cbn. tauto.
  - destruct (hi_op_spec M c v) as (x & E & H). exists x. split; [exact E|]. rewrite H. cbn. tauto.
  - exists true. cbn. tauto.
Qed.

Lemma item_spec_convert i : proper i -> exists j, specifier_to_version_set (item_spec i) = Ok (Item j) /\ proper j /\ lo j = lo i /\ hi j = hi i.
Proof.
  intros P. destruct i as [w|[m|] [M|] b c]; cbn [item_spec specifier_to_version_set].
  - exists (Point w). auto.
  - cbn [reduce_map reduce_from specifier_to_version_set]. destruct (lo_op_translate m b) as [E1 P1], (hi_op_translate M c) as [E2 P2].
    rewrite E1. cbn [bind]. rewrite E2. cbn [bind].
    destruct (intersection_spec _ _ (P1 : canon (Item _)) (P2 : canon (Item _))) as (r & E & C & D). rewrite E. cbn [bind].
    assert (K : set_eqb r (Item (Range (Some m) (Some M) b c)) = true).
    { apply set_eqb_iff; auto. intros x. rewrite D, !dset_item. unfold den. rewrite !range_lo, !range_hi. cbn [lo_of hi_of].
      pose proof (cneg_le x). split; [tauto|]. intros [X Y]. repeat split; auto. pose proof (cpos_ge (Fin (key M, c))). corder. }
    destruct r as [|j|]; cbn [set_eqb] in K; try discriminate. exists j. split; [reflexivity|]. split; [exact C|].
    apply item_eqb_iff in K; auto using proper_valid.
  - destruct (lo_op_translate m b) as [E1 P1]. exists (Range (Some m) None b false). split; [exact E1|]. split; [exact P1|]. split; reflexivity.
  - destruct (hi_op_translate M c) as [E1 P1]. exists (Range None (Some M) false c). split; [exact E1|]. split; [exact P1|].
    split; reflexivity.
  - exists UNIVERSAL. split; [reflexivity|]. split; [exact canon_universal|]. split; reflexivity.
Qed.

Lemma chain_ends xs ys : Forall2 (fun x y => lo x = lo y /\ hi x = hi y /\ (proper y -> proper x)) xs ys -> chain ys -> chain xs.
Proof.
  assert (K : forall xs ys, Forall2 (fun x y => lo x = lo y /\ hi x = hi y /\ (proper y -> proper x)) xs ys ->
     forall c, chain_from c ys -> chain_from c xs).
  { induction 1 as [|x y us vs (E1 & E2 & P) _ IH]; intros c; cbn [chain_from]; auto.
    rewrite E1, E2. intros (Q & L & C). auto. }
  intros F. destruct F as [|x y us vs (E1 & E2 & P) F]; cbn [chain]; auto. rewrite E2. intros [Q C]. split; auto. eapply K; eauto.
Qed.

Lemma items_eqb_ends xs : forall ys, Forall proper xs -> Forall proper ys -> items_eqb xs ys = true ->
  Forall2 (fun x y => lo x = lo y /\ hi x = hi y /\ (proper y -> proper x)) xs ys.
Proof.
  induction xs as [|x xs IH]; intros [|y ys] Fx Fy; cbn [items_eqb]; try discriminate; [constructor|].
  rewrite andb_true_iff. intros [E1 E2]. inversion Fx as [|? ? Px Fx']; inversion Fy as [|? ? Py Fy']; subst.
  constructor; auto. apply item_eqb_iff in E1; auto using proper_valid. tauto.
Qed.

Lemma union_of_chain a b xs ys : canon a -> canon b -> (forall c, dset a c <-> dens xs c) -> (forall c, dset b c <-> dens ys c) ->
  chain (xs ++ ys) -> exists r, union a b = Ok r /\ canon r /\ forall c, dset r c <-> dens (xs ++ ys) c.
Proof.
  intros Ca Cb Da Db Ch.
  assert (SP : chain xs /\ chain ys).
  { clear - Ch. induction xs as [|x xs IH]; [split; [exact I|exact Ch]|]. destruct (IH (chain_tail _ _ Ch)) as [C1 C2].
    split; auto. destruct Ch as [P C]. split; auto. destruct xs as [|y xs]; [exact I|]. cbn in C |- *. destruct C as (Q & L & _).
    split; auto. split; auto. destruct C1 as [_ C1]. exact C1. }
  destruct SP as [Cx Cy].
  assert (Ex : items_eqb (extract a) xs = true) by (apply chain_unique; auto; now apply canon_chain).
  assert (Ey : items_eqb (extract b) ys = true) by (apply chain_unique; auto; now apply canon_chain).
  apply items_eqb_ends in Ex; [|now apply canon_proper|now apply chain_proper].
  apply items_eqb_ends in Ey; [|now apply canon_proper|now apply chain_proper].
  assert (Cab : chain (extract a ++ extract b)) by (eapply chain_ends; [apply Forall2_app; eauto|exact Ch]).
  destruct (union_spec a b Ca Cb) as [U _].
  destruct U as (r & E & C & D).
  { intros S. destruct a as [|i|us], b as [|j|vs]; cbn [union_stuck] in S; try contradiction;
      try (exact (chain_not_stuck _ Cab S)).
    destruct S as [_ S]. apply (chain_no_adjacent _ i j Cab); [left; reflexivity|right; left; reflexivity|exact S]. }
  exists r. split; auto. split; auto. intros c. rewrite D, Da, Db, dens_app. reflexivity.
Qed.

Lemma reduce_items items : forall acc done, canon acc -> (forall c, dset acc c <-> dens done c) -> chain (done ++ items) ->
  exists r, reduce_from union specifier_to_version_set acc (map item_spec items) = Ok r
    /\ canon r /\ forall c, dset r c <-> dens (done ++ items) c.
Proof.
  induction items as [|i items IH]; intros acc done C D Ch; cbn [map reduce_from].
  - exists acc. rewrite app_nil_r. auto.
  - assert (Pi : proper i).
    { pose proof (chain_proper _ Ch) as F. rewrite Forall_forall in F. apply F. apply in_or_app. right. left. reflexivity. }
    destruct (item_spec_convert i Pi) as (j & E & Pj & El & Eh). rewrite E. cbn [bind].
    assert (Ch' : chain (done ++ [i])).
    { clear - Ch. induction done as [|x done IH]; cbn [app] in *; [destruct Ch as [P _]; split; [exact P|exact I]|].
      pose proof (IH (chain_tail _ _ Ch)) as C. destruct Ch as [P K]. split; auto.
      destruct done as [|y done]; cbn in *; [destruct K as (? & ? & _); auto|]. destruct K as (? & ? & _). destruct C. auto. }
    destruct (union_of_chain acc (Item j) done [i] C Pj D) as (r & Er & Cr & Dr); auto.
    { intros c. rewrite dset_item, dens_cons, dens_nil. unfold den. rewrite El, Eh. tauto. }
    rewrite Er. cbn [bind]. destruct (IH r (done ++ [i]) Cr Dr) as (r' & E' & Cr' & Dr').
    { now rewrite <- app_assoc. }
    exists r'. split; auto. split; auto. intros c. rewrite Dr'. now rewrite <- app_assoc.
Qed.

Lemma mapM_items items : Forall proper items -> mapM item_to_specifier items = Ok (map item_spec items).
Proof.
  induction 1 as [|i items P _ IH]; [reflexivity|]. cbn [mapM map]. rewrite item_to_specifier_eq by assumption. cbn [bind].
  now rewrite IH.
Qed.

Lemma dset_bounded a c : dset a c -> clt c PosInf.
Proof. intros (x & _ & _ & H). pose proof (cpos_ge (hi x)). corder. Qed.

Lemma dset_dec a c : dset a c \/ ~ dset a c.
Proof.
  unfold dset. induction (extract a) as [|x xs IH]; [right; now rewrite dens_nil|]. rewrite dens_cons. unfold den.
  rewrite <- not_clt. destruct (clt_cle_dec c (lo x)) as [A|A], (clt_cle_dec c (hi x)) as [B|B]; rewrite <- ?not_clt in *; tauto.
Qed.

Lemma set_convert a : canonical a -> exists s, version_set_to_specifier a = Ok s
  /\ (forall v, exists b, accepts s v = Ok b /\ (b = true <-> contains a v = true))
  /\ exists b, specifier_to_version_set s = Ok b /\ canonical b /\ set_eqb b a = true.
Proof.
  rewrite canonical_canon. intros C. destruct a as [|i|items].
  - exists Never. split; [reflexivity|]. split; [exists false; cbn; intuition discriminate|].
    exists Empty. split; [reflexivity|]. split; [exact I|reflexivity].
  - exists (item_spec i). split; [now apply item_to_specifier_eq|]. split.
    + intros v. destruct (item_spec_accepts i v) as (b & E & H). exists b. split; auto. rewrite H. now rewrite in_set_contains.
    + destruct (item_spec_convert i C) as (j & E & Pj & El & Eh). exists (Item j). split; auto. split; [now apply canonical_canon|].
      cbn [set_eqb]. apply item_eqb_iff; auto using proper_valid.
  - cbn [version_set_to_specifier]. unfold exclude_version. destruct (complement_spec (Union items) C) as (r & Er & Cr & Dr). rewrite Er. cbn [bind].
    assert (OTHER : exists s, bind (mapM item_to_specifier items) (fun ss => Ok (any_of ss)) = Ok s
      /\ (forall v, exists b, accepts s v = Ok b /\ (b = true <-> contains (Union items) v = true))
      /\ exists b, specifier_to_version_set s = Ok b /\ canonical b /\ set_eqb b (Union items) = true).
    { destruct C as [Ch L]. pose proof (chain_proper _ Ch) as F. rewrite mapM_items by assumption. cbn [bind].
      destruct items as [|i [|i' items]]; cbn [List.length] in L; [lia|lia|].
      exists (AnyOf (map item_spec (i :: i' :: items))). split; [reflexivity|]. split.
      - intros v. destruct (any_r_sat (fun s => accepts s v) (fun s => exists b, accepts s v = Ok b /\ b = true) (map item_spec (i :: i' :: items))) as (b & E & H).
        + rewrite Forall_forall. intros s Is. apply in_map_iff in Is as (x & <- & Ix). destruct (item_spec_accepts x v) as (b & E & _).
          exists b. split; auto. split; [eauto|]. intros (b' & E' & ->). congruence.
        + exists b. split; [exact E|]. rewrite H. cbn [contains]. rewrite existsb_exists, Exists_exists. split.
          * intros (s & Is & b' & Eb & ->). apply in_map_iff in Is as (x & <- & Ix). exists x. split; auto.
            apply in_item_contains. destruct (item_spec_accepts x v) as (b' & E' & H'). apply H'. congruence.
          * intros (x & Ix & Hx). exists (item_spec x). split; [now apply in_map|]. destruct (item_spec_accepts x v) as (b' & E' & H').
            exists b'. split; auto. apply H'. now apply in_item_contains.
      - cbn [specifier_to_version_set map reduce_map]. inversion F as [|? ? Pi F']; subst.
        destruct (item_spec_convert i Pi) as (j & E & Pj & El & Eh). rewrite E. cbn [bind].
        destruct (reduce_items (i' :: items) (Item j) [i] Pj) as (r' & E' & Cr' & Dr'); [|exact Ch|].
        { intros c. rewrite dset_item, dens_cons, dens_nil. unfold den. rewrite El, Eh. tauto. }
        exists r'. split; [exact E'|]. split; [now apply canonical_canon|]. apply set_eqb_iff; auto.
        split; [exact Ch|]. cbn. lia. }
    destruct r as [|[v|]|]; try exact OTHER. clear OTHER. exists (One NOT_EQUAL v). split; [reflexivity|].
    assert (D : forall c, dset (Union items) c <-> clt c PosInf /\ c <> at_version v).
    { intros c. specialize (Dr c). rewrite dset_item, den_point in Dr. split.
      - intros H. split; [now apply dset_bounded in H|]. intros X. tauto.
      - intros [H N]. destruct (dset_dec (Union items) c) as [K|K]; auto. exfalso. apply N, Dr. auto. }
    split.
    + intros w. destruct (order_op NOT_EQUAL v w) as (b & E & H). exists b. split; [exact E|]. rewrite H.
      rewrite contains_iff, D by exact C. cbn [op_sat]. pose proof (cpos_gt (key w, false)) as B.
      unfold at_version. split.
      * intros X. split; [exact B|]. intros Y. assert (v_eq w v = true) by (apply eq_key; congruence). congruence.
      * intros [_ N]. destruct (v_eq w v) eqn:X; auto. exfalso. apply N. apply eq_key in X. now rewrite X.
    + cbn [specifier_to_version_set op_translate]. unfold translate_not_equal, translate_equal. cbn [bind].
      destruct (complement_union (Point v) v v false true) as (xs & E & Cx & _); [exact I|reflexivity|reflexivity|].
      destruct (complement_spec (Item (Point v)) I) as (r & E' & _ & D'). rewrite E in E'. inversion E'; subst r.
      rewrite E. cbn [bind]. exists (Union xs). split; [reflexivity|]. split; auto. apply canonical_canon in Cx. apply set_eqb_iff; auto.
      intros c. rewrite D', D, dset_item, den_point. reflexivity.
Qed.

(** ** Equal sets give equal specifiers *)

Lemma fin_pair (k k' : vkey) (b b' : bool) : @Fin (vkey * bool) (k, b) = Fin (k', b') -> k = k' /\ b = b'.
Proof. intros H. assert (E : (k, b) = (k', b')) by congruence. clear H. now apply pair_equal_spec in E. Qed.

Lemma item_spec_eq i j : proper i -> proper j -> lo i = lo j -> hi i = hi j -> spec_eqb (item_spec i) (item_spec j) = true.
Proof.
  intros Pi Pj L H. destruct i as [v|min max b c], j as [w|min' max' b' c'].
  - rewrite !point_lo in L. cbn. apply eq_key. congruence.
  - exfalso. symmetry in L, H. revert L H. rewrite point_lo, point_hi. intros L H. exact (proper_not_point _ _ _ _ v Pj (conj L H)).
  - exfalso. revert L H. rewrite point_lo, point_hi. intros L H. exact (proper_not_point _ _ _ _ w Pi (conj L H)).
  - rewrite !range_lo in L. rewrite !range_hi in H.
    assert (EQ : forall t x y, key x = key y -> op_eqb t t && v_eq x y = true).
    { intros t x y E. apply andb_true_iff. split; [now destruct t|now apply eq_key]. }
    destruct min as [m|], max as [M|], min' as [m'|], max' as [M'|]; cbn [lo_of hi_of] in L, H; try discriminate;
      cbn [item_spec].
    + apply fin_pair in L as [L1 L2]. apply fin_pair in H as [J1 J2]. assert (b = b') by (destruct b, b'; congruence || discriminate L2). subst b'.
      subst c'. cbn [spec_eqb]. rewrite !EQ by assumption. reflexivity.
    + apply fin_pair in L as [L1 L2]. assert (b = b') by (destruct b, b'; congruence || discriminate L2). subst b'. cbn [spec_eqb]. now apply EQ.
    + apply fin_pair in H as [J1 J2]. subst c'. cbn [spec_eqb]. now apply EQ.
    + reflexivity.
Qed.

Lemma spec_eqb_any ss us : spec_eqb (AnyOf ss) (AnyOf us) = true <-> Forall2 (fun s u => spec_eqb s u = true) ss us.
Proof.
  revert us. induction ss as [|s ss IH]; intros [|u us].
  - split; [constructor|reflexivity].
  - split; [discriminate|intros H; inversion H].
  - split; [discriminate|intros H; inversion H].
  - change (spec_eqb (AnyOf (s :: ss)) (AnyOf (u :: us))) with (spec_eqb s u && spec_eqb (AnyOf ss) (AnyOf us)).
    rewrite andb_true_iff, IH. split; [intros []; constructor; auto|intros H; inversion H; auto].
Qed.
Lemma spec_eqb_all ss us : spec_eqb (AllOf ss) (AllOf us) = true <-> Forall2 (fun s u => spec_eqb s u = true) ss us.
Proof. exact (spec_eqb_any ss us). Qed.

Lemma set_to_specifier_eq a b : canonical a -> canonical b -> set_eqb a b = true ->
  exists s u, version_set_to_specifier a = Ok s /\ version_set_to_specifier b = Ok u /\ spec_eqb s u = true.
Proof.
  rewrite !canonical_canon. intros Ca Cb E. pose proof (proj1 (set_eqb_iff a b Ca Cb) E) as D.
  destruct a as [|i|xs], b as [|j|ys]; cbn [set_eqb] in E; try discriminate.
  - exists Never, Never. auto.
  - exists (item_spec i), (item_spec j). cbn [version_set_to_specifier]. rewrite !item_to_specifier_eq by assumption.
    split; [reflexivity|]. split; [reflexivity|]. apply item_eqb_iff in E; auto using proper_valid. destruct E. now apply item_spec_eq.
  - cbn [version_set_to_specifier]. unfold exclude_version.
    destruct (complement_spec _ Ca) as (r & Er & Cr & Dr), (complement_spec _ Cb) as (q & Eq & Cq & Dq). rewrite Er, Eq. cbn [bind].
    assert (RQ : set_eqb r q = true).
    { apply set_eqb_iff; auto. intros c. rewrite Dr, Dq, D. reflexivity. }
    pose proof (canon_proper _ Ca) as Fx. pose proof (canon_proper _ Cb) as Fy. cbn [extract] in Fx, Fy.
    assert (OTHER : exists s u, bind (mapM item_to_specifier xs) (fun ss => Ok (any_of ss)) = Ok s
        /\ bind (mapM item_to_specifier ys) (fun ss => Ok (any_of ss)) = Ok u /\ spec_eqb s u = true).
    { rewrite !mapM_items by assumption. cbn [bind]. exists (any_of (map item_spec xs)), (any_of (map item_spec ys)).
      split; [reflexivity|]. split; [reflexivity|].
      assert (F : Forall2 (fun s u => spec_eqb s u = true) (map item_spec xs) (map item_spec ys)).
      { pose proof (items_eqb_ends xs ys Fx Fy E) as F. clear - F Fx Fy.
        induction F as [|x y xs ys (H1 & H2 & _) F IH]; [constructor|]. inversion Fx; inversion Fy; subst.
        constructor; [now apply item_spec_eq|now apply IH]. }
      destruct Ca as [_ Lx], Cb as [_ Ly]. destruct xs as [|x [|x' xs]]; cbn in Lx; try lia. destruct ys as [|y [|y' ys]]; cbn in Ly; try lia.
      now apply spec_eqb_any. }
    destruct r as [|[v|min max b c]|zs], q as [|[w|min' max' b' c']|zs']; try discriminate RQ; try exact OTHER.
    + eexists. eexists. split; [reflexivity|]. split; [reflexivity|]. cbn [set_eqb] in RQ.
      apply item_eqb_iff in RQ as [L _]; auto using proper_valid. rewrite !point_lo in L. apply fin_pair in L as [L _].
      cbn. now apply eq_key.
    + exfalso. cbn [set_eqb] in RQ. apply item_eqb_iff in RQ as [L H]; auto using proper_valid.
      symmetry in L, H. rewrite point_lo in L. rewrite point_hi in H. exact (proper_not_point _ _ _ _ v Cq (conj L H)).
    + exfalso. cbn [set_eqb] in RQ. apply item_eqb_iff in RQ as [L H]; auto using proper_valid.
      rewrite point_lo in L. rewrite point_hi in H. exact (proper_not_point _ _ _ _ w Cr (conj L H)).
Qed.

Lemma simplify_sound s u : spec_made s -> each_op plain_op s -> simplify s = Ok u ->
  (forall v, exists b, accepts s v = Ok b /\ accepts u v = Ok b)
  /\ exists u', simplify u = Ok u' /\ spec_eqb u' u = true.
Proof.
  intros M N H. unfold simplify in H. destruct (specifier_to_version_set s) as [a|] eqn:E; [|discriminate]. cbn [bind] in H.
  destruct (convert_sound s M N a E) as (Ca & Ma & _). destruct (set_convert a Ca) as (u' & E' & A & b & Eb & Cb & Q).
  rewrite E' in H. inversion H; subst u'. split.
  - intros v. destruct (accepts_sat s v M) as (x & Ex & Hx), (A v) as (y & Ey & Hy). exists y. split; auto.
    rewrite Ex. f_equal. destruct x, y; auto; exfalso; rewrite Ma in Hy; intuition discriminate.
  - unfold simplify. rewrite Eb. cbn [bind]. destruct (set_to_specifier_eq b a Cb Ca Q) as (s1 & s2 & H1 & H2 & H3).
    exists s1. split; auto. congruence.
Qed.

Lemma simplify_total s : spec_made s -> each_op plain_op s ->
  (exists a, specifier_to_version_set s = Ok a) <-> (exists u, simplify s = Ok u).
Proof.
  intros M N. unfold simplify. split.
  - intros (a & E). rewrite E. cbn [bind]. destruct (convert_sound s M N a E) as (Ca & _).
    destruct (set_convert a Ca) as (u & Eu & _). eauto.
  - intros (u & H). destruct (specifier_to_version_set s) as [a|]; [eauto|discriminate].
Qed.

(** ** Equal versions and equal specifiers *)

Lemma cmp_eq v w u : v_eq v w = true -> v_cmp u v = v_cmp u w /\ v_cmp v u = v_cmp w u.
Proof. intros H. apply eq_key in H. unfold v_cmp. now rewrite H. Qed.

Lemma op_matches_congr t v w u : v_eq v w = true -> op_matches t v u = op_matches t w u.
Proof.
  intros H. assert (B : forall x, between u v x = between u w x).
  { intros x. unfold between, v_le. destruct (cmp_eq v w u H) as [-> _]. destruct (v_cmp u w); auto;
      destruct x as [y|]; auto; cbn [bind]; unfold v_lt; destruct (cmp_eq v w y H) as [_ ->]; reflexivity. }
  assert (W : matches_wildcard_equal v u = matches_wildcard_equal w u).
  { unfold matches_wildcard_equal. destruct (next_wildcard_breaking u) as [[y|]|]; auto; cbn [bind]; apply B. }
  destruct (cmp_eq v w u H) as [_ K].
  destruct t; cbn [op_matches]; unfold matches_caret, matches_tilde, matches_tilde_equal, matches_equal, matches_not_equal, matches_less,
    matches_less_or_equal, matches_greater, matches_greater_or_equal, matches_wildcard_not_equal, v_eq, v_ne, v_lt, v_le, v_gt, v_ge;
    try apply B; try exact W; try (now rewrite K); try (now rewrite W).
Qed.

Lemma accepts_congr s v w : v_eq v w = true -> accepts s v = accepts s w.
Proof.
  intros H. induction s as [| |t u|ss IH|ss IH] using spec_members; auto; cbn [accepts].
  - now apply op_matches_congr.
  - induction IH as [|s ss E _ IH]; auto. cbn [any_r]. now rewrite E, IH.
  - induction IH as [|s ss E _ IH]; auto. cbn [all_r]. now rewrite E, IH.
Qed.

Lemma contains_congr a v w : v_eq v w = true -> contains a v = contains a w.
Proof.
  intros H. rewrite !contains_extract. induction (extract a) as [|x xs IH]; auto. cbn [existsb]. f_equal; auto.
  destruct x as [u|min max b c]; cbn [item_contains].
  - unfold v_eq. destruct (cmp_eq v w u H) as [-> _]. reflexivity.
  - unfold comparable_min, comparable_max, b_cmp. cbn [i_min i_max]. destruct min as [m|], max as [M|]; cbn [lower_bound upper_bound ext_cmp];
      repeat match goal with |- context [v_cmp v ?x] => destruct (cmp_eq v w x H) as [_ ->] end; reflexivity.
Qed.

Lemma length_same v w : valid_version v = true -> valid_version w = true -> v_eq v w = true ->
  List.length (v_release v) = List.length (v_release w) -> v = w.
Proof.
  intros Vv Vw E L. apply eq_same in E; auto. destruct E as (E1 & E2 & E3 & E4 & E5 & E6).
  destruct v, w; cbn in *. subst. f_equal. now apply part_ext.
Qed.

Lemma op_sat_swap t t' w v : op_eqb t t' = true -> op_sat t w v <-> op_sat t' w v.
Proof. destruct t, t'; try discriminate; reflexivity. Qed.

Lemma op_sat_lax t w w' v : valid_version w = true -> valid_version w' = true -> v_eq w w' = true -> op_lax t w ->
  op_sat t w v -> op_sat t w' v.
Proof.
  intros Vw Vw' E L. pose proof E as S. apply eq_same in S; auto. destruct S as (E1 & E2 & E3 & E4 & E5 & E6).
  assert (FN : final w <-> final w') by (unfold final; rewrite E3, E5; reflexivity).
  destruct (valid_parts w Vw) as (Nr & _). destruct (valid_parts w' Vw') as (Nr' & _).
  assert (LE : v_le w v = v_le w' v) by (unfold v_le; destruct (cmp_eq w w' v E) as [_ ->]; reflexivity).
  assert (BARE : forall r r', r <> [] -> r' <> [] -> rel_same r r' -> v_lt v (bare (v_epoch w) r) = v_lt v (bare (v_epoch w') r')).
  { intros r r' N N' R. unfold v_lt. destruct (cmp_eq (bare (v_epoch w) r) (bare (v_epoch w') r') v) as [-> _]; [|reflexivity].
    apply eq_same; [now apply bare_valid..|]. repeat split; auto. }
  assert (BN : forall r i b, bumped r i b -> b <> []) by (intros r i b [X _] ->; cbn in X; lia).
  assert (WN : ~ final w -> (wildcard_any w \/ from_to wildcard_upper w v) <-> (wildcard_any w' \/ from_to wildcard_upper w' v)).
  { intros NF. assert (NF' : ~ final w') by tauto. unfold wildcard_any, from_to. rewrite <- LE.
    assert (K : (exists u, wildcard_upper w u /\ v_lt v u = true) <-> (exists u, wildcard_upper w' u /\ v_lt v u = true)).
    { split; intros (u & (r & -> & _ & _ & U) & H).
      - rewrite (U NF) in *. exists (bare (v_epoch w') (v_release w')). split; [|rewrite <- (BARE (v_release w)); auto].
        exists (v_release w'). split; [reflexivity|]. split; [intros; contradiction|]. split; [intros; contradiction|auto].
      - rewrite (U NF') in *. exists (bare (v_epoch w) (v_release w)). split; [|rewrite (BARE _ (v_release w')); auto].
        exists (v_release w). split; [reflexivity|]. split; [intros; contradiction|]. split; [intros; contradiction|auto]. }
    rewrite K. tauto. }
  destruct t; cbn [op_lax op_sat] in *; try contradiction.
  - unfold v_eq. destruct (cmp_eq w w' v E) as [-> _]. auto.
  - unfold v_eq. destruct (cmp_eq w w' v E) as [-> _]. auto.
  - unfold v_lt. destruct (cmp_eq w w' v E) as [-> _]. auto.
  - unfold v_le. destruct (cmp_eq w w' v E) as [-> _]. auto.
  - unfold v_lt. destruct (cmp_eq w w' v E) as [_ ->]. auto.
  - unfold v_le. destruct (cmp_eq w w' v E) as [_ ->]. auto.
  - unfold from_to. rewrite LE. intros [H (u & (r & -> & U1 & U2 & U3) & K)]. split; auto.
    destruct (caret_bound w' Vw') as (u' & _ & U'). pose proof (proj2 (U' u') eq_refl) as X. exists u'. split; auto.
    destruct X as (r' & -> & X1 & X2 & X3).
    assert (Z0 : part (v_release w) 0 = part (v_release w') 0) by apply E2.
    rewrite <- (BARE r r'); auto; clear K.
    + destruct (Z.eq_dec (part (v_release w) 0) 0) as [Z1|Z1].
      * rewrite (U2 ltac:(tauto) Z1). auto.
      * destruct (is_stable w) eqn:S; [apply stable_final in S; exact (BN _ _ _ (U1 S))|apply unstable_final in S; exact (BN _ _ _ (U3 S Z1))].
    + destruct (Z.eq_dec (part (v_release w) 0) 0) as [Z1|Z1].
      * rewrite (X2 ltac:(tauto) ltac:(congruence)). auto.
      * assert (part (v_release w') 0 <> 0) by congruence.
        destruct (is_stable w') eqn:S; [apply stable_final in S; exact (BN _ _ _ (X1 S))|apply unstable_final in S; exact (BN _ _ _ (X3 S H0))].
    + assert (BR : forall s, part s 0 <> 0 -> breaking_index s = 0%nat).
      { intros s Hs. destruct s as [|a [|b [|c s]]]; cbn in *; auto; destruct (Z.eqb_spec a 0); congruence. }
      assert (SB : forall r r', bumped (v_release w) 0 r -> bumped (v_release w') 0 r' -> rel_same r r').
      { intros s s' [_ B] [_ B'] n. rewrite B, B'. cbn. destruct n; cbn; congruence. }
      destruct (Z.eq_dec (part (v_release w) 0) 0) as [Z1|Z1].
      * rewrite (U2 ltac:(tauto) Z1), (X2 ltac:(tauto) ltac:(congruence)). exact E2.
      * assert (Z2 : part (v_release w') 0 <> 0) by congruence. rewrite (BR _ Z1) in U1. rewrite (BR _ Z2) in X1.
        destruct (is_stable w) eqn:S; [apply stable_final in S; apply SB; tauto|apply unstable_final in S; apply SB; tauto].
  - unfold v_eq. destruct (cmp_eq w w' v E) as [-> _]. auto.
  - unfold from_to. rewrite LE. intros [H (u & (r & -> & U1 & U2) & K)]. split; auto.
    exists (bare (v_epoch w') (v_release w')). split.
    + exists (v_release w'). split; [reflexivity|]. split; [tauto|auto].
    + rewrite (U2 L) in K. rewrite <- (BARE (v_release w)); auto.
  - apply WN; auto.
  - apply WN; auto.
  - intros H K. apply H. apply WN; auto.
Qed.

Lemma bumped_same r r' i b b' : rel_same r r' -> bumped r i b -> bumped r' i b' -> rel_same b b'.
Proof. intros E [_ B] [_ B'] n. rewrite B, B'. rewrite (E n), (E i). reflexivity. Qed.

Lemma bumped_nonempty r i b : bumped r i b -> b <> [].
Proof. intros [X _] ->. cbn in X. lia. Qed.

Lemma bare_same w w' r r' : v_epoch w = v_epoch w' -> r <> [] -> r' <> [] -> rel_same r r' ->
  v_eq (bare (v_epoch w) r) (bare (v_epoch w') r') = true.
Proof. intros E N N' R. apply eq_same; [now apply bare_valid..|]. repeat split; auto. Qed.

Lemma reach_swap t t' r : op_eqb t t' = true -> reach t r = reach t' r.
Proof. destruct t, t'; try discriminate; reflexivity. Qed.

Lemma caret_upper_reach w w' u u' : valid_version w = true -> valid_version w' = true -> v_eq w w' = true -> final w ->
  reach CARET (v_release w) = reach CARET (v_release w') -> caret_upper w u -> caret_upper w' u' -> v_eq u u' = true.
Proof.
  intros Vw Vw' E F L (r & -> & U & _) (r' & -> & U' & _). apply eq_same in E as (E1 & E2 & E3 & E4 & E5 & E6); auto.
  assert (F' : final w') by (unfold final in *; now rewrite <- E3, <- E5). cbn [reach] in L. specialize (U F). specialize (U' F'). rewrite <- L in U'.
  apply bare_same; [exact E1| | |]; eauto using bumped_nonempty, bumped_same.
Qed.

Lemma tilde_upper_reach w w' u u' : valid_version w = true -> valid_version w' = true -> v_eq w w' = true -> final w ->
  reach TILDE (v_release w) = reach TILDE (v_release w') -> tilde_upper w u -> tilde_upper w' u' -> v_eq u u' = true.
Proof.
  intros Vw Vw' E F L (r & -> & U & _) (r' & -> & U' & _). apply eq_same in E as (E1 & E2 & E3 & E4 & E5 & E6); auto.
  assert (F' : final w') by (unfold final in *; now rewrite <- E3, <- E5). cbn [reach] in L. specialize (U F). specialize (U' F'). rewrite <- L in U'.
  apply bare_same; [exact E1| | |]; eauto using bumped_nonempty, bumped_same.
Qed.

Lemma final_dec w : final w \/ ~ final w.
Proof. unfold final. destruct (v_pre w), (v_dev w); auto; right; intros [? ?]; discriminate. Qed.

Lemma op_sat_reach t w w' v : valid_version w = true -> valid_version w' = true -> v_eq w w' = true -> reach t (v_release w) = reach t (v_release w') ->
  op_sat t w v -> op_sat t w' v.
Proof.
  intros Vw Vw' E R. assert (LE : v_le w v = v_le w' v) by (unfold v_le; destruct (cmp_eq w w' v E) as [_ ->]; reflexivity).
  assert (K : forall up : version -> version -> Prop, (forall u u', up w u -> up w' u' -> v_eq u u' = true) -> (exists u', up w' u') -> from_to up w v -> from_to up w' v).
  { intros up U (u' & X) [A (u & B & C)]. split; [now rewrite <- LE|]. exists u'. split; [exact X|]. specialize (U u u' B X).
    unfold v_lt in *. destruct (cmp_eq u u' v U) as [<- _]. exact C. }
  destruct (final_dec w) as [F|F].
  - destruct t; cbn [op_sat]; try (rewrite <- (length_same w w') by assumption; auto; fail).
    + apply K; [intros u u'; now apply caret_upper_reach|]. destruct (caret_bound w' Vw') as (u' & _ & U). exists u'. now apply U.
    + apply K; [intros u u'; now apply tilde_upper_reach|]. destruct (tilde_bound w' Vw') as (u' & _ & U). exists u'. now apply U.
  - destruct t; try (rewrite <- (length_same w w') by assumption; auto; fail); apply op_sat_lax; auto; cbn [op_lax]; tauto.
Qed.

Lemma spec_eq_sat s u v : spec_made s -> spec_made u -> spec_eqb s u = true -> paired as_precise s u ->
  sat s v -> sat u v.
Proof.
  revert u. induction s as [| |t w|ss IH|ss IH] using spec_members; intros u Ms Mu E P;
    inversion P as [| |? ? t' w' R|? us F|? us F]; subst; auto.
  - cbn in E, Ms, Mu. apply andb_true_iff in E as [Et Ev]. cbn [sat]. destruct Ms as [Vw Tw], Mu as [Vw' Tw'].
    rewrite <- (op_sat_swap t t' w' v Et). destruct R as [L|L].
    + now apply op_sat_lax.
    + now apply op_sat_reach.
  - apply spec_eqb_any in E. apply made_any in Ms as [_ Ms]. apply made_any in Mu as [_ Mu]. rewrite !sat_any.
    clear P. induction F as [|s u ss us Pr F IHF]; intros X; [inversion X|].
    inversion E; subst. inversion Ms; subst. inversion Mu; subst. inversion IH; subst.
    apply Exists_cons in X as [X|X]; [left; auto|right; apply IHF; auto].
  - apply spec_eqb_all in E. apply made_all in Ms as [_ Ms]. apply made_all in Mu as [_ Mu]. rewrite !sat_all.
    clear P. induction F as [|s u ss us Pr F IHF]; intros X; [constructor|].
    inversion E; subst. inversion Ms; subst. inversion Mu; subst. inversion IH; subst. inversion X; subst.
    constructor; [auto|apply IHF; auto].
Qed.

Lemma paired_flip s u : spec_made s -> spec_made u -> spec_eqb s u = true -> paired as_precise s u ->
  spec_eqb u s = true /\ paired as_precise u s.
Proof.
  revert u. induction s as [| |t w|ss IH|ss IH] using spec_members; intros u Ms Mu E P;
    inversion P as [| |? ? t' w' R|? us F|? us F]; subst; try (split; [reflexivity|constructor]).
  - cbn in E, Ms, Mu. apply andb_true_iff in E as [Et Ev]. destruct Ms as [Vw Tw], Mu as [Vw' Tw'].
    split; [cbn; apply andb_true_iff; split; [destruct t, t'; auto|now rewrite v_eq_sym]|]. constructor.
    apply eq_same in Ev as (E1 & E2 & E3 & E4 & E5 & E6); auto. destruct R as [L|L]; [left|right; rewrite <- !(reach_swap t t') by assumption; auto].
    assert (FN : final w <-> final w') by (unfold final; rewrite E3, E5; reflexivity).
    assert (Z0 : part (v_release w) 0 = part (v_release w') 0) by apply E2.
    destruct t, t'; try discriminate Et; cbn [op_lax] in *; rewrite <- ?Z0; tauto.
  - apply spec_eqb_any in E. apply made_any in Ms as [_ Ms]. apply made_any in Mu as [_ Mu]. clear P.
    assert (K : Forall2 (fun s u => spec_eqb s u = true) us ss /\ Forall2 (paired as_precise) us ss).
    { induction F as [|s u ss us Pr F IHF]; [split; constructor|].
      inversion E; subst. inversion Ms; subst. inversion Mu; subst. inversion IH as [|? ? G1 G2]; subst.
      destruct (G1 u) as [A B]; auto. destruct IHF as [C D]; auto. }
    destruct K as [K1 K2]. split; [now apply spec_eqb_any|now constructor].
  - apply spec_eqb_all in E. apply made_all in Ms as [_ Ms]. apply made_all in Mu as [_ Mu]. clear P.
    assert (K : Forall2 (fun s u => spec_eqb s u = true) us ss /\ Forall2 (paired as_precise) us ss).
    { induction F as [|s u ss us Pr F IHF]; [split; constructor|].
      inversion E; subst. inversion Ms; subst. inversion Mu; subst. inversion IH as [|? ? G1 G2]; subst.
      destruct (G1 u) as [A B]; auto. destruct IHF as [C D]; auto. }
    destruct K as [K1 K2]. split; [now apply spec_eqb_all|now constructor].
Qed.

Lemma spec_eq_accepts s u v : spec_made s -> spec_made u -> spec_eqb s u = true -> paired as_precise s u ->
  accepts s v = accepts u v.
Proof.
  intros Ms Mu E P. destruct (accepts_sat s v Ms) as (b & Eb & Hb), (accepts_sat u v Mu) as (c & Ec & Hc).
  destruct (paired_flip s u Ms Mu E P) as [E' P'].
  pose proof (spec_eq_sat s u v Ms Mu E P). pose proof (spec_eq_sat u s v Mu Ms E' P').
  rewrite Eb, Ec. f_equal. destruct b, c; auto; exfalso; intuition discriminate.
Qed.

(** ** Summaries *)

Lemma op_translate_agrees t w : ordinary w -> op_made t w -> ~ op_stuck t w ->
  exists a, op_translate t w = Ok a /\ canonical a /\ forall v, op_matches t v w = Ok (contains a v).
Proof.
  intros O M S. destruct (op_translate_sat t w O M S) as (a & E & C & H). exists a. split; auto. split; auto.
  intros v. destruct (op_matches_sat t w v M) as (b & Eb & Hb). rewrite Eb. f_equal. rewrite <- H in Hb.
  destruct b, (contains a v); auto; exfalso; intuition discriminate.
Qed.

Lemma op_stuck_outcome t w v : valid_version w = true -> op_stuck t w ->
  op_translate t w = Err ValueError /\ op_matches t v w = Ok (op_is t WILDCARD_NOT_EQUAL).
Proof.
  intros V S. split; [now apply op_translate_stuck|].
  assert (M : op_made t w) by (split; auto; intros ->; destruct S).
  destruct (op_matches_sat t w v M) as (b & Eb & Hb). rewrite Eb. f_equal. rewrite (op_stuck_sat t w v V S) in Hb.
  destruct b.
  - rewrite (proj1 Hb eq_refl). reflexivity.
  - destruct t; auto. exfalso. assert (X : false = true) by now apply Hb. discriminate.
Qed.

Lemma one_new_outcome t w : valid_version w = true ->
  (op_made t w -> one_new t w = Ok (One t w)) /\ (~ op_made t w -> one_new t w = Err ValueError).
Proof.
  intros V. rewrite <- op_valid_iff by assumption. unfold one_new. destruct (op_valid t w); split; auto; try congruence.
Qed.

Lemma convert_accepts s a : spec_made s -> each_op plain_op s -> specifier_to_version_set s = Ok a ->
  canonical a /\ forall v, accepts s v = Ok (contains a v).
Proof.
  intros M N E. destruct (convert_sound s M N a E) as (C & H & _). split; auto. intros v.
  destruct (accepts_sat s v M) as (b & Eb & Hb). rewrite Eb. f_equal. rewrite <- H in Hb.
  destruct b, (contains a v); auto; exfalso; intuition discriminate.
Qed.

Lemma convert_total_accepts s : spec_made s -> each_op plain_op s -> each_op free_op s ->
  no_any s \/ each_op half_open_op s ->
  exists a, specifier_to_version_set s = Ok a /\ canonical a /\ forall v, accepts s v = Ok (contains a v).
Proof.
  intros M N F H. assert (X : exists a, specifier_to_version_set s = Ok a).
  { destruct H as [H|H]; [now apply convert_total|]. destruct (convert_half s M N F H) as (a & E & _). eauto. }
  destruct X as (a & E). exists a. split; auto. now apply convert_accepts.
Qed.

Lemma set_convert_accepts a : canonical a -> exists s, version_set_to_specifier a = Ok s
  /\ (forall v, accepts s v = Ok (contains a v))
  /\ exists b, specifier_to_version_set s = Ok b /\ set_eqb b a = true.
Proof.
  intros C. destruct (set_convert a C) as (s & E & A & b & Eb & _ & Q). exists s. split; auto. split; [|eauto].
  intros v. destruct (A v) as (x & Ex & Hx). rewrite Ex. f_equal. destruct x, (contains a v); auto; exfalso; intuition discriminate.
Qed.

Lemma simplify_same s u : spec_made s -> each_op plain_op s -> simplify s = Ok u ->
  (forall v, accepts u v = accepts s v) /\ exists u', simplify u = Ok u' /\ spec_eqb u' u = true.
Proof.
  intros M N H. destruct (simplify_sound s u M N H) as [A B]. split; auto. intros v. destruct (A v) as (b & E1 & E2). congruence.
Qed.

Lemma wildcard_late e r b v : r <> [] -> Forall (fun x => 0 <= x) r -> bumped r (List.length r - 1) b -> ordinary v ->
  ~ early v \/ ~ (rel_same (v_release v) r \/ rel_same (v_release v) b) ->
  op_sat WILDCARD_DOUBLE_EQUAL (bare e (r ++ [0])) v <-> v_epoch v = e /\ starts_with (v_release v) r.
Proof. intros N F B O H. rewrite (wildcard_prefix e r b v N F B O). tauto. Qed.

Lemma wildcard_pair w v : valid_version w = true ->
  exists b, op_matches WILDCARD_DOUBLE_EQUAL v w = Ok b /\ op_matches WILDCARD_EQUAL v w = Ok b
    /\ op_matches WILDCARD_NOT_EQUAL v w = Ok (negb b).
Proof.
  intros V. destruct (wildcard_sat w v V) as (b & E & _). exists b. cbn [op_matches]. unfold matches_wildcard_not_equal.
  rewrite E. auto.
Qed.

Lemma operators_agree a b v : (forall items, a <> Union items) ->
  py_and a b = intersection a b /\ py_or a b = union a b /\ py_sub a b = difference a b
  /\ py_xor a b = symmetric_difference a b /\ negate a = complement a
  /\ (py_in v a = Ok true <-> in_set a v) /\ (py_in v a = Ok false <-> ~ in_set a v).
Proof.
  intros N. assert (H : has_operators a = true) by (destruct a as [| |items]; auto; exfalso; exact (N items eq_refl)).
  unfold py_and, py_or, py_sub, py_xor, negate, py_in. rewrite H, <- in_set_contains.
  repeat (split; [reflexivity|]). destruct (contains a v); intuition congruence.
Qed.

Lemma matches_converted s a v : spec_made s -> each_op plain_op s -> specifier_to_version_set s = Ok a ->
  version_matches v (BySet a) = version_matches v (BySpec s).
Proof. intros M N E. destruct (convert_accepts s a M N E) as [_ H]. symmetry. exact (H v). Qed.

Lemma matches_congr p v w : v_eq v w = true -> version_matches v p = version_matches w p.
Proof.
  intros H. destruct p as [s|a]; cbn.
  - now apply accepts_congr.
  - unfold set_accepts. f_equal. now apply contains_congr.
Qed.

Lemma matches_in v a : (version_matches v (BySet a) = Ok true <-> in_set a v)
  /\ (version_matches v (BySet a) = Ok false <-> ~ in_set a v).
Proof. cbn. unfold set_accepts. rewrite <- in_set_contains. destruct (contains a v); intuition congruence. Qed.

Lemma matches_true t w v : op_made t w -> op_matches t v w = Ok true <-> op_sat t w v.
Proof.
  intros M. destruct (op_matches_sat t w v M) as (b & Eb & Hb). rewrite Eb, <- Hb. destruct b; intuition congruence.
Qed.

Lemma made_wildcard e r : r <> [] -> op_made WILDCARD_DOUBLE_EQUAL (bare e (r ++ [0])).
Proof. intros N. split; [destruct r; [congruence|reflexivity]|discriminate]. Qed.

Lemma wildcard_prefix_matches e r b v : r <> [] -> Forall (fun x => 0 <= x) r -> bumped r (List.length r - 1) b -> ordinary v ->
  op_matches WILDCARD_DOUBLE_EQUAL v (bare e (r ++ [0])) = Ok true <->
  v_epoch v = e /\ ((starts_with (v_release v) r /\ ~ (rel_same (v_release v) r /\ early v))
                    \/ (rel_same (v_release v) b /\ early v)).
Proof. intros N F B O. rewrite matches_true by now apply made_wildcard. now apply wildcard_prefix. Qed.

Lemma wildcard_late_matches e r b v : r <> [] -> Forall (fun x => 0 <= x) r -> bumped r (List.length r - 1) b -> ordinary v ->
  ~ early v \/ ~ (rel_same (v_release v) r \/ rel_same (v_release v) b) ->
  op_matches WILDCARD_DOUBLE_EQUAL v (bare e (r ++ [0])) = Ok true <-> v_epoch v = e /\ starts_with (v_release v) r.
Proof. intros N F B O H. rewrite matches_true by now apply made_wildcard. now apply (wildcard_late e r b v). Qed.
