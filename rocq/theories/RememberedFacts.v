(** The five caches together remember one table of operators. *)

From Coq Require Import List ZArith NArith String Bool Lia.
From Verif Require Import Py Segments Version VersionSets Operators SetStrings Specifiers Parsers Spec Caches Histories Remembered
  Orders Cuts SetItems SetChains SetOps OrderFacts SetVersions SetTheorems OperatorFacts SpecifierFacts EqualFacts SpecMeaning CacheFacts Precision.
Import ListNotations.

Local Opaque key.

Lemma op_is_eq t u : op_is t u = true <-> t = u.
Proof. split; [|intros ->; now destruct u]. destruct t, u; try discriminate; reflexivity. Qed.

Lemma v_eq_left v w x : v_eq v w = true -> v_eq v x = v_eq w x.
Proof.
  intros E. destruct (v_eq w x) eqn:B.
  - apply eq_key in E. apply eq_key in B. apply eq_key. congruence.
  - destruct (v_eq v x) eqn:A; auto. apply eq_key in E. apply eq_key in A. assert (H : v_eq w x = true) by (apply eq_key; congruence). congruence.
Qed.

Lemma sets_eq_sym a b : canonical a -> canonical b -> set_eqb a b = true -> set_eqb b a = true.
Proof. intros Ca Cb. apply eqb_sym; now apply canonical_canon. Qed.

Lemma v_eq_refl v : v_eq v v = true.
Proof. now apply eq_key. Qed.

(** ** Tables *)

Definition covered (l : table) (p : spec) : Prop := forall t v, leaf t v p -> seen l t v <> None.

Lemma covered_any l ss : covered l (AnyOf ss) <-> Forall (covered l) ss.
Proof. exact (within_any (fun t v => seen l t v <> None) ss). Qed.
Lemma covered_all l ss : covered l (AllOf ss) <-> Forall (covered l) ss.
Proof. exact (within_all (fun t v => seen l t v <> None) ss). Qed.

Definition grows (l l' : table) : Prop := exists m, l' = l ++ m.

Lemma grows_refl l : grows l l.
Proof. exists []. now rewrite app_nil_r. Qed.
Lemma grows_trans l m n : grows l m -> grows m n -> grows l n.
Proof. intros [x ->] [y ->]. exists (x ++ y). now rewrite app_assoc. Qed.

Lemma find_app {A} (f : A -> bool) xs ys : find f (xs ++ ys) = match find f xs with Some x => Some x | None => find f ys end.
Proof. induction xs as [|x xs IH]; cbn; auto. destruct (f x); auto. Qed.

Lemma seen_grows l l' t v : grows l l' -> seen l t v <> None -> seen l' t v = seen l t v.
Proof. intros [m ->] H. unfold seen in *. rewrite find_app. destruct (find (same_one t v) l); congruence. Qed.

Lemma seen_like l t v w : v_eq v w = true -> seen l t v = seen l t w.
Proof.
  intros E. unfold seen. induction l as [|x l IH]; cbn [find]; auto.
  assert (K : same_one t v x = same_one t w x) by (unfold same_one; now rewrite (v_eq_left v w (snd x) E)). rewrite K. destruct (same_one t w x); auto.
Qed.

Lemma covered_grows l l' p : grows l l' -> covered l p -> covered l' p.
Proof. intros G C t v L. rewrite (seen_grows l l' t v G (C t v L)). now apply C. Qed.

Lemma as_first_grows l l' p : grows l l' -> covered l p -> as_first l' p = as_first l p.
Proof.
  intros G. induction p as [| |t v|ss IH|ss IH] using spec_members; intros C; auto.
  - cbn [as_first]. unfold first_seen. rewrite (seen_grows l l' t v G); auto. apply C. constructor.
  - apply covered_any in C. cbn [as_first]. f_equal. apply map_ext_in. intros s I. rewrite Forall_forall in *. auto.
  - apply covered_all in C. cbn [as_first]. f_equal. apply map_ext_in. intros s I. rewrite Forall_forall in *. auto.
Qed.

Lemma tree_first l p q : same_tree p q -> covered l q -> covered l p /\ as_first l p = as_first l q.
Proof.
  assert (LIST : forall ss, Forall (fun p => forall q, same_tree p q -> covered l q -> covered l p /\ as_first l p = as_first l q) ss ->
    forall us, Forall2 same_tree ss us -> Forall (covered l) us -> Forall (covered l) ss /\ map (as_first l) ss = map (as_first l) us).
  { intros ss IH us F. induction F as [|s u ss us E F IHF]; intros C; [split; auto|].
    apply Forall_cons_iff in IH as [IHs IH]. apply Forall_cons_iff in C as [Cu C]. destruct (IHs u E Cu) as [Cs As]. destruct (IHF IH C) as [D B].
    split; [now constructor|]. cbn [map]. now rewrite As, B. }
  revert q. induction p as [| |t v|ss IH|ss IH] using spec_members; intros q P C; inversion P as [| |? ? t' v' R|? us F|? us F]; subst; auto.
  - destruct R as [<- E]. split.
    + intros u w L. inversion L; subst. rewrite (seen_like l _ _ v' E). apply C. constructor.
    + cbn [as_first]. unfold first_seen. rewrite (seen_like l t v v' E). destruct (seen l t v') eqn:S; auto. destruct (C t v'); [constructor|assumption].
  - apply covered_any in C. destruct (LIST ss IH us F C) as [D B]. split; [now apply covered_any|]. cbn [as_first]. now rewrite B.
  - apply covered_all in C. destruct (LIST ss IH us F C) as [D B]. split; [now apply covered_all|]. cbn [as_first]. now rewrite B.
Qed.

(** ** Noting *)

Definition noted_well (s : spec) : Prop := forall l,
  grows l (snd (note s l)) /\ (forall a, fst (note s l) = Ok a -> covered (snd (note s l)) s)
  /\ fst (note s l) = specifier_to_version_set (as_first (snd (note s l)) s).

Lemma note_from_well f ss : Forall noted_well ss -> forall acc l, let r := note_from f note acc ss l in
  grows l (snd r) /\ (forall a, fst r = Ok a -> Forall (covered (snd r)) ss)
  /\ fst r = reduce_from f specifier_to_version_set acc (map (as_first (snd r)) ss).
Proof.
  induction 1 as [|s ss N _ IH]; intros acc l; cbn zeta; cbn [note_from].
  - split; [apply grows_refl|]. split; [constructor|reflexivity].
  - destruct (N l) as (G & C & V). destruct (note s l) as [[y|e] l'] eqn:E; cbn [fst snd] in *.
    + destruct (f acc y) as [acc'|e] eqn:F; cbn [fst snd].
      * destruct (IH acc' l') as (G' & C' & V'). cbn zeta in *. destruct (note_from f note acc' ss l') as [r l'']. cbn [fst snd] in *.
        split; [eapply grows_trans; eassumption|]. split.
        { intros a R. constructor; [|eauto]. apply (covered_grows l'); eauto. }
        cbn [map reduce_from]. rewrite (as_first_grows l' l'' s G' (C y eq_refl)), <- V. cbn [bind]. now rewrite F.
      * split; [assumption|]. split; [discriminate|]. cbn [map reduce_from]. rewrite <- V. cbn [bind]. now rewrite F.
    + split; [assumption|]. split; [discriminate|]. cbn [map reduce_from]. now rewrite <- V.
Qed.

Lemma note_all_well f ss : Forall noted_well ss -> forall l, let r := note_all f note ss l in
  grows l (snd r) /\ (forall a, fst r = Ok a -> Forall (covered (snd r)) ss)
  /\ fst r = reduce_map f specifier_to_version_set (map (as_first (snd r)) ss).
Proof.
  intros N l. cbn zeta. destruct ss as [|s ss]; cbn [note_all].
  - split; [apply grows_refl|]. split; [constructor|reflexivity].
  - apply Forall_cons_iff in N as [N Ns]. destruct (N l) as (G & C & V). destruct (note s l) as [[y|e] l'] eqn:E; cbn [fst snd] in *.
    + destruct (note_from_well f ss Ns y l') as (G' & C' & V'). cbn zeta in *. destruct (note_from f note y ss l') as [r l'']. cbn [fst snd] in *.
      split; [eapply grows_trans; eassumption|]. split.
      { intros a R. constructor; [|eauto]. apply (covered_grows l'); eauto. }
      cbn [map reduce_map]. rewrite (as_first_grows l' l'' s G' (C y eq_refl)), <- V. exact V'.
    + split; [assumption|]. split; [discriminate|]. cbn [map reduce_map]. now rewrite <- V.
Qed.

Lemma same_one_self t v : same_one t v (t, v) = true.
Proof. unfold same_one. cbn [fst snd]. now rewrite (proj2 (op_is_eq t t) eq_refl), v_eq_refl. Qed.

Lemma note_well s : noted_well s.
Proof.
  induction s as [| |t v|ss IH|ss IH] using spec_members; intros l.
  - split; [apply grows_refl|]. split; [|reflexivity]. intros a _ t v L. inversion L.
  - split; [apply grows_refl|]. split; [|reflexivity]. intros a _ t v L. inversion L.
  - cbn [note]. destruct (seen l t v) as [[u w]|] eqn:S; cbn [fst snd].
    + split; [apply grows_refl|]. split.
      * intros a _ t' v' L. inversion L; subst. congruence.
      * cbn [as_first specifier_to_version_set]. unfold first_seen. now rewrite S.
    + destruct (op_translate t v) as [a|e] eqn:T; cbn [fst snd].
      * assert (K : seen (l ++ [(t, v)]) t v = Some (t, v)).
        { unfold seen in *. rewrite find_app, S. cbn [find]. now rewrite same_one_self. }
        split; [now exists [(t, v)]|]. split.
        { intros _ _ t' v' L. inversion L; subst. congruence. }
        cbn [as_first specifier_to_version_set]. unfold first_seen. rewrite K. cbn [fst snd]. now rewrite T.
      * split; [apply grows_refl|]. split; [discriminate|]. cbn [as_first specifier_to_version_set]. unfold first_seen. now rewrite S.
  - cbn [note]. destruct (note_all_well union ss IH l) as (G & C & V). split; [exact G|]. split; [|exact V].
    intros a E. apply covered_any. eauto.
  - cbn [note]. destruct (note_all_well intersection ss IH l) as (G & C & V). split; [exact G|]. split; [|exact V].
    intros a E. apply covered_all. eauto.
Qed.

(** Nothing new is entered when all operators have been seen. *)
Lemma note_covered p : forall l, covered l p -> note p l = (specifier_to_version_set (as_first l p), l).
Proof.
  assert (FROM : forall f ss l, Forall (fun s => note s l = (specifier_to_version_set (as_first l s), l)) ss ->
    forall acc, note_from f note acc ss l = (reduce_from f specifier_to_version_set acc (map (as_first l) ss), l)).
  { intros f ss l N. induction N as [|s ss E N IH]; intros acc; [reflexivity|]. cbn [note_from map reduce_from]. rewrite E.
    destruct (specifier_to_version_set (as_first l s)); auto. cbn [bind]. destruct (f acc a); auto. cbn [bind]. apply IH. }
  assert (ALL : forall f ss l, Forall (fun s => note s l = (specifier_to_version_set (as_first l s), l)) ss ->
    note_all f note ss l = (reduce_map f specifier_to_version_set (map (as_first l) ss), l)).
  { intros f ss l N. destruct N as [|s ss E N]; [reflexivity|]. cbn [note_all map reduce_map]. rewrite E.
    destruct (specifier_to_version_set (as_first l s)); auto. cbn [bind]. now apply FROM. }
  induction p as [| |t v|ss IH|ss IH] using spec_members; intros l C; try reflexivity.
  - cbn [note as_first specifier_to_version_set]. unfold first_seen. destruct (seen l t v) as [[u w]|] eqn:S; [reflexivity|].
    destruct (C t v); [constructor|assumption].
  - apply covered_any in C. cbn [note as_first specifier_to_version_set]. apply ALL. rewrite Forall_forall in *. auto.
  - apply covered_all in C. cbn [note as_first specifier_to_version_set]. apply ALL. rewrite Forall_forall in *. auto.
Qed.

(** ** The caches *)

Section Table.
  Context (h : op_type -> N) (mix : list N -> N) (apart : no_collisions h mix).

  Lemma hash_tree p q : spec_hash h mix p = spec_hash h mix q -> spec_eqb p q = true -> same_tree p q.
  Proof.
    destruct apart as [Ih Im].
    assert (LIST : forall ss, Forall (fun s => forall u, spec_hash h mix s = spec_hash h mix u -> spec_eqb s u = true -> same_tree s u) ss ->
      forall us, map (spec_hash h mix) ss = map (spec_hash h mix) us -> Forall2 (fun s u => spec_eqb s u = true) ss us -> Forall2 same_tree ss us).
    { intros ss IH us H F. revert H. induction F as [|s u ss us E F IHF]; intros H; constructor; apply Forall_cons_iff in IH as [IHs IH];
        cbn [map] in H; injection H as Hs H; auto. }
    revert q. induction p as [| |t v|ss IH|ss IH] using spec_members; intros q H E; destruct q as [| |t' v'|us|us]; try discriminate E; constructor.
    - cbn in E. apply andb_true_iff in E as [_ E]. cbn [spec_hash] in H. apply Im in H. injection H as H. split; auto.
    - cbn [spec_hash] in H. apply Im in H. injection H as H. apply Im in H. apply spec_eqb_any in E. now apply LIST.
    - cbn [spec_hash] in H. apply Im in H. injection H as H. apply Im in H. apply spec_eqb_all in E. now apply LIST.
  Qed.

  Lemma tree_hash p q : same_tree p q -> spec_hash h mix p = spec_hash h mix q /\ spec_eqb p q = true.
  Proof.
    assert (LIST : forall ss, Forall (fun s => forall u, same_tree s u -> spec_hash h mix s = spec_hash h mix u /\ spec_eqb s u = true) ss ->
      forall us, Forall2 same_tree ss us -> map (spec_hash h mix) ss = map (spec_hash h mix) us /\ Forall2 (fun s u => spec_eqb s u = true) ss us).
    { intros ss IH us F. induction F as [|s u ss us E F IHF]; [split; constructor|]. apply Forall_cons_iff in IH as [IHs IH].
      destruct (IHs u E) as [A B], (IHF IH) as [C D]. split; [cbn [map]; congruence|now constructor]. }
    revert q. induction p as [| |t v|ss IH|ss IH] using spec_members; intros q P; inversion P as [| |? ? t' v' R|? us F|? us F]; subst; try (split; reflexivity).
    - destruct R as [<- E]. split; [reflexivity|]. cbn [spec_eqb]. now rewrite op_eqb_refl.
    - destruct (LIST ss IH us F) as [A B]. split; [cbn [spec_hash]; now rewrite A|now apply spec_eqb_any].
    - destruct (LIST ss IH us F) as [A B]. split; [cbn [spec_hash]; now rewrite A|now apply spec_eqb_all].
  Qed.

  Lemma same_spec_tree s u : same_spec h mix s u = true <-> same_tree s u.
  Proof.
    unfold same_spec. rewrite andb_true_iff, N.eqb_eq. split; [intros []; now apply hash_tree|apply tree_hash].
  Qed.

  (** The dictionaries and the table agree. *)
  Definition kept (l : table) (d : caches) : Prop :=
    (forall q a, In (q, a) (c_convert d) -> covered l q /\ specifier_to_version_set (as_first l q) = Ok a)
    /\ (forall t v, In (t, v) l -> exists a, In (One t v, a) (c_convert d))
    /\ (forall s a, In (s, a) (c_set d) -> exists q, parse_specifier s = Ok q /\ covered l q /\ specifier_to_version_set (as_first l q) = Ok a).

  Lemma lookup_none {K V} (same : K -> K -> bool) k (d : list (K * V)) k' v : lookup same k d = None -> In (k', v) d -> same k k' = false.
  Proof.
    induction d as [|[x y] d IH]; cbn [lookup]; intros L H; [destruct H|]. destruct H as [H|H].
    - inversion H; subst. destruct (same k k'); congruence.
    - destruct (same k x); [discriminate|]. auto.
  Qed.

  Lemma kept_put l d s a : kept l d -> covered l s -> specifier_to_version_set (as_first l s) = Ok a ->
    kept l (put_convert ((s, a) :: c_convert d) d).
  Proof.
    intros (K1 & K2 & K3) C V. split; [|split].
    - intros q b [H|H]; [inversion H; subst; auto|now apply K1].
    - intros t v I. destruct (K2 t v I) as (b & B). exists b. now right.
    - exact K3.
  Qed.

  Definition follows (s : spec) : Prop := forall l d, kept l d ->
    fst (specifier_to_version_set_c h mix s d) = fst (note s l) /\ kept (snd (note s l)) (snd (specifier_to_version_set_c h mix s d)).

  Lemma follows_cached s body :
    (forall d, specifier_to_version_set_c h mix s d = cached (same_spec h mix) c_convert put_convert s body d) ->
    (forall l d, kept l d -> lookup (same_spec h mix) s (c_convert d) = None ->
       fst (body d) = fst (note s l) /\ (forall a, fst (body d) = Ok a -> kept (snd (note s l)) (put_convert ((s, a) :: c_convert (snd (body d))) (snd (body d))))
       /\ (forall e, fst (body d) = Err e -> kept (snd (note s l)) (snd (body d)))) ->
    follows s.
  Proof.
    intros E B l d K. rewrite E. unfold cached. destruct (lookup (same_spec h mix) s (c_convert d)) as [a|] eqn:L.
    - apply lookup_in in L as (q & I & S). apply same_spec_tree in S. destruct K as (K1 & K2 & K3). destruct (K1 q a I) as [Cq Vq].
      destruct (tree_first l s q S Cq) as [Cs As]. rewrite (note_covered s l Cs), As, Vq. cbn [fst snd]. split; [reflexivity|]. now split.
    - destruct (B l d K L) as (F & P & Q). unfold andThen. destruct (body d) as [[a|e] d']; cbn [fst snd] in *; (split; [exact F|]); [now apply P|now apply (Q e)].
  Qed.

  Lemma follow_from f ss : Forall follows ss -> forall acc l d, kept l d ->
    fst (reduce_from_c f (specifier_to_version_set_c h mix) acc ss d) = fst (note_from f note acc ss l)
    /\ kept (snd (note_from f note acc ss l)) (snd (reduce_from_c f (specifier_to_version_set_c h mix) acc ss d)).
  Proof.
    induction 1 as [|s ss Fs _ IH]; intros acc l d K; cbn [reduce_from_c note_from]; [now split|].
    destruct (Fs l d K) as [E K']. unfold andThen, lift.
    destruct (specifier_to_version_set_c h mix s d) as [[y|e] d'], (note s l) as [[y'|e'] l']; cbn [fst snd] in *; try discriminate.
    - inversion E; subst y'. destruct (f acc y); cbn [fst snd]; [now apply IH|now split].
    - now split.
  Qed.

  Lemma follow_all f ss : Forall follows ss -> forall l d, kept l d ->
    fst (reduce_map_c f (specifier_to_version_set_c h mix) ss d) = fst (note_all f note ss l)
    /\ kept (snd (note_all f note ss l)) (snd (reduce_map_c f (specifier_to_version_set_c h mix) ss d)).
  Proof.
    intros F l d K. destruct F as [|s ss Fs F]; cbn [reduce_map_c note_all]; [now split|].
    destruct (Fs l d K) as [E K']. unfold andThen, lift.
    destruct (specifier_to_version_set_c h mix s d) as [[y|e] d'], (note s l) as [[y'|e'] l']; cbn [fst snd] in *; try discriminate.
    - inversion E; subst y'. now apply follow_from.
    - now split.
  Qed.

  Lemma seen_in l t v u w : seen l t v = Some (u, w) -> In (u, w) l /\ t = u /\ v_eq v w = true.
  Proof.
    intros S. apply find_some in S as [I S]. apply andb_true_iff in S as [A B]. cbn [fst snd] in *. apply op_is_eq in A. auto.
  Qed.

  Lemma convert_follows s : follows s.
  Proof.
    induction s as [| |t v|ss IH|ss IH] using spec_members.
    - eapply follows_cached; [reflexivity|]. intros l d K L. split; [reflexivity|]. split; [|discriminate]. intros a H. inversion H; subst.
      apply kept_put; [exact K| |reflexivity]. intros t v Q. inversion Q.
    - eapply follows_cached; [reflexivity|]. intros l d K L. split; [reflexivity|]. split; [|discriminate]. intros a H. inversion H; subst.
      apply kept_put; [exact K| |reflexivity]. intros t v Q. inversion Q.
    - eapply follows_cached; [reflexivity|]. intros l d K L. cbn [lift fst snd].
      assert (S : seen l t v = None).
      { destruct (seen l t v) as [[u w]|] eqn:S; auto. apply seen_in in S as (I & <- & E). destruct K as (_ & K2 & _).
        destruct (K2 t w I) as (a & J). pose proof (lookup_none _ _ _ _ _ L J) as X. rewrite hash_same in X by assumption. discriminate. }
      cbn [note]. rewrite S. destruct (op_translate t v) as [a|e] eqn:T; cbn [fst snd].
      + split; [reflexivity|]. split; [|discriminate]. intros b H. inversion H; subst b.
        assert (G : grows l (l ++ [(t, v)])) by now exists [(t, v)].
        assert (Q : seen (l ++ [(t, v)]) t v = Some (t, v)) by (unfold seen in *; rewrite find_app, S; cbn [find]; now rewrite same_one_self).
        destruct K as (K1 & K2 & K3). split; [|split].
        * intros q b [J|J].
          { inversion J; subst q b. split; [intros t' v' Y; inversion Y; subst; congruence|]. cbn [as_first specifier_to_version_set].
            unfold first_seen. rewrite Q. exact T. }
          destruct (K1 q b J) as [C V]. split; [now apply (covered_grows l)|]. now rewrite (as_first_grows l).
        * intros t' v' J. apply in_app_iff in J as [J|[J|[]]].
          { destruct (K2 t' v' J) as (b & B). exists b. now right. }
          inversion J; subst. exists a. now left.
        * intros s b J. destruct (K3 s b J) as (q & P & C & V). exists q. split; [assumption|]. split; [now apply (covered_grows l)|].
          now rewrite (as_first_grows l).
      + split; [reflexivity|]. split; [discriminate|]. auto.
    - eapply follows_cached; [reflexivity|]. intros l d K L. destruct (follow_all union ss IH l d K) as [E K'].
      destruct (note_well (AnyOf ss) l) as (G & C & V). cbn [note] in *. split; [exact E|]. split; [|auto].
      intros a H. pose proof (eq_trans (eq_sym E) H) as H'. apply kept_put; [exact K'|eauto|]. now rewrite <- V.
    - eapply follows_cached; [reflexivity|]. intros l d K L. destruct (follow_all intersection ss IH l d K) as [E K'].
      destruct (note_well (AllOf ss) l) as (G & C & V). cbn [note] in *. split; [exact E|]. split; [|auto].
      intros a H. pose proof (eq_trans (eq_sym E) H) as H'. apply kept_put; [exact K'|eauto|]. now rewrite <- V.
  Qed.

  (** ** Calls *)

  Lemma kept_same l d d' : c_convert d = c_convert d' -> c_set d = c_set d' -> kept l d -> kept l d'.
  Proof. unfold kept. now intros -> ->. Qed.

  Lemma revert_but a d : same_but d (snd (version_set_to_specifier_c mix a d)).
  Proof.
    assert (IT : forall i e, same_but e (snd (item_to_specifier_c mix i e))).
    { intros i e. unfold item_to_specifier_c.
      destruct (cached_cases (same_set mix) c_revert put_revert (Item i) (lift (item_to_specifier i)) e)
        as [(k & v & J & S & ->) | [(v & Ev & ->) | (x & Ee & ->)]]; cbn [fst snd lift]; now repeat split. }
    assert (MP : forall items e, same_but e (snd (mapM_c (item_to_specifier_c mix) items e))).
    { induction items as [|i items IH]; intros e; [apply but_refl|]. cbn [mapM_c]. unfold andThen. pose proof (IT i e) as K.
      destruct (item_to_specifier_c mix i e) as [[p|x] e']; cbn [fst snd] in *; [|assumption].
      pose proof (IH e') as K'. destruct (mapM_c (item_to_specifier_c mix) items e') as [[ps|x] e'']; cbn [fst snd lift] in *; eapply but_trans; eassumption. }
    unfold version_set_to_specifier_c.
    match goal with |- context [cached _ _ _ _ ?b] => set (body := b) end.
    assert (B : same_but d (snd (body d))).
    { subst body. destruct a as [|i|items]; try apply but_refl. unfold andThen, lift. destruct (exclude_version items) as [[v|]|x]; try apply but_refl.
      pose proof (MP items d) as K. destruct (mapM_c (item_to_specifier_c mix) items d) as [[ps|x] e]; cbn [fst snd] in *; exact K. }
    destruct (cached_cases (same_set mix) c_revert put_revert a body d) as [(k & v & J & S & ->) | [(v & Ev & ->) | (e & Ee & ->)]]; cbn [fst snd];
      [apply but_refl|exact B|exact B].
  Qed.

  Lemma kept_revert l a d : kept l d -> kept l (snd (version_set_to_specifier_c mix a d)).
  Proof. destruct (revert_but a d) as (_ & _ & E & E'). now apply kept_same. Qed.

  Lemma parse_set_follows s l d : kept l d ->
    fst (parse_version_set_c h mix s d) = match parse_specifier s with Ok p => fst (note p l) | Err e => Err e end
    /\ kept (note_call l (ParseVersionSet s)) (snd (parse_version_set_c h mix s d)).
  Proof.
    intros K. cbn [note_call]. unfold parse_version_set_c, cached. destruct (lookup str_eqb s (c_set d)) as [a|] eqn:L.
    - apply lookup_in in L as (k & I & E). apply str_eqb_eq in E. subst k. destruct K as (K1 & K2 & K3). destruct (K3 s a I) as (q & P & C & V).
      rewrite P, (note_covered q l C), V. cbn [fst snd]. split; [reflexivity|]. now split.
    - unfold andThen, lift. destruct (parse_specifier s) as [p|e] eqn:P; [|now split].
      destruct (convert_follows p l d K) as [E K']. destruct (specifier_to_version_set_c h mix p d) as [[a|e] d']; cbn [fst snd] in *; [|now split].
      split; [assumption|]. destruct (note_well p l) as (G & C & V). destruct K' as (K1 & K2 & K3). split; [exact K1|]. split; [exact K2|].
      intros s' b [H|H]; [|now apply K3]. inversion H; subst. exists p. split; [assumption|]. split; [eauto|]. now rewrite <- V.
  Qed.

  Lemma call_follows c l d : kept l d -> kept (note_call l c) (snd (do_call h mix c d)).
  Proof.
    intros K. destruct c as [s|s|s|p|a|p]; cbn [do_call]; rewrite give_snd.
    - unfold parse_version_c. destruct (cached_cases str_eqb c_version put_version s (lift (parse_version s)) d)
        as [(k & v & J & S & ->) | [(v & Ev & ->) | (e & Ee & ->)]]; exact K.
    - unfold parse_specifier_c. destruct (cached_cases str_eqb c_specifier put_specifier s (lift (parse_specifier s)) d)
        as [(k & v & J & S & ->) | [(v & Ev & ->) | (e & Ee & ->)]]; exact K.
    - now apply parse_set_follows.
    - now apply convert_follows.
    - now apply kept_revert.
    - unfold simplify_c, andThen. destruct (convert_follows p l d K) as [E K']. cbn [note_call].
      destruct (specifier_to_version_set_c h mix p d) as [[a|e] d']; cbn [fst snd] in *; [now apply kept_revert|assumption].
  Qed.

  Lemma calls_follow cs l d : kept l d -> kept (fold_left note_call cs l) (do_calls h mix cs d).
  Proof. revert l d. induction cs as [|c cs IH]; intros l d K; auto. cbn [fold_left do_calls]. apply IH. now apply call_follows. Qed.

  Lemma history_kept cs : kept (remembered cs) (do_calls h mix cs no_caches).
  Proof. apply calls_follow. split; [|split]; intros x y []. Qed.

  Theorem to_set_remembered cs p :
    answer_after h mix cs (ToVersionSet p) = answer_alone (ToVersionSet (as_first (remembered (cs ++ [ToVersionSet p])) p)).
  Proof.
    unfold answer_after. cbn [do_call answer_alone]. rewrite give_fst. destruct (convert_follows p _ _ (history_kept cs)) as [-> _].
    unfold remembered. rewrite fold_left_app. cbn [fold_left note_call]. fold (remembered cs).
    destruct (note_well p (remembered cs)) as (_ & _ & V). rewrite V at 1. now destruct (specifier_to_version_set _).
  Qed.

  Theorem parse_set_remembered cs s p : parse_specifier s = Ok p ->
    answer_after h mix cs (ParseVersionSet s) = answer_alone (ToVersionSet (as_first (remembered (cs ++ [ParseVersionSet s])) p)).
  Proof.
    intros P. unfold answer_after. cbn [do_call answer_alone]. rewrite give_fst. destruct (parse_set_follows s _ _ (history_kept cs)) as [-> _].
    unfold remembered. rewrite fold_left_app. cbn [fold_left note_call]. fold (remembered cs). rewrite P.
    destruct (note_well p (remembered cs)) as (_ & _ & V). rewrite V at 1. now destruct (specifier_to_version_set _).
  Qed.

  (** ** One operator *)

  Lemma note_mentions p l : forall t v, In (t, v) (snd (note p l)) -> In (t, v) l \/ (leaf t v p /\ exists a, op_translate t v = Ok a).
  Proof.
    assert (FROM : forall f ss, Forall (fun s => forall l t v, In (t, v) (snd (note s l)) -> In (t, v) l \/ (leaf t v s /\ exists a, op_translate t v = Ok a)) ss ->
      forall acc l t v, In (t, v) (snd (note_from f note acc ss l)) -> In (t, v) l \/ (exists s, In s ss /\ leaf t v s /\ exists a, op_translate t v = Ok a)).
    { intros f ss N. induction N as [|s ss Ns N IH]; intros acc k t v H; cbn [note_from] in H; [now left|].
      specialize (Ns k t v). destruct (note s k) as [[y|e] k']; cbn [fst snd] in *.
      - assert (K : In (t, v) k' -> In (t, v) k \/ (exists s0, In s0 (s :: ss) /\ leaf t v s0 /\ exists a, op_translate t v = Ok a)).
        { intros I. destruct (Ns I) as [J|J]; [now left|]. right. exists s. split; [now left|assumption]. }
        destruct (f acc y); cbn [snd] in H; [|auto]. destruct (IH _ _ _ _ H) as [J|(s' & I & J)]; [auto|]. right. exists s'. split; [now right|assumption].
      - destruct (Ns H) as [J|J]; [now left|]. right. exists s. split; [now left|assumption]. }
    assert (ALL : forall f ss, Forall (fun s => forall l t v, In (t, v) (snd (note s l)) -> In (t, v) l \/ (leaf t v s /\ exists a, op_translate t v = Ok a)) ss ->
      forall l t v, In (t, v) (snd (note_all f note ss l)) -> In (t, v) l \/ (exists s, In s ss /\ leaf t v s /\ exists a, op_translate t v = Ok a)).
    { intros f ss N k t v H. destruct N as [|s ss Ns N]; cbn [note_all] in H; [now left|]. specialize (Ns k t v).
      destruct (note s k) as [[y|e] k']; cbn [fst snd] in *.
      - destruct (FROM f ss N _ _ _ _ H) as [J|(s' & I & J)]; [|right; exists s'; split; [now right|assumption]].
        destruct (Ns J) as [J'|J']; [now left|]. right. exists s. split; [now left|assumption].
      - destruct (Ns H) as [J|J]; [now left|]. right. exists s. split; [now left|assumption]. }
    revert l. induction p as [| |t v|ss IH|ss IH] using spec_members; intros l u w H; cbn [note] in H; auto.
    - destruct (seen l t v) as [[a b]|]; [now left|]. destruct (op_translate t v) as [a|e] eqn:T; cbn [snd] in H; [|now left].
      apply in_app_iff in H as [H|[H|[]]]; [now left|]. inversion H; subst. right. split; [constructor|eauto].
    - destruct (ALL union ss IH l u w H) as [J|(s & I & J & K)]; [now left|]. right. split; [econstructor; eauto|assumption].
    - destruct (ALL intersection ss IH l u w H) as [J|(s & I & J & K)]; [now left|]. right. split; [apply leaf_all with s; auto|assumption].
  Qed.

  Lemma remembered_mentions cs t v : In (t, v) (remembered cs) -> mentioned cs t v /\ exists a, op_translate t v = Ok a.
  Proof.
    unfold remembered. assert (K : forall l, In (t, v) (fold_left note_call cs l) -> In (t, v) l \/ (mentioned cs t v /\ exists a, op_translate t v = Ok a)).
    { induction cs as [|c cs IH]; intros l H; [now left|]. cbn [fold_left] in H. destruct (IH _ H) as [J|[(c' & p & I & J) K]].
      - assert (M : forall p, converts c p -> In (t, v) (snd (note p l)) -> In (t, v) l \/ (mentioned (c :: cs) t v /\ exists a, op_translate t v = Ok a)).
        { intros p C Q. destruct (note_mentions p l t v Q) as [Q'|[Q' X]]; [now left|]. right. split; [|assumption]. exists c, p. split; [now left|auto]. }
        destruct c as [s|s|s|p|a|p]; cbn [note_call] in J; auto.
        + destruct (parse_specifier s) as [p|e] eqn:P; [|now left]. apply (M p); auto. now constructor.
        + apply (M p); auto. constructor.
        + apply (M p); auto. constructor.
      - right. split; [|assumption]. exists c', p. split; [now right|assumption]. }
    intros H. destruct (K [] H) as [[]|]; assumption.
  Qed.

  Lemma note_one_first t v l : fst (note (One t v) l) = op_translate (fst (first_seen l t v)) (snd (first_seen l t v)).
  Proof.
    cbn [note]. unfold first_seen. destruct (seen l t v) as [[u w]|]; [reflexivity|]. cbn [fst snd]. now destruct (op_translate t v).
  Qed.

  Theorem one_exact cs t v : Forall fair (ToVersionSet (One t v) :: cs) ->
    agree (answer_after h mix cs (ToVersionSet (One t v))) (answer_alone (ToVersionSet (One t v)))
    <-> as_precise t v t (snd (first_seen (remembered cs) t v)).
  Proof.
    intros F. pose proof (Forall_inv F) as [M N]. pose proof (Forall_inv_tail F) as Fc. cbn in M, N.
    assert (O : ordinary v) by (split; [apply M|exact N]).
    unfold answer_after. cbn [do_call answer_alone]. rewrite give_fst. destruct (convert_follows (One t v) _ _ (history_kept cs)) as [-> _].
    rewrite note_one_first. unfold first_seen. destruct (seen (remembered cs) t v) as [[u w]|] eqn:S; cbn [fst snd specifier_to_version_set].
    - apply seen_in in S as (I & <- & E). destruct (remembered_mentions cs t w I) as [Mn (a & T)].
      destruct (mentioned_made cs t w Fc Mn) as [M' N']. assert (O' : ordinary w) by (split; [apply M'|exact N']). rewrite T. cbn [agree].
      destruct (convert_sound (One t w) M' N' a T) as (Ca & Ha & _). split.
      + intros A. apply (operators_alike_iff t v t w); auto using op_eqb_refl. intros x.
        destruct (op_translate t v) as [b|e] eqn:T'; cbn [bind agree] in A; [|contradiction].
        destruct (convert_sound (One t v) M N b T') as (Cb & Hb & _).
        destruct (op_matches_sat t v x M) as (m & -> & Hm), (op_matches_sat t w x M') as (m' & -> & Hm'). f_equal.
        pose proof (contains_alike a b x x Ca Cb A (v_eq_refl x)) as K. specialize (Ha x). specialize (Hb x). cbn [sat] in Ha, Hb.
        destruct m, m'; auto; [assert (X : contains b x = true) by tauto; rewrite <- K in X|assert (X : contains a x = true) by tauto; rewrite K in X]; tauto || (symmetry; tauto).
      + intros P. pose proof (op_translate_alike t v t w O O' M M' (op_eqb_refl t) E P) as K. rewrite T in K.
        destruct (op_translate t v) as [b|e] eqn:T'; cbn [alike] in K; [|contradiction]. cbn [bind agree].
        destruct (convert_sound (One t v) M N b T') as (Cb & _). now apply sets_eq_sym.
    - split; [intros _; right; reflexivity|]. intros _.
      pose proof (convert_sound (One t v) M N) as C. cbn [specifier_to_version_set] in C.
      destruct (op_translate t v) as [b|e]; cbn [bind agree]; [|reflexivity]. apply set_eqb_refl. now destruct (C b eq_refl).
  Qed.
End Table.

(** ** Hashes without collisions exist *)

Definition pair_up (x y : N) : N := (2 ^ x * (2 * y + 1))%N.

Lemma pair_up_inj x y x' y' : pair_up x y = pair_up x' y' -> x = x' /\ y = y'.
Proof.
  unfold pair_up. revert x'. induction x as [|x IH] using N.peano_ind; intros x' H.
  - destruct x' as [|p]; [split; [reflexivity|lia]|exfalso]. rewrite <- (N.succ_pred (N.pos p)) in H by discriminate.
    rewrite N.pow_succ_r', N.pow_0_r in H. remember (2 ^ N.pred (N.pos p))%N as z. lia.
  - destruct x' as [|p]; [exfalso; rewrite N.pow_succ_r', N.pow_0_r in H; remember (2 ^ x)%N as z; lia|].
    rewrite <- (N.succ_pred (N.pos p)) in H |- * by discriminate. rewrite !N.pow_succ_r' in H. destruct (IH (N.pred (N.pos p))) as [-> ->]; auto. lia.
Qed.

Definition no_mix (xs : list N) : N := fold_right pair_up 0%N xs.

Lemma no_mix_inj xs : forall ys, no_mix xs = no_mix ys -> xs = ys.
Proof.
  assert (P : forall x y, pair_up x y <> 0%N) by (intros x y; unfold pair_up; pose proof (N.pow_nonzero 2 x ltac:(discriminate)); nia).
  induction xs as [|x xs IH]; intros [|y ys] H; cbn in H; auto.
  - symmetry in H. now apply P in H.
  - now apply P in H.
  - apply pair_up_inj in H as [-> H]. f_equal. now apply IH.
Qed.

Lemma collisions_avoided : no_collisions op_index no_mix.
Proof. split; [intros t u H; now destruct t, u|intros xs ys; apply no_mix_inj]. Qed.

(** Equal specifiers hash equally exactly if their operators have the same names. *)
Lemma paired_weaken (R Q : op_type -> version -> op_type -> version -> Prop) p q :
  (forall t v t' v', R t v t' v' -> Q t v t' v') -> paired R p q -> paired Q p q.
Proof.
  intros W. revert q. induction p as [| |t v|ss IH|ss IH] using spec_members; intros q P; inversion P as [| |? ? t' v' H|? us F|? us F]; subst; constructor; auto.
  - clear P. induction F as [|s u ss us E F IHF]; constructor; apply Forall_cons_iff in IH as [IHs IH]; auto.
  - clear P. induction F as [|s u ss us E F IHF]; constructor; apply Forall_cons_iff in IH as [IHs IH]; auto.
Qed.

Lemma named_tree p q : paired (fun t _ t' _ => t = t') p q -> spec_eqb p q = true -> same_tree p q.
Proof.
  assert (LIST : forall ss, Forall (fun p => forall q, paired (fun t _ t' _ => t = t') p q -> spec_eqb p q = true -> same_tree p q) ss ->
    forall us, Forall2 (paired (fun t _ t' _ => t = t')) ss us -> Forall2 (fun s u => spec_eqb s u = true) ss us -> Forall2 same_tree ss us).
  { intros ss IH us P F. revert P. induction F as [|s u ss us E F IHF]; intros P; constructor; apply Forall_cons_iff in IH as [IHs IH]; inversion P; subst; auto. }
  revert q. induction p as [| |t v|ss IH|ss IH] using spec_members; intros q P E; inversion P as [| |? ? t' v' H|? us F|? us F]; subst; constructor.
  - cbn in E. apply andb_true_iff in E as [_ E]. auto.
  - apply spec_eqb_any in E. now apply LIST.
  - apply spec_eqb_all in E. now apply LIST.
Qed.

Theorem hashes_exact h mix s u : no_collisions h mix -> spec_eqb s u = true ->
  spec_hash h mix s = spec_hash h mix u <-> paired (fun t _ t' _ => t = t') s u.
Proof.
  intros A E. split.
  - intros H. apply (hash_tree h mix A) in H; auto. revert H. apply paired_weaken. now intros t v t' v' [].
  - intros P. now apply (tree_hash h mix), named_tree.
Qed.
