(** Facts about the caches: invariants kept by every call. *)

From Coq Require Import List ZArith NArith String Bool Lia.
From Verif Require Import Py Segments Version VersionSets Operators SetStrings Specifiers Parsers Spec Caches Histories
  Orders Cuts SetItems SetChains SetOps OrderFacts SetVersions SetTheorems OperatorFacts SpecifierFacts EqualFacts SpecMeaning.
Import ListNotations.

Local Opaque key.

(** ** Equality of specifiers *)

Lemma op_eqb_refl t : op_eqb t t = true.
Proof. now destruct t. Qed.
Lemma op_eqb_sym t u : op_eqb t u = true -> op_eqb u t = true.
Proof. now destruct t, u. Qed.
Lemma op_eqb_trans t u w : op_eqb t u = true -> op_eqb u w = true -> op_eqb t w = true.
Proof. destruct t, u; try discriminate; now destruct w. Qed.

Lemma spec_eqb_refl s : spec_eqb s s = true.
Proof.
  induction s as [| |t v|ss IH|ss IH] using spec_members; auto.
  - cbn. rewrite op_eqb_refl. now apply eq_key.
  - apply spec_eqb_any. induction IH; constructor; auto.
  - apply spec_eqb_all. induction IH; constructor; auto.
Qed.

Lemma spec_eqb_sym s u : spec_eqb s u = true -> spec_eqb u s = true.
Proof.
  revert u. induction s as [| |t v|ss IH|ss IH] using spec_members; intros u H; destruct u as [| |t' v'|us|us]; try discriminate; auto.
  - cbn in *. apply andb_true_iff in H as [H K]. rewrite op_eqb_sym by assumption. now rewrite v_eq_sym.
  - apply spec_eqb_any in H. apply spec_eqb_any. induction H; constructor; inversion IH; subst; auto.
  - apply spec_eqb_all in H. apply spec_eqb_all. induction H; constructor; inversion IH; subst; auto.
Qed.

Lemma spec_eqb_trans s u w : spec_eqb s u = true -> spec_eqb u w = true -> spec_eqb s w = true.
Proof.
  revert u w. induction s as [| |t v|ss IH|ss IH] using spec_members; intros u w H K;
    destruct u as [| |t' v'|us|us]; try discriminate H; destruct w as [| |t'' v''|ws|ws]; try discriminate K; auto.
  - cbn in *. apply andb_true_iff in H as [H H']. apply andb_true_iff in K as [K K']. apply andb_true_iff. split.
    + eapply op_eqb_trans; eassumption.
    + apply eq_key in H'. apply eq_key in K'. apply eq_key. congruence.
  - apply spec_eqb_any in H. apply spec_eqb_any in K. apply spec_eqb_any. revert ws K. induction H as [|s u ss us E F IHF]; intros ws K.
    + inversion K. constructor.
    + inversion K; subst. inversion IH; subst. constructor; eauto.
  - apply spec_eqb_all in H. apply spec_eqb_all in K. apply spec_eqb_all. revert ws K. induction H as [|s u ss us E F IHF]; intros ws K.
    + inversion K. constructor.
    + inversion K; subst. inversion IH; subst. constructor; eauto.
Qed.

(** ** Dictionaries *)

Lemma lookup_in {K V} (same : K -> K -> bool) k (d : list (K * V)) v : lookup same k d = Some v ->
  exists k', In (k', v) d /\ same k k' = true.
Proof.
  induction d as [|[k' v'] d IH]; cbn; [discriminate|]. destruct (same k k') eqn:E.
  - intros H. inversion H; subst. eauto.
  - intros H. destruct (IH H) as (k'' & I & S). eauto.
Qed.

Lemma cached_cases {K V} (same : K -> K -> bool) get put k (body : act V) d :
  (exists k' v, In (k', v) (get d) /\ same k k' = true /\ cached same get put k body d = (Ok v, d))
  \/ (exists v, fst (body d) = Ok v
        /\ cached same get put k body d = (Ok v, put ((k, v) :: get (snd (body d))) (snd (body d))))
  \/ (exists e, fst (body d) = Err e /\ cached same get put k body d = (Err e, snd (body d))).
Proof.
  unfold cached. destruct (lookup same k (get d)) as [v|] eqn:L.
  - left. apply lookup_in in L as (k' & I & S). eauto.
  - right. unfold andThen. destruct (body d) as [[v|e] d']; cbn [fst snd]; [left|right]; eauto.
Qed.

Section Hashes.
  Context (h : op_type -> N) (mix : list N -> N).
  Context (U : op_type -> version -> Prop).

  Definition within (p : spec) : Prop := forall t v, leaf t v p -> U t v.

  Lemma within_any ss : within (AnyOf ss) <-> Forall within ss.
  Proof.
    rewrite Forall_forall. split.
    - intros W s I t v L. apply W. econstructor; eauto.
    - intros F t v L. inversion L; subst. eapply F; eauto.
  Qed.
  Lemma within_all ss : within (AllOf ss) <-> Forall within ss.
  Proof.
    rewrite Forall_forall. split.
    - intros W s I t v L. apply W. apply leaf_all with s; auto.
    - intros F t v L. inversion L; subst. eapply F; eauto.
  Qed.

  (** The value is that of an equal specifier over known versions. *)
  Definition worth (p : spec) (r : result vset) : Prop :=
    exists p', spec_eqb p p' = true /\ within p' /\ specifier_to_version_set p' = r.

  Definition inv_version (d : caches) : Prop := forall s v, In (s, v) (c_version d) -> parse_version s = Ok v.
  Definition inv_specifier (d : caches) : Prop := forall s p, In (s, p) (c_specifier d) -> parse_specifier s = Ok p.
  Definition inv_set (d : caches) : Prop := forall s a, In (s, a) (c_set d) ->
    exists p, parse_specifier s = Ok p /\ worth p (Ok a).
  Definition inv_convert (d : caches) : Prop := forall p a, In (p, a) (c_convert d) -> worth p (Ok a).

  Definition same_others (d d' : caches) : Prop :=
    c_version d = c_version d' /\ c_specifier d = c_specifier d' /\ c_set d = c_set d' /\ c_revert d = c_revert d'.

  Lemma others_refl d : same_others d d.
  Proof. now repeat split. Qed.
  Lemma others_trans d e f : same_others d e -> same_others e f -> same_others d f.
  Proof. unfold same_others. intuition congruence. Qed.

  Definition good_convert (s : spec) : Prop := forall d, inv_convert d -> within s ->
    inv_convert (snd (specifier_to_version_set_c h mix s d)) /\ same_others d (snd (specifier_to_version_set_c h mix s d))
    /\ worth s (fst (specifier_to_version_set_c h mix s d)).

  Lemma cached_convert s body : 
    (forall d, specifier_to_version_set_c h mix s d = cached (same_spec h mix) c_convert put_convert s body d) ->
    (forall d, inv_convert d -> within s -> inv_convert (snd (body d)) /\ same_others d (snd (body d)) /\ worth s (fst (body d))) ->
    good_convert s.
  Proof.
    intros E B d I W. rewrite E. destruct (B d I W) as (B1 & B2 & B3).
    destruct (cached_cases (same_spec h mix) c_convert put_convert s body d) as [(k & v & J & S & ->) | [(v & Ev & ->) | (e & Ee & ->)]]; cbn [fst snd].
    - split; [assumption|]. split; [apply others_refl|]. destruct (I _ _ J) as (p & P1 & P2 & P3). exists p. split; [|now split].
      apply andb_true_iff in S as [_ S]. eapply spec_eqb_trans; eassumption.
    - rewrite Ev in B3. split; [|split; [exact B2|exact B3]].
      intros p a [H|H]; [inversion H; subst; exact B3|now apply B1].
    - rewrite Ee in B3. auto.
  Qed.

  Lemma reduce_from_cached f acc ss d : Forall good_convert ss -> inv_convert d -> Forall within ss ->
    let r := reduce_from_c f (specifier_to_version_set_c h mix) acc ss d in
    inv_convert (snd r) /\ same_others d (snd r)
    /\ exists us, Forall2 (fun s u => spec_eqb s u = true) ss us /\ Forall within us
         /\ reduce_from f specifier_to_version_set acc us = fst r.
  Proof.
    intros G. revert acc d. induction G as [|s ss Gs G IH]; intros acc d I W; cbn zeta; cbn [reduce_from_c].
    - split; [assumption|]. split; [apply others_refl|]. exists []. repeat split; constructor.
    - inversion W as [|? ? Ws Wss]; subst. destruct (Gs d I Ws) as (I' & O & u & Q & Wu & V). unfold andThen.
      destruct (specifier_to_version_set_c h mix s d) as [[y|e] d']; cbn [fst snd] in *.
      + unfold lift. destruct (f acc y) as [acc'|e] eqn:F; cbn [fst snd].
        * specialize (IH acc' d' I' Wss). cbn zeta in IH. destruct IH as (I'' & O' & us & Q' & Wus & V').
          split; [assumption|]. split; [eapply others_trans; eassumption|]. exists (u :: us). split; [constructor; auto|].
          split; [constructor; auto|]. cbn [reduce_from]. rewrite V. cbn [bind]. rewrite F. exact V'.
        * split; [assumption|]. split; [assumption|]. exists (u :: ss). split; [constructor; auto|].
          { clear. induction ss; constructor; auto using spec_eqb_refl. }
          split; [constructor; auto|]. cbn [reduce_from]. rewrite V. cbn [bind]. now rewrite F.
      + split; [assumption|]. split; [assumption|]. exists (u :: ss). split; [constructor; auto|].
        { clear. induction ss; constructor; auto using spec_eqb_refl. }
        split; [constructor; auto|]. cbn [reduce_from]. now rewrite V.
  Qed.

  Lemma reduce_map_cached f ss d : Forall good_convert ss -> inv_convert d -> Forall within ss ->
    let r := reduce_map_c f (specifier_to_version_set_c h mix) ss d in
    inv_convert (snd r) /\ same_others d (snd r)
    /\ exists us, Forall2 (fun s u => spec_eqb s u = true) ss us /\ Forall within us
         /\ reduce_map f specifier_to_version_set us = fst r.
  Proof.
    intros G I W. destruct ss as [|s ss]; cbn zeta; cbn [reduce_map_c].
    - split; [assumption|]. split; [apply others_refl|]. exists []. repeat split; constructor.
    - inversion W as [|? ? Ws Wss]; inversion G as [|? ? Gs Gss]; subst. destruct (Gs d I Ws) as (I' & O & u & Q & Wu & V). unfold andThen.
      destruct (specifier_to_version_set_c h mix s d) as [[y|e] d']; cbn [fst snd] in *.
      + destruct (reduce_from_cached f y ss d' Gss I' Wss) as (I'' & O' & us & Q' & Wus & V').
        split; [assumption|]. split; [eapply others_trans; eassumption|]. exists (u :: us). split; [constructor; auto|].
        split; [constructor; auto|]. cbn [reduce_map]. rewrite V. exact V'.
      + split; [assumption|]. split; [assumption|]. exists (u :: ss). split; [constructor; auto|].
        { clear. induction ss; constructor; auto using spec_eqb_refl. }
        split; [constructor; auto|]. cbn [reduce_map]. now rewrite V.
  Qed.

  Lemma convert_good s : good_convert s.
  Proof.
    induction s as [| |t v|ss IH|ss IH] using spec_members.
    - eapply cached_convert; [reflexivity|]. intros d I W. split; [assumption|]. split; [apply others_refl|]. now exists Never.
    - eapply cached_convert; [reflexivity|]. intros d I W. split; [assumption|]. split; [apply others_refl|]. now exists Always.
    - eapply cached_convert; [reflexivity|]. intros d I W. split; [assumption|]. split; [apply others_refl|]. exists (One t v).
      split; [apply spec_eqb_refl|]. split; auto.
    - eapply cached_convert; [reflexivity|]. intros d I W. apply within_any in W.
      destruct (reduce_map_cached union ss d IH I W) as (I' & O & us & Q & Wus & V). split; [assumption|]. split; [assumption|].
      exists (AnyOf us). split; [now apply spec_eqb_any|]. split; [now apply within_any|]. exact V.
    - eapply cached_convert; [reflexivity|]. intros d I W. apply within_all in W.
      destruct (reduce_map_cached intersection ss d IH I W) as (I' & O & us & Q & Wus & V). split; [assumption|]. split; [assumption|].
      exists (AllOf us). split; [now apply spec_eqb_all|]. split; [now apply within_all|]. exact V.
  Qed.

  Definition worth_set (s : pstr) (r : result vset) : Prop :=
    (exists p, parse_specifier s = Ok p /\ worth p r) \/ (exists e, parse_specifier s = Err e /\ r = Err e).

  Definition inv (d : caches) : Prop := inv_version d /\ inv_specifier d /\ inv_set d /\ inv_convert d.

  Lemma inv_others d d' : same_others d d' -> inv_convert d' -> inv d -> inv d'.
  Proof.
    unfold inv, inv_version, inv_specifier, inv_set. intros (-> & -> & -> & _) I (J1 & J2 & J3 & _). auto.
  Qed.

  Lemma parse_version_good s d : inv d ->
    inv (snd (parse_version_c s d)) /\ fst (parse_version_c s d) = parse_version s
    /\ c_revert (snd (parse_version_c s d)) = c_revert d.
  Proof.
    intros (I1 & I2 & I3 & I4). unfold parse_version_c.
    destruct (cached_cases str_eqb c_version put_version s (lift (parse_version s)) d)
      as [(k & v & J & S & ->) | [(v & Ev & ->) | (e & Ee & ->)]]; cbn [fst snd lift] in *.
    - apply str_eqb_eq in S. subst k. split; [now repeat split|]. split; [symmetry; now apply I1|reflexivity].
    - split; [|now split]. split; [|now repeat split]. intros s' v' [H|H]; [inversion H; subst; assumption|now apply I1].
    - split; [now repeat split|]. now split.
  Qed.

  Lemma parse_specifier_good s d : inv d ->
    inv (snd (parse_specifier_c s d)) /\ fst (parse_specifier_c s d) = parse_specifier s
    /\ c_revert (snd (parse_specifier_c s d)) = c_revert d.
  Proof.
    intros (I1 & I2 & I3 & I4). unfold parse_specifier_c.
    destruct (cached_cases str_eqb c_specifier put_specifier s (lift (parse_specifier s)) d)
      as [(k & v & J & S & ->) | [(v & Ev & ->) | (e & Ee & ->)]]; cbn [fst snd lift] in *.
    - apply str_eqb_eq in S. subst k. split; [now repeat split|]. split; [symmetry; now apply I2|reflexivity].
    - split; [|now split]. split; [assumption|]. split; [|now split]. intros s' v' [H|H]; [inversion H; subst; assumption|now apply I2].
    - split; [now repeat split|]. now split.
  Qed.

  Lemma to_set_good p d : inv d -> within p ->
    let r := specifier_to_version_set_c h mix p d in
    inv (snd r) /\ worth p (fst r) /\ c_revert (snd r) = c_revert d.
  Proof.
    intros I W. cbn zeta. destruct (convert_good p d) as (I' & O & V); auto; [apply I|].
    split; [now apply (inv_others d)|]. split; [assumption|]. symmetry. apply O.
  Qed.

  Lemma parse_set_good s d : inv d -> (forall p, parse_specifier s = Ok p -> within p) ->
    let r := parse_version_set_c h mix s d in
    inv (snd r) /\ worth_set s (fst r) /\ c_revert (snd r) = c_revert d.
  Proof.
    intros I W. cbn zeta. unfold parse_version_set_c.
    set (body := andThen (lift (parse_specifier s)) (specifier_to_version_set_c h mix)).
    assert (B : inv (snd (body d)) /\ worth_set s (fst (body d)) /\ c_revert (snd (body d)) = c_revert d).
    { subst body. unfold andThen, lift. destruct (parse_specifier s) as [p|e] eqn:P.
      - destruct (to_set_good p d I (W p eq_refl)) as (I' & V & R). split; [assumption|]. split; [|assumption]. left. eauto.
      - split; [assumption|]. split; [|reflexivity]. right. cbn. eauto. }
    destruct B as (B1 & B2 & B3).
    destruct (cached_cases str_eqb c_set put_set s body d) as [(k & v & J & S & ->) | [(v & Ev & ->) | (e & Ee & ->)]]; cbn [fst snd lift] in *.
    - apply str_eqb_eq in S. subst k. split; [assumption|]. split; [|reflexivity]. left. destruct I as (_ & _ & I3 & _). now apply I3.
    - rewrite Ev in B2. split; [|split; [exact B2|exact B3]]. destruct B1 as (I1 & I2 & I3 & I4). split; [assumption|]. split; [assumption|]. split; [|assumption].
      intros s' v' [H|H]; [|now apply I3]. inversion H; subst. destruct B2 as [B2|(e & _ & B2)]; [assumption|discriminate].
    - rewrite Ee in B2. auto.
  Qed.

  (** *** The way back *)

  Definition near (a : vset) (r : result spec) : Prop :=
    exists p u, r = Ok p /\ version_set_to_specifier a = Ok u /\ spec_eqb p u = true.

  Definition inv_revert (d : caches) : Prop := forall a p, In (a, p) (c_revert d) -> canonical a /\ near a (Ok p).

  Definition same_but (d d' : caches) : Prop :=
    c_version d = c_version d' /\ c_specifier d = c_specifier d' /\ c_set d = c_set d' /\ c_convert d = c_convert d'.
  Lemma but_refl d : same_but d d.
  Proof. now repeat split. Qed.
  Lemma but_trans d e f : same_but d e -> same_but e f -> same_but d f.
  Proof. unfold same_but. intuition congruence. Qed.

  Lemma cached_revert a body d : canonical a -> inv_revert d ->
    inv_revert (snd (body d)) -> same_but d (snd (body d)) -> near a (fst (body d)) ->
    let r := cached (same_set mix) c_revert put_revert a body d in
    inv_revert (snd r) /\ same_but d (snd r) /\ near a (fst r).
  Proof.
    intros C I B1 B2 B3. cbn zeta.
    destruct (cached_cases (same_set mix) c_revert put_revert a body d) as [(k & v & J & S & ->) | [(v & Ev & ->) | (e & Ee & ->)]]; cbn [fst snd].
    - split; [assumption|]. split; [apply but_refl|]. destruct (I _ _ J) as (Ck & p & u & P1 & P2 & P3).
      apply andb_true_iff in S as [_ S]. destruct (set_to_specifier_eq a k C Ck S) as (x & y & X & Y & E).
      exists v, x. split; [reflexivity|]. split; [assumption|]. inversion P1; subst p.
      rewrite Y in P2. inversion P2; subst u. apply spec_eqb_trans with y; [assumption|]. now apply spec_eqb_sym.
    - rewrite Ev in B3. split; [|split; [exact B2|exact B3]].
      intros a' p [H|H]; [inversion H; subst; auto|now apply B1].
    - destruct B3 as (p & u & B3 & _). congruence.
  Qed.

  Lemma items_reverted items d : Forall proper items -> inv_revert d ->
    let r := mapM_c (item_to_specifier_c mix) items d in
    inv_revert (snd r) /\ same_but d (snd r)
    /\ exists ss, fst r = Ok ss /\ Forall2 (fun s u => spec_eqb s u = true) ss (map item_spec items).
  Proof.
    intros P. revert d. induction P as [|i items Pi P IH]; intros d I; cbn zeta; cbn [mapM_c].
    - split; [assumption|]. split; [apply but_refl|]. exists []. split; [reflexivity|constructor].
    - assert (C : canonical (Item i)) by now apply canonical_canon.
      assert (N : near (Item i) (item_to_specifier i)).
      { rewrite item_to_specifier_eq by assumption. exists (item_spec i), (item_spec i). split; [reflexivity|].
        split; [now apply item_to_specifier_eq|apply spec_eqb_refl]. }
      destruct (cached_revert (Item i) (lift (item_to_specifier i)) d C I I (but_refl d) N) as (I' & O & p & u & E1 & E2 & E3).
      unfold andThen. change (cached (same_set mix) c_revert put_revert (Item i) (lift (item_to_specifier i)) d)
        with (item_to_specifier_c mix i d) in *. destruct (item_to_specifier_c mix i d) as [r d']. cbn [fst snd] in *. subst r.
      destruct (IH d' I') as (I'' & O' & ss & E & F). destruct (mapM_c (item_to_specifier_c mix) items d') as [r d'']. cbn [fst snd] in *. subst r.
      unfold lift. cbn [fst snd]. split; [assumption|]. split; [eapply but_trans; eassumption|]. exists (p :: ss). split; [reflexivity|].
      cbn [map]. constructor; [|assumption]. cbn [version_set_to_specifier] in E2. rewrite item_to_specifier_eq in E2 by assumption. congruence.
  Qed.

  Lemma revert_good a d : canonical a -> inv_revert d ->
    let r := version_set_to_specifier_c mix a d in
    inv_revert (snd r) /\ same_but d (snd r) /\ near a (fst r).
  Proof.
    intros C I. unfold version_set_to_specifier_c. pose proof (set_convert a C) as (s & E & _).
    assert (SELF : near a (Ok s)) by (exists s, s; split; [reflexivity|]; split; [assumption|apply spec_eqb_refl]).
    destruct a as [|i|items]; cbn [version_set_to_specifier] in E.
    - apply cached_revert; auto using but_refl. inversion E; subst. exact SELF.
    - apply cached_revert; auto using but_refl. cbn [lift fst]. rewrite E. exact SELF.
    - destruct (exclude_version items) as [[v|]|e] eqn:X; [| |discriminate].
      + apply cached_revert; auto; unfold andThen, lift; cbn [fst snd bind] in *; auto using but_refl. now rewrite E.
      + assert (P : Forall proper items) by (apply canonical_canon, canon_proper in C; exact C).
        destruct (items_reverted items d P I) as (I' & O & ss & Es & F).
        apply cached_revert; auto; unfold andThen, lift; cbn [fst snd]; destruct (mapM_c (item_to_specifier_c mix) items d) as [r d']; cbn [fst snd] in *; subst r; auto.
        cbn [fst snd]. exists (any_of ss), (any_of (map item_spec items)). split; [reflexivity|]. split.
        { cbn [version_set_to_specifier]. rewrite X. cbn [bind]. rewrite mapM_items by assumption. reflexivity. }
        apply canonical_canon in C. destruct C as [_ L]. destruct items as [|i [|j items]]; cbn in L; try lia. cbn [map] in *.
        inversion F as [|? ? ? ? F1 F']; subst. inversion F' as [|? ? ? ? F2 F'']; subst. apply spec_eqb_any. assumption.
  Qed.

  Lemma inv_but d d' : same_but d d' -> inv d -> inv d'.
  Proof. unfold inv, inv_version, inv_specifier, inv_set, inv_convert. intros (-> & -> & -> & ->). auto. Qed.

  (** *** Whole calls *)

  Definition known (c : call) : Prop := forall p, converts c p -> within p.

  Lemma revert_inv a d : inv d -> inv (snd (version_set_to_specifier_c mix a d)).
  Proof.
    (* the dictionary of the way back is the only one touched *)
    assert (IT : forall i e, same_but e (snd (item_to_specifier_c mix i e))).
    { intros i e. unfold item_to_specifier_c.
      destruct (cached_cases (same_set mix) c_revert put_revert (Item i) (lift (item_to_specifier i)) e)
        as [(k & v & J & S & ->) | [(v & Ev & ->) | (x & Ee & ->)]]; cbn [fst snd lift]; now repeat split. }
    assert (MP : forall items e, same_but e (snd (mapM_c (item_to_specifier_c mix) items e))).
    { induction items as [|i items IH]; intros e; [apply but_refl|]. cbn [mapM_c]. unfold andThen. pose proof (IT i e) as K.
      destruct (item_to_specifier_c mix i e) as [[p|x] e']; cbn [fst snd] in *; [|assumption].
      pose proof (IH e') as K'. destruct (mapM_c (item_to_specifier_c mix) items e') as [[ps|x] e'']; cbn [fst snd lift] in *; eapply but_trans; eassumption. }
    intros I. apply (inv_but d); auto. unfold version_set_to_specifier_c.
    match goal with |- context [cached _ _ _ _ ?b] => set (body := b) end.
    assert (B : same_but d (snd (body d))).
    { subst body. destruct a as [|i|items]; try apply but_refl. unfold andThen, lift. destruct (exclude_version items) as [[v|]|x]; try apply but_refl.
      pose proof (MP items d) as K. destruct (mapM_c (item_to_specifier_c mix) items d) as [[ps|x] e]; cbn [fst snd] in *; exact K. }
    destruct (cached_cases (same_set mix) c_revert put_revert a body d) as [(k & v & J & S & ->) | [(v & Ev & ->) | (e & Ee & ->)]]; cbn [fst snd];
      [apply but_refl|exact B|exact B].
  Qed.

  Lemma give_fst {A} (w : A -> answer) (m : act A) d : fst (give w m d) = match fst (m d) with Ok a => Ok (w a) | Err e => Err e end.
  Proof. unfold give, andThen, lift. now destruct (m d) as [[a|e] d']. Qed.
  Lemma give_snd {A} (w : A -> answer) (m : act A) d : snd (give w m d) = snd (m d).
  Proof. unfold give, andThen, lift. now destruct (m d) as [[a|e] d']. Qed.

  Lemma call_inv c d : known c -> inv d -> inv (snd (do_call h mix c d)).
  Proof.
    intros K I. destruct c as [s|s|s|p|a|p]; cbn [do_call]; rewrite give_snd.
    - now apply parse_version_good.
    - now apply parse_specifier_good.
    - apply parse_set_good; auto. intros p P. apply K. now constructor.
    - apply to_set_good; auto. apply K. constructor.
    - now apply revert_inv.
    - unfold simplify_c, andThen. destruct (to_set_good p d I (K p ltac:(constructor))) as (I' & _).
      destruct (specifier_to_version_set_c h mix p d) as [[a|e] d']; cbn [fst snd] in *; [now apply revert_inv|assumption].
  Qed.

  Lemma calls_inv cs d : Forall known cs -> inv d -> inv (do_calls h mix cs d).
  Proof.
    intros K. revert d. induction K as [|c cs Kc K IH]; intros d I; auto. cbn [do_calls]. apply IH. now apply call_inv.
  Qed.

  Lemma empty_inv : inv no_caches.
  Proof. split; [|split; [|split]]; intros x y [].  Qed.

  (** With versions that are spelled in one way, equal specifiers convert alike. *)
  Section Alike.
    Context (made : forall t v, U t v -> valid_version v = true)
      (alike : forall t v u w, U t v -> U u w -> op_eqb t u = true -> v_eq v w = true ->
         List.length (v_release v) = List.length (v_release w)).

    Lemma op_translate_swap t u v : op_eqb t u = true -> op_translate t v = op_translate u v.
    Proof. destruct t, u; try discriminate; reflexivity. Qed.

    Lemma reduce_same f ss us : Forall2 (fun s u => specifier_to_version_set s = specifier_to_version_set u) ss us ->
      reduce_map f specifier_to_version_set ss = reduce_map f specifier_to_version_set us.
    Proof.
      assert (K : forall ss us, Forall2 (fun s u => specifier_to_version_set s = specifier_to_version_set u) ss us ->
        forall acc, reduce_from f specifier_to_version_set acc ss = reduce_from f specifier_to_version_set acc us).
      { induction 1 as [|s u xs ys E F IH]; intros acc; auto. cbn [reduce_from]. rewrite E. destruct (specifier_to_version_set u); auto.
        cbn [bind]. destruct (f acc a); auto. cbn [bind]. apply IH. }
      intros F. inversion F as [|s u ss' us' E F']; subst; auto. cbn [reduce_map]. rewrite E.
      destruct (specifier_to_version_set u); auto. cbn [bind]. now apply K.
    Qed.

    Lemma equal_convert s u : within s -> within u -> spec_eqb s u = true -> specifier_to_version_set s = specifier_to_version_set u.
    Proof.
      revert u. induction s as [| |t v|ss IH|ss IH] using spec_members; intros u Ws Wu E; destruct u as [| |t' v'|us|us]; try discriminate E; auto.
      - cbn in E. apply andb_true_iff in E as [Et Ev]. cbn [specifier_to_version_set].
        assert (Uv : U t v) by (apply Ws; constructor). assert (Uv' : U t' v') by (apply Wu; constructor).
        rewrite (length_same v v') by eauto. now apply op_translate_swap.
      - apply spec_eqb_any in E. apply within_any in Ws. apply within_any in Wu. cbn [specifier_to_version_set]. apply reduce_same.
        induction E as [|s u ss us Es F IHF]; constructor; inversion Ws; inversion Wu; inversion IH; subst; auto.
      - apply spec_eqb_all in E. apply within_all in Ws. apply within_all in Wu. cbn [specifier_to_version_set]. apply reduce_same.
        induction E as [|s u ss us Es F IHF]; constructor; inversion Ws; inversion Wu; inversion IH; subst; auto.
    Qed.

    Lemma worth_exact p r : within p -> worth p r -> r = specifier_to_version_set p.
    Proof. intros W (p' & E & W' & <-). symmetry. now apply equal_convert. Qed.
  End Alike.
End Hashes.

(** ** Histories *)

Section Histories.
  Context (h : op_type -> N) (mix : list N -> N).

  Lemma all_known cs c0 : In c0 cs -> known (mentioned cs) c0.
  Proof. intros I p C t v L. exists c0, p. auto. Qed.

  Lemma history_inv cs c : inv (mentioned (c :: cs)) (do_calls h mix cs no_caches).
  Proof.
    apply calls_inv; [|exact (empty_inv _)]. apply Forall_forall. intros c0 I. apply (all_known (c :: cs)). now right.
  Qed.

  Theorem parse_version_exact cs s : answer_after h mix cs (ParseVersion s) = answer_alone (ParseVersion s).
  Proof.
    unfold answer_after. cbn [do_call answer_alone]. rewrite give_fst.
    destruct (parse_version_good _ s _ (history_inv cs (ParseVersion s))) as (_ & -> & _). now destruct (parse_version s).
  Qed.

  Theorem parse_specifier_exact cs s : answer_after h mix cs (ParseSpecifier s) = answer_alone (ParseSpecifier s).
  Proof.
    unfold answer_after. cbn [do_call answer_alone]. rewrite give_fst.
    destruct (parse_specifier_good _ s _ (history_inv cs (ParseSpecifier s))) as (_ & -> & _). now destruct (parse_specifier s).
  Qed.

  Lemma to_set_worth cs p : worth (mentioned (ToVersionSet p :: cs)) p (fst (specifier_to_version_set_c h mix p (do_calls h mix cs no_caches))).
  Proof.
    apply to_set_good; [apply history_inv|]. intros t v L. exists (ToVersionSet p), p. repeat split; auto; [now left|constructor].
  Qed.

  Lemma parse_set_worth cs s : worth_set (mentioned (ParseVersionSet s :: cs)) s (fst (parse_version_set_c h mix s (do_calls h mix cs no_caches))).
  Proof.
    apply parse_set_good; [apply history_inv|]. intros p P t v L. exists (ParseVersionSet s), p. repeat split; auto; [now left|now constructor].
  Qed.

  Theorem to_set_equal cs p : exists p', spec_eqb p p' = true
    /\ (forall t v, leaf t v p' -> mentioned (ToVersionSet p :: cs) t v)
    /\ answer_after h mix cs (ToVersionSet p) = answer_alone (ToVersionSet p').
  Proof.
    destruct (to_set_worth cs p) as (p' & E & W & V). exists p'. split; [assumption|]. split; [exact W|].
    unfold answer_after. cbn [do_call answer_alone]. rewrite give_fst, <- V. now destruct (specifier_to_version_set p').
  Qed.

  Theorem parse_set_equal cs s p : parse_specifier s = Ok p -> exists p', spec_eqb p p' = true
    /\ (forall t v, leaf t v p' -> mentioned (ParseVersionSet s :: cs) t v)
    /\ answer_after h mix cs (ParseVersionSet s) = answer_alone (ToVersionSet p').
  Proof.
    intros P. destruct (parse_set_worth cs s) as [(q & Q & p' & E & W & V) | (e & Q & _)]; [|congruence].
    rewrite P in Q. inversion Q; subst q. exists p'. split; [assumption|]. split; [exact W|].
    unfold answer_after. cbn [do_call answer_alone]. rewrite give_fst, <- V. now destruct (specifier_to_version_set p').
  Qed.

  Theorem parse_set_error cs s e : parse_specifier s = Err e -> answer_after h mix cs (ParseVersionSet s) = Err e.
  Proof.
    intros P. destruct (parse_set_worth cs s) as [(q & Q & _) | (e' & Q & V)]; [congruence|].
    unfold answer_after. cbn [do_call]. rewrite give_fst, V. congruence.
  Qed.

  (** *** Made arguments *)

  Lemma leaf_made p t v : spec_made p -> each_op plain_op p -> leaf t v p -> op_made t v /\ plain_op t v.
  Proof.
    intros M N L. induction L as [|s ss I L IH|s ss I L IH].
    - now split.
    - apply made_any in M as [_ M]. apply each_op_any in N. rewrite Forall_forall in M, N. auto.
    - apply made_all in M as [_ M]. apply each_op_all in N. rewrite Forall_forall in M, N. auto.
  Qed.

  Lemma same_length {A B} (R : A -> B -> Prop) xs ys : Forall2 R xs ys -> List.length xs = List.length ys.
  Proof. induction 1; cbn; auto. Qed.

  Lemma leaves_made p q : spec_made p -> spec_eqb p q = true -> (forall t v, leaf t v q -> op_made t v /\ plain_op t v) ->
    spec_made q /\ each_op plain_op q.
  Proof.
    revert q. induction p as [| |t v|ss IH|ss IH] using spec_members; intros q M E L; destruct q as [| |t' v'|us|us]; try discriminate E;
      try (split; exact I).
    - destruct (L t' v') as [L1 L2]; [constructor|]. now split.
    - apply spec_eqb_any in E. apply made_any in M as [N M]. rewrite made_any, each_op_any.
      assert (K : Forall (fun u => spec_made u /\ each_op plain_op u) us).
      { assert (L' : forall u t v, In u us -> leaf t v u -> op_made t v /\ plain_op t v) by (intros u t v I; eauto using leaf_any).
        clear - E M IH L'. induction E as [|s u ss us Es F IHF]; constructor; inversion M; inversion IH; subst.
        - apply H5; auto. intros t v. apply L'. now left.
        - apply IHF; auto. intros w t v I. apply L'. now right. }
      apply Forall_and_inv in K as [K1 K2]. rewrite <- (same_length _ _ _ E). auto.
    - apply spec_eqb_all in E. apply made_all in M as [N M]. rewrite made_all, each_op_all.
      assert (K : Forall (fun u => spec_made u /\ each_op plain_op u) us).
      { assert (L' : forall u t v, In u us -> leaf t v u -> op_made t v /\ plain_op t v) by (intros u t v I; eauto using leaf_all).
        clear - E M IH L'. induction E as [|s u ss us Es F IHF]; constructor; inversion M; inversion IH; subst.
        - apply H5; auto. intros t v. apply L'. now left.
        - apply IHF; auto. intros w t v I. apply L'. now right. }
      apply Forall_and_inv in K as [K1 K2]. rewrite <- (same_length _ _ _ E). auto.
  Qed.

  Lemma fair_converts c p : fair c -> converts c p -> spec_made p /\ each_op plain_op p.
  Proof. intros F C. destruct C; auto. now apply parsed_made in H. Qed.

  Lemma mentioned_made cs t v : Forall fair cs -> mentioned cs t v -> op_made t v /\ plain_op t v.
  Proof.
    intros F (c & p & I & C & L). rewrite Forall_forall in F. destruct (fair_converts c p (F c I) C). now apply (leaf_made p).
  Qed.

  Lemma worth_canonical cs p a : Forall fair cs -> spec_made p -> worth (mentioned cs) p (Ok a) -> canonical a.
  Proof.
    intros F M (p' & E & W & V). destruct (leaves_made p p' M E) as [M' N'].
    - intros t v L. apply (mentioned_made cs); auto.
    - now apply (convert_sound p').
  Qed.

  Lemma simplify_good cs p d : Forall fair cs -> spec_made p -> within (mentioned cs) p -> inv (mentioned cs) d -> inv_revert d ->
    let r := simplify_c h mix p d in
    inv_revert (snd r) /\
    (exists a, worth (mentioned cs) p (Ok a) /\ canonical a /\ near a (fst r)) \/ (exists e, worth (mentioned cs) p (Err e) /\ fst r = Err e /\ inv_revert (snd r)).
  Proof.
    intros F M W I R. cbn zeta. unfold simplify_c, andThen. destruct (to_set_good h mix _ p d I W) as (I' & V & Q).
    destruct (specifier_to_version_set_c h mix p d) as [[a|e] d']; cbn [fst snd] in *.
    - left. assert (C : canonical a) by now apply (worth_canonical cs p).
      destruct (revert_good mix a d' C) as (R' & _ & N); [unfold inv_revert in *; now rewrite Q|].
      split; [assumption|]. exists a. auto.
    - right. exists e. split; [assumption|]. split; [reflexivity|]. unfold inv_revert in *. now rewrite Q.
  Qed.

  Lemma call_revert cs c d : Forall fair cs -> In c cs -> inv (mentioned cs) d -> inv_revert d -> inv_revert (snd (do_call h mix c d)).
  Proof.
    intros F I J R. pose proof (all_known cs c I) as K. rewrite Forall_forall in F. pose proof (F c I) as Fc. rewrite <- Forall_forall in F.
    destruct c as [s|s|s|p|a|p]; cbn [do_call fair] in *; rewrite give_snd.
    - destruct (parse_version_good _ s d J) as (_ & _ & E). unfold inv_revert in *. now rewrite E.
    - destruct (parse_specifier_good _ s d J) as (_ & _ & E). unfold inv_revert in *. now rewrite E.
    - destruct (parse_set_good h mix (mentioned cs) s d J) as (_ & _ & E); [intros p P; apply K; now constructor|]. unfold inv_revert in *. now rewrite E.
    - destruct (to_set_good h mix (mentioned cs) p d J) as (_ & _ & E); [apply K; constructor|]. unfold inv_revert in *. now rewrite E.
    - now apply revert_good.
    - destruct (simplify_good cs p d F (proj1 Fc)) as [[? _]|(e & _ & _ & ?)]; auto. apply K. constructor.
  Qed.

  Lemma calls_revert all cs d : Forall fair all -> incl cs all -> inv (mentioned all) d -> inv_revert d -> inv_revert (do_calls h mix cs d).
  Proof.
    intros F. revert d. induction cs as [|c cs IH]; intros d I J R; auto. cbn [do_calls]. apply IH.
    - intros x X. apply I. now right.
    - apply call_inv; auto. apply all_known. apply I. now left.
    - apply (call_revert all); auto. apply I. now left.
  Qed.

  Lemma history_revert cs c : Forall fair cs -> fair c -> inv_revert (do_calls h mix cs no_caches).
  Proof.
    intros F Fc. apply (calls_revert (c :: cs)).
    - now constructor.
    - intros x X. now right.
    - apply empty_inv.
    - intros a p [].
  Qed.

  Theorem to_specifier_agree cs a : Forall fair cs -> canonical a ->
    exists p u, answer_after h mix cs (ToSpecifier a) = Ok (ASpec p) /\ version_set_to_specifier a = Ok u /\ spec_eqb p u = true.
  Proof.
    intros F C. destruct (revert_good mix a _ C (history_revert cs (ToSpecifier a) F C)) as (_ & _ & p & u & E & V & Q).
    exists p, u. split; [|now split]. unfold answer_after. cbn [do_call]. now rewrite give_fst, E.
  Qed.

  (** *** Equal versions spelled alike *)

  Lemma alike_worth cs p r : Forall fair cs -> spelled_alike cs -> within (mentioned cs) p -> worth (mentioned cs) p r ->
    r = specifier_to_version_set p.
  Proof.
    intros F A W V. apply (worth_exact (mentioned cs)); auto.
    intros t v Mt. destruct (mentioned_made cs t v F Mt) as [[H _] _]. exact H.
  Qed.

  Theorem to_set_alike cs p : Forall fair (ToVersionSet p :: cs) -> spelled_alike (ToVersionSet p :: cs) ->
    answer_after h mix cs (ToVersionSet p) = answer_alone (ToVersionSet p).
  Proof.
    intros F A. pose proof (to_set_worth cs p) as V. apply alike_worth in V; auto; [|apply all_known with (c0 := ToVersionSet p); [now left|constructor]].
    unfold answer_after. cbn [do_call answer_alone]. rewrite give_fst, V. now destruct (specifier_to_version_set p).
  Qed.

  Theorem parse_set_alike cs s : Forall fair cs -> spelled_alike (ParseVersionSet s :: cs) ->
    answer_after h mix cs (ParseVersionSet s) = answer_alone (ParseVersionSet s).
  Proof.
    intros F A. unfold answer_after. cbn [do_call answer_alone]. rewrite give_fst. unfold parse_version_set.
    destruct (parse_set_worth cs s) as [(p & P & V) | (e & P & V)].
    - apply alike_worth in V; auto; [| |apply all_known with (c0 := ParseVersionSet s); [now left|now constructor]].
      + rewrite V, P. cbn [bind]. now destruct (specifier_to_version_set p).
      + constructor; [exact I|assumption].
    - rewrite V, P. reflexivity.
  Qed.

  Theorem simplify_alike cs p : Forall fair (Simplify p :: cs) -> spelled_alike (Simplify p :: cs) ->
    agree (answer_after h mix cs (Simplify p)) (answer_alone (Simplify p)).
  Proof.
    intros F A. pose proof (Forall_inv F) as [M N]. pose proof (Forall_inv_tail F) as Fc.
    assert (W : within (mentioned (Simplify p :: cs)) p) by (apply all_known with (c0 := Simplify p); [now left|constructor]).
    unfold answer_after. cbn [do_call answer_alone]. rewrite give_fst. unfold simplify.
    destruct (simplify_good (Simplify p :: cs) p (do_calls h mix cs no_caches) F M W (history_inv cs (Simplify p)))
      as [(_ & a & V & C & q & u & E1 & E2 & E3) | (e & V & E & _)].
    - now apply (history_revert cs (Simplify p)).
    - apply alike_worth in V; auto. rewrite E1, <- V. cbn [bind]. rewrite E2. exact E3.
    - apply alike_worth in V; auto. rewrite E, <- V. reflexivity.
  Qed.

  (** *** Spelling that does not matter *)

  Lemma eq_paired cs p q : spelled_enough cs -> within (mentioned cs) p -> within (mentioned cs) q -> spec_eqb p q = true -> paired as_precise p q.
  Proof.
    intros A. revert q. induction p as [| |t v|ss IH|ss IH] using spec_members; intros q Wp Wq E; destruct q as [| |t' v'|us|us]; try discriminate E; constructor.
    - cbn in E. apply andb_true_iff in E as [Et Ev]. apply A; auto; [apply Wp|apply Wq]; constructor.
    - apply spec_eqb_any in E. apply within_any in Wp. apply within_any in Wq.
      induction E as [|s u ss us Es F IHF]; constructor; inversion Wp; inversion Wq; inversion IH; subst; auto.
    - apply spec_eqb_all in E. apply within_all in Wp. apply within_all in Wq.
      induction E as [|s u ss us Es F IHF]; constructor; inversion Wp; inversion Wq; inversion IH; subst; auto.
  Qed.

  Lemma worth_fits cs p r : Forall fair cs -> spelled_enough cs -> spec_made p -> each_op plain_op p -> within (mentioned cs) p ->
    worth (mentioned cs) p r -> fits r (specifier_to_version_set p).
  Proof.
    intros F A M N W (p' & E & W' & <-).
    assert (K : spec_made p' /\ each_op plain_op p').
    { apply (leaves_made p p' M E). intros t v L. apply (mentioned_made cs); auto. }
    destruct K as [M' N']. apply convert_fits; auto using spec_eqb_sym. apply (eq_paired cs); auto using spec_eqb_sym.
  Qed.

  Lemma fits_agree r r' : fits r r' -> agree (match r with Ok a => Ok (ASet a) | Err e => Err e end) (let* a := r' in Ok (ASet a)).
  Proof. destruct r as [a|], r' as [b|]; cbn; tauto. Qed.

  Theorem transparent cs c : Forall fair (c :: cs) -> spelled_enough (c :: cs) -> agree (answer_after h mix cs c) (answer_alone c).
  Proof.
    intros F A. pose proof (Forall_inv F) as Fc. pose proof (Forall_inv_tail F) as Fcs. pose proof (all_known (c :: cs) c (or_introl eq_refl)) as K.
    destruct c as [s|s|s|p|a|p].
    - rewrite parse_version_exact. cbn [answer_alone]. destruct (parse_version s); reflexivity.
    - rewrite parse_specifier_exact. cbn [answer_alone]. destruct (parse_specifier s); cbn; auto using spec_eqb_refl.
    - unfold answer_after. cbn [do_call answer_alone]. rewrite give_fst. unfold parse_version_set.
      destruct (parse_set_worth cs s) as [(p & P & V) | (e & P & V)].
      + rewrite P. cbn [bind]. apply fits_agree. destruct (parsed_made s p P) as [M N].
        apply (worth_fits (ParseVersionSet s :: cs)); auto. apply K. now constructor.
      + rewrite V, P. reflexivity.
    - unfold answer_after. cbn [do_call answer_alone]. rewrite give_fst. apply fits_agree. destruct Fc as [M N].
      apply (worth_fits (ToVersionSet p :: cs)); auto; [apply K; constructor|apply to_set_worth].
    - destruct (to_specifier_agree cs a Fcs Fc) as (p & u & E & V & Q). rewrite E. cbn [answer_alone]. rewrite V. exact Q.
    - destruct Fc as [M N]. assert (W : within (mentioned (Simplify p :: cs)) p) by (apply K; constructor).
      unfold answer_after. cbn [do_call answer_alone]. rewrite give_fst. unfold simplify.
      destruct (simplify_good (Simplify p :: cs) p (do_calls h mix cs no_caches) F M W (history_inv cs (Simplify p)))
        as [(_ & a & V & C & q & u & E1 & E2 & E3) | (e & V & E & _)].
      + apply (history_revert cs (Simplify p)); auto. now split.
      + apply worth_fits in V; auto. destruct (specifier_to_version_set p) as [b|e]; cbn [fits] in V; [|contradiction].
        destruct V as (_ & Cb & S). destruct (set_to_specifier_eq a b C Cb S) as (x & y & X & Y & Z).
        rewrite E1. cbn [bind]. rewrite Y. cbn. rewrite X in E2. inversion E2; subst. eapply spec_eqb_trans; eassumption.
      + apply worth_fits in V; auto. destruct (specifier_to_version_set p) as [b|e']; cbn [fits] in V; [contradiction|].
        subst e'. rewrite E. reflexivity.
  Qed.
End Histories.

(** ** Histories that matter *)

Fixpoint leaves (p : spec) : list (op_type * version) :=
  match p with
  | Never | Always => []
  | One t v => [(t, v)]
  | AnyOf ss | AllOf ss => flat_map leaves ss
  end.

Lemma leaf_leaves t v p : leaf t v p -> In (t, v) (leaves p).
Proof. induction 1; cbn [leaves]; [now left| |]; apply in_flat_map; eauto. Qed.

Definition call_leaves (c : call) : list (op_type * version) :=
  match c with
  | ParseVersionSet s => match parse_specifier s with Ok p => leaves p | Err _ => [] end
  | ToVersionSet p | Simplify p => leaves p
  | _ => []
  end.

Lemma mentioned_leaves cs t v : mentioned cs t v -> In (t, v) (flat_map call_leaves cs).
Proof.
  intros (c & p & I & C & L). apply in_flat_map. exists c. split; auto. apply leaf_leaves in L. destruct C; cbn [call_leaves]; auto. now rewrite H.
Qed.

Lemma hash_same h mix t v w : v_eq v w = true -> same_spec h mix (One t v) (One t w) = true.
Proof. intros E. unfold same_spec. cbn [spec_hash spec_eqb]. now rewrite N.eqb_refl, op_eqb_refl, E. Qed.

Definition plain (r : list Z) : version := Version 0 r None None None None.

Lemma one_after_one h mix t v w a : v_eq w v = true -> op_translate t v = Ok a ->
  answer_after h mix [ToVersionSet (One t v)] (ToVersionSet (One t w)) = Ok (ASet a).
Proof.
  intros E T. unfold answer_after. cbn [do_calls do_call]. rewrite give_fst, give_snd. cbn [specifier_to_version_set_c].
  unfold cached at 2. cbn [lookup c_convert no_caches]. unfold andThen at 1, lift. rewrite T. cbn [snd].
  unfold cached. cbn [c_convert put_convert lookup]. rewrite hash_same by assumption. reflexivity.
Qed.

Lemma caret_matters h mix : exists cs p a b v, Forall fair (ToVersionSet p :: cs)
  /\ answer_after h mix cs (ToVersionSet p) = Ok (ASet a) /\ answer_alone (ToVersionSet p) = Ok (ASet b)
  /\ contains a v = true /\ contains b v = false.
Proof.
  exists [ToVersionSet (One CARET (plain [0]))], (One CARET (plain [0; 0; 0]))%Z,
    (Item (Range (Some (plain [0])) (Some (plain [1])) true false)), (Item (Range (Some (plain [0; 0; 0])) (Some (plain [0; 0; 1])) true false)), (plain [0; 5]).
  split; [|split; [|split; [|split]]].
  - apply Forall_cons; [|apply Forall_cons; [|apply Forall_nil]]; cbn; (split; [split; [reflexivity|discriminate]|]);
      repeat (apply Forall_cons || apply Forall_nil); discriminate.
  - apply one_after_one; reflexivity.
  - vm_compute. reflexivity.
  - vm_compute. reflexivity.
  - vm_compute. reflexivity.
Qed.

Lemma set_after_set h mix s u t v w a : parse_specifier s = Ok (One t v) -> parse_specifier u = Ok (One t w) ->
  str_eqb u s = false -> v_eq w v = true -> op_translate t v = Ok a ->
  answer_after h mix [ParseVersionSet s] (ParseVersionSet u) = Ok (ASet a).
Proof.
  intros S U N E T. unfold answer_after. cbn [do_calls do_call]. rewrite give_fst, give_snd. unfold parse_version_set_c.
  assert (K : snd (cached str_eqb c_set put_set s (andThen (lift (parse_specifier s)) (specifier_to_version_set_c h mix)) no_caches)
    = Caches [] [] [(s, a)] [(One t v, a)] []).
  { unfold cached at 1. cbn [lookup c_set no_caches]. unfold andThen, lift. rewrite S. cbn [specifier_to_version_set_c].
    unfold cached. cbn [lookup c_convert no_caches]. unfold andThen, lift. rewrite T. reflexivity. }
  rewrite K. unfold cached at 1. cbn [lookup c_set]. rewrite N. unfold andThen, lift. rewrite U. cbn [specifier_to_version_set_c].
  unfold cached. cbn [lookup c_convert]. rewrite hash_same by assumption. reflexivity.
Qed.

Lemma history_matters h mix : exists cs s a b v, Forall fair cs
  /\ answer_after h mix cs (ParseVersionSet s) = Ok (ASet a) /\ answer_alone (ParseVersionSet s) = Ok (ASet b)
  /\ contains a v = true /\ contains b v = false.
Proof.
  exists [ParseVersionSet (lit "*")], (lit "0.*"), UNIVERSAL_SET,
    (Item (Range (Some (plain [0; 0])) (Some (plain [1; 0])) true false)), (plain [5]).
  split; [|split; [|split; [|split]]].
  - apply Forall_cons; [exact I|apply Forall_nil].
  - apply (set_after_set h mix _ _ WILDCARD_EQUAL (plain [0]) (plain [0; 0])); vm_compute; reflexivity.
  - vm_compute. reflexivity.
  - vm_compute. reflexivity.
  - vm_compute. reflexivity.
Qed.

Lemma spelling_matters h mix : exists cs a p u, Forall fair (ToSpecifier a :: cs)
  /\ answer_after h mix cs (ToSpecifier a) = Ok (ASpec p) /\ answer_alone (ToSpecifier a) = Ok (ASpec u)
  /\ spec_to_string p <> spec_to_string u.
Proof.
  exists [ToSpecifier (Item (Point (plain [1])))], (Item (Point (plain [1; 0]))), (One DOUBLE_EQUAL (plain [1])), (One DOUBLE_EQUAL (plain [1; 0])).
  split; [|split; [|split]].
  - apply Forall_cons; [exact I|]. apply Forall_cons; [exact I|apply Forall_nil].
  - unfold answer_after. cbn [do_calls do_call]. rewrite give_fst, give_snd. unfold version_set_to_specifier_c.
    unfold cached at 2. cbn [lookup c_revert no_caches]. unfold andThen, lift. cbn [item_to_specifier snd].
    unfold cached. cbn [lookup c_revert put_revert]. unfold same_set. cbn [set_hash item_hash i_min i_max]. rewrite N.eqb_refl.
    reflexivity.
  - reflexivity.
  - vm_compute. discriminate.
Qed.
