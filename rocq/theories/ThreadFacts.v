(** Lemmas for C119. *)

From Coq Require Import List ZArith NArith String Bool Lia.
From Verif Require Import Py Segments Version VersionSets Operators SetStrings Specifiers Parsers Spec Caches Histories
  Orders Cuts SetItems SetChains SetOps OrderFacts SetVersions SetTheorems OperatorFacts SpecifierFacts EqualFacts SpecMeaning CacheFacts Threads ThreadSpec.
Import ListNotations.

Local Opaque key.

(** ** One thread *)

Lemma undisturbed_then {A B} (m : prog A) (k : A -> prog B) c :
  undisturbed (andAfter m k) c = andThen (undisturbed m) (fun a => undisturbed (k a)) c.
Proof.
  revert c. induction m as [[a|e]|g IH|f p IH]; intros c; cbn [andAfter undisturbed]; unfold andThen in *; cbn [undisturbed]; auto; try (rewrite IH; reflexivity).
Qed.

Lemma then_ext {A B} (m m' : act A) (k k' : A -> act B) c : m c = m' c -> (forall a d, k a d = k' a d) -> andThen m k c = andThen m' k' c.
Proof. intros E K. unfold andThen. rewrite E. destruct (m' c) as [[a|e] d]; auto. Qed.

Lemma undisturbed_cached {K V} (same : K -> K -> bool) get put k (body : prog V) body' c : (forall d, undisturbed body d = body' d) ->
  undisturbed (cached_t same get put k body) c = cached same get put k body' c.
Proof.
  intros E. unfold cached_t, cached. cbn [undisturbed]. destruct (lookup same k (get c)); [reflexivity|]. rewrite undisturbed_then. now apply then_ext.
Qed.

Section Single.
  Context (h : op_type -> N) (mix : list N -> N).

  Lemma undisturbed_from f ss : Forall (fun s => forall d, undisturbed (specifier_to_version_set_t h mix s) d = specifier_to_version_set_c h mix s d) ss ->
    forall acc d, undisturbed (reduce_from_t f (specifier_to_version_set_t h mix) acc ss) d = reduce_from_c f (specifier_to_version_set_c h mix) acc ss d.
  Proof.
    induction 1 as [|s ss E F IH]; intros acc d; [reflexivity|]. cbn [reduce_from_t reduce_from_c]. rewrite undisturbed_then. apply then_ext; auto.
    intros y d'. rewrite undisturbed_then. apply then_ext; auto.
  Qed.

  Lemma undisturbed_map f ss : Forall (fun s => forall d, undisturbed (specifier_to_version_set_t h mix s) d = specifier_to_version_set_c h mix s d) ss ->
    forall d, undisturbed (reduce_map_t f (specifier_to_version_set_t h mix) ss) d = reduce_map_c f (specifier_to_version_set_c h mix) ss d.
  Proof.
    intros F d. destruct F as [|s ss E F]; [reflexivity|]. cbn [reduce_map_t reduce_map_c]. rewrite undisturbed_then. apply then_ext; auto.
    intros y d'. now apply undisturbed_from.
  Qed.

  Lemma undisturbed_convert s : forall d, undisturbed (specifier_to_version_set_t h mix s) d = specifier_to_version_set_c h mix s d.
  Proof.
    induction s as [| |t v|ss IH|ss IH] using spec_members; intros d; cbn [specifier_to_version_set_t specifier_to_version_set_c]; apply undisturbed_cached; intros d'; auto using undisturbed_map.
  Qed.

  Lemma undisturbed_items items : forall d, undisturbed (mapM_t (item_to_specifier_t mix) items) d = mapM_c (item_to_specifier_c mix) items d.
  Proof.
    induction items as [|i items IH]; intros d; [reflexivity|]. cbn [mapM_t mapM_c]. rewrite undisturbed_then. apply then_ext.
    - now apply undisturbed_cached.
    - intros y d'. rewrite undisturbed_then. apply then_ext; auto.
  Qed.

  Lemma undisturbed_revert a : forall d, undisturbed (version_set_to_specifier_t mix a) d = version_set_to_specifier_c mix a d.
  Proof.
    intros d. apply undisturbed_cached. intros d'. destruct a as [|i|items]; try reflexivity. rewrite undisturbed_then. apply then_ext; [reflexivity|].
    intros [v|] e; [reflexivity|]. rewrite undisturbed_then. apply then_ext; [apply undisturbed_items|reflexivity].
  Qed.

  Lemma undisturbed_give {A} (w : A -> answer) (m : prog A) m' c : undisturbed m c = m' c -> undisturbed (give_t w m) c = give w m' c.
  Proof. intros E. unfold give_t, give. rewrite undisturbed_then. now apply then_ext. Qed.

  Theorem undisturbed_call c d : undisturbed (do_call_t h mix c) d = do_call h mix c d.
  Proof.
    destruct c as [s|s|s|p|a|p]; cbn [do_call_t do_call]; apply undisturbed_give.
    - now apply undisturbed_cached.
    - now apply undisturbed_cached.
    - apply undisturbed_cached. intros e. rewrite undisturbed_then. apply then_ext; [reflexivity|apply undisturbed_convert].
    - apply undisturbed_convert.
    - apply undisturbed_revert.
    - unfold simplify_t, simplify_c. rewrite undisturbed_then. apply then_ext; [apply undisturbed_convert|apply undisturbed_revert].
  Qed.

  (** What a thread will have been answered if no other one runs any more. *)
  Definition outlook (d : caches) (t : thread) : list (call * result answer) :=
    answers t ++ match now t with
                 | None => in_turn h mix (later t) d
                 | Some (c, p) => (c, fst (undisturbed p d)) :: in_turn h mix (later t) (snd (undisturbed p d))
                 end.

  Lemma step_outlook d t : outlook (fst (step h mix d t)) (snd (step h mix d t)) = outlook d t.
  Proof.
    unfold step, outlook. destruct (now t) as [[c [r|k|f p]]|] eqn:N; cbn [fst snd answers now later undisturbed].
    - now rewrite <- app_assoc.
    - reflexivity.
    - reflexivity.
    - destruct (later t) as [|c cs] eqn:L; cbn [fst snd answers now later].
      + now rewrite N, L.
      + cbn [in_turn]. now rewrite undisturbed_call.
  Qed.

  Lemma single_outlook ns : forall d t, exists d' t', schedule h mix ns d [t] = (d', [t']) /\ outlook d' t' = outlook d t.
  Proof.
    induction ns as [|n ns IH]; intros d t; [now exists d, t|]. cbn [schedule]. destruct n as [|n]; cbn [step_at].
    - pose proof (step_outlook d t) as E. destruct (step h mix d t) as [d1 t1]. cbn [fst snd] in E. destruct (IH d1 t1) as (d' & t' & S & O). exists d', t'. split; [exact S|congruence].
    - destruct n; cbn [step_at]; apply IH.
  Qed.

  Theorem single cs ns t : In t (threads_after h mix [cs] ns) -> finished t -> answers t = in_turn h mix cs no_caches.
  Proof.
    unfold threads_after. cbn [map]. destruct (single_outlook ns no_caches (fresh cs)) as (d' & t' & S & O). rewrite S. intros [<-|[]] [N L].
    unfold outlook in O. rewrite N, L in O. cbn [fresh answers now later in_turn app] in O. rewrite app_nil_r in O. exact O.
  Qed.
End Single.

(** ** Many threads *)

(** Whatever the dictionaries are when it looks into them, as long as [I] holds
    of them, the program stores only what keeps [I] and its result has [Q]. *)
Fixpoint safe {A} (I : caches -> Prop) (Q : result A -> Prop) (m : prog A) : Prop :=
  match m with
  | Done r => Q r
  | See k => forall c, I c -> safe I Q (k c)
  | Write f p => (forall c, I c -> I (f c)) /\ safe I Q p
  end.

Lemma safe_then {A B} (I : caches -> Prop) (Q : result A -> Prop) (R : result B -> Prop) (m : prog A) k :
  safe I Q m -> (forall a, Q (Ok a) -> safe I R (k a)) -> (forall e, Q (Err e) -> R (Err e)) -> safe I R (andAfter m k).
Proof.
  intros S K E. induction m as [[a|e]|g IH|f p IH]; cbn [andAfter safe] in *; auto. destruct S as [S1 S2]. auto.
Qed.

Lemma safe_weaken {A} (I : caches -> Prop) (Q R : result A -> Prop) (m : prog A) : safe I Q m -> (forall r, Q r -> R r) -> safe I R m.
Proof. intros S K. induction m as [r|g IH|f p IH]; cbn [safe] in *; auto. destruct S. auto. Qed.

Lemma safe_cached {K V} (I : caches -> Prop) (Q : result V -> Prop) (same : K -> K -> bool) get put k (body : prog V) :
  (forall c k' v, I c -> In (k', v) (get c) -> same k k' = true -> Q (Ok v)) ->
  (forall c v, I c -> Q (Ok v) -> I (put ((k, v) :: get c) c)) ->
  safe I Q body -> safe I Q (cached_t same get put k body).
Proof.
  intros H P B. unfold cached_t. cbn [safe]. intros c C. destruct (lookup same k (get c)) as [v|] eqn:L.
  - apply lookup_in in L as (k' & J & S). cbn [safe]. eauto.
  - apply safe_then with Q; auto. intros v Qv. cbn [safe]. auto.
Qed.

Section Hashes.
  Context (h : op_type -> N) (mix : list N -> N).
  Context (U : op_type -> version -> Prop).

  (** All five dictionaries; the last one only says something when arguments are fair. *)
  Definition all_inv (revert : Prop) (d : caches) : Prop := inv U d /\ (revert -> inv_revert d).

  Lemma version_safe R s : safe (all_inv R) (fun r => r = parse_version s) (parse_version_t s).
  Proof.
    apply safe_cached; [| |reflexivity].
    - intros c k' v [(I1 & _) _] J S. apply str_eqb_eq in S. subst k'. symmetry. now apply I1.
    - intros c v [(I1 & I2 & I3 & I4) I5] E. split; [|exact I5]. split; [|now repeat split]. intros s' v' [H|H]; [inversion H; subst; auto|now apply I1].
  Qed.

  Lemma specifier_safe R s : safe (all_inv R) (fun r => r = parse_specifier s) (parse_specifier_t s).
  Proof.
    apply safe_cached; [| |reflexivity].
    - intros c k' v [(_ & I2 & _) _] J S. apply str_eqb_eq in S. subst k'. symmetry. now apply I2.
    - intros c v [(I1 & I2 & I3 & I4) I5] E. split; [|exact I5]. split; [assumption|]. split; [|now split]. intros s' v' [H|H]; [inversion H; subst; auto|now apply I2].
  Qed.

  Definition reduced (f : vset -> vset -> result vset) (ss : list spec) (r : result vset) : Prop :=
    exists us, Forall2 (fun s u => spec_eqb s u = true) ss us /\ Forall (within U) us /\ reduce_map f specifier_to_version_set us = r.

  Definition reduced_from (f : vset -> vset -> result vset) (acc : vset) (ss : list spec) (r : result vset) : Prop :=
    exists us, Forall2 (fun s u => spec_eqb s u = true) ss us /\ Forall (within U) us /\ reduce_from f specifier_to_version_set acc us = r.

  Lemma refl_all ss : Forall2 (fun s u => spec_eqb s u = true) ss ss.
  Proof. induction ss; constructor; auto using spec_eqb_refl. Qed.

  Lemma from_safe R f ss : Forall (fun s => safe (all_inv R) (worth U s) (specifier_to_version_set_t h mix s)) ss -> Forall (within U) ss ->
    forall acc, safe (all_inv R) (reduced_from f acc ss) (reduce_from_t f (specifier_to_version_set_t h mix) acc ss).
  Proof.
    induction 1 as [|s ss S F IH]; intros W acc; cbn [reduce_from_t].
    - exists []. repeat split; constructor.
    - inversion W as [|? ? Ws Wss]; subst. apply safe_then with (worth U s); auto.
      + intros y (u & Q & Wu & V). cbn [pure andAfter]. destruct (f acc y) as [acc'|e] eqn:E.
        * apply safe_weaken with (reduced_from f acc' ss); [now apply IH|]. intros r (us & Q' & Wus & V'). exists (u :: us). split; [now constructor|]. split; [now constructor|].
          cbn [reduce_from]. rewrite V. cbn [bind]. rewrite E. exact V'.
        * exists (u :: ss). split; [constructor; auto using refl_all|]. split; [now constructor|]. cbn [reduce_from]. rewrite V. cbn [bind]. now rewrite E.
      + intros e (u & Q & Wu & V). exists (u :: ss). split; [constructor; auto using refl_all|]. split; [now constructor|]. cbn [reduce_from]. now rewrite V.
  Qed.

  Lemma map_safe R f ss : Forall (fun s => safe (all_inv R) (worth U s) (specifier_to_version_set_t h mix s)) ss -> Forall (within U) ss ->
    safe (all_inv R) (reduced f ss) (reduce_map_t f (specifier_to_version_set_t h mix) ss).
  Proof.
    intros F W. destruct F as [|s ss S F]; cbn [reduce_map_t].
    - exists []. repeat split; constructor.
    - inversion W as [|? ? Ws Wss]; subst. apply safe_then with (worth U s); auto.
      + intros y (u & Q & Wu & V). apply safe_weaken with (reduced_from f y ss); [now apply from_safe|]. intros r (us & Q' & Wus & V').
        exists (u :: us). split; [now constructor|]. split; [now constructor|]. cbn [reduce_map]. rewrite V. exact V'.
      + intros e (u & Q & Wu & V). exists (u :: ss). split; [constructor; auto using refl_all|]. split; [now constructor|]. cbn [reduce_map]. now rewrite V.
  Qed.

  Lemma convert_cached R s body : safe (all_inv R) (worth U s) body -> safe (all_inv R) (worth U s) (cached_t (same_spec h mix) c_convert put_convert s body).
  Proof.
    intros B. apply safe_cached; auto.
    - intros c k' v [(_ & _ & _ & I4) _] J S. destruct (I4 _ _ J) as (p & P1 & P2 & P3). exists p. split; [|now split].
      apply andb_true_iff in S as [_ S]. eapply spec_eqb_trans; eassumption.
    - intros c v [(I1 & I2 & I3 & I4) I5] E. split; [|exact I5]. split; [assumption|]. split; [assumption|]. split; [assumption|].
      intros p a [H|H]; [inversion H; subst; exact E|now apply I4].
  Qed.

  Lemma convert_safe R s : within U s -> safe (all_inv R) (worth U s) (specifier_to_version_set_t h mix s).
  Proof.
    induction s as [| |t v|ss IH|ss IH] using spec_members; intros W; cbn [specifier_to_version_set_t]; apply convert_cached.
    - now exists Never.
    - now exists Always.
    - exists (One t v). split; [apply spec_eqb_refl|]. split; auto.
    - pose proof (proj1 (within_any U ss) W) as Ws. apply safe_weaken with (reduced union ss).
      + apply map_safe; auto. rewrite Forall_forall in *. auto.
      + intros r (us & Q & Wus & V). exists (AnyOf us). split; [now apply spec_eqb_any|]. split; [now apply within_any|]. exact V.
    - pose proof (proj1 (within_all U ss) W) as Ws. apply safe_weaken with (reduced intersection ss).
      + apply map_safe; auto. rewrite Forall_forall in *. auto.
      + intros r (us & Q & Wus & V). exists (AllOf us). split; [now apply spec_eqb_all|]. split; [now apply within_all|]. exact V.
  Qed.

  Lemma set_safe R s : (forall p, parse_specifier s = Ok p -> within U p) -> safe (all_inv R) (worth_set U s) (parse_version_set_t h mix s).
  Proof.
    intros W. apply safe_cached.
    - intros c k' v [(_ & _ & I3 & _) _] J S. apply str_eqb_eq in S. subst k'. left. now apply I3.
    - intros c v [(I1 & I2 & I3 & I4) I5] E. split; [|exact I5]. split; [assumption|]. split; [assumption|]. split; [|assumption].
      intros s' a [H|H]; [|now apply I3]. inversion H; subst. destruct E as [E|(e & _ & E)]; [assumption|discriminate].
    - cbn [pure andAfter]. destruct (parse_specifier s) as [p|e] eqn:P.
      + apply safe_weaken with (worth U p); [apply convert_safe; auto|]. intros r V. left. eauto.
      + right. eauto.
  Qed.

  (** The way back. *)
  Lemma revert_cached (R : Prop) a body : (R -> canonical a) ->
    safe (all_inv R) (fun r => R -> near a r) body -> safe (all_inv R) (fun r => R -> near a r) (cached_t (same_set mix) c_revert put_revert a body).
  Proof.
    intros C B. apply safe_cached; auto.
    - intros c k v [_ I] J S H. destruct (I H _ _ J) as (Ck & p & u & P1 & P2 & P3).
      apply andb_true_iff in S as [_ S]. destruct (set_to_specifier_eq a k (C H) Ck S) as (x & y & X & Y & E).
      exists v, x. split; [reflexivity|]. split; [assumption|]. inversion P1; subst p.
      rewrite Y in P2. inversion P2; subst u. apply spec_eqb_trans with y; [assumption|]. now apply spec_eqb_sym.
    - intros c v [(I1 & I2 & I3 & I4) I5] E. split; [now repeat split|]. intros H a' p [K|K]; [inversion K; subst; auto|now apply I5].
  Qed.

  Lemma items_safe (R : Prop) items : (R -> Forall proper items) ->
    safe (all_inv R) (fun r => R -> exists ss, r = Ok ss /\ Forall2 (fun s u => spec_eqb s u = true) ss (map item_spec items))
      (mapM_t (item_to_specifier_t mix) items).
  Proof.
    induction items as [|i items IH]; intros P; cbn [mapM_t].
    - intros _. exists []. split; [reflexivity|constructor].
    - assert (N : R -> near (Item i) (item_to_specifier i)).
      { intros H. specialize (P H). inversion P; subst. rewrite item_to_specifier_eq by assumption. exists (item_spec i), (item_spec i). split; [reflexivity|].
        split; [now apply item_to_specifier_eq|apply spec_eqb_refl]. }
      apply safe_then with (fun r => R -> near (Item i) r).
      + apply revert_cached; [|exact N]. intros H. apply canonical_canon. specialize (P H). now inversion P.
      + intros y Y. eapply safe_then.
        * apply IH. intros H. specialize (P H). now inversion P.
        * intros ys Ys. cbn [safe pure]. intros H. destruct (Ys H) as (ss & E & F). inversion E; subst ss. exists (y :: ys). split; [reflexivity|].
          cbn [map]. constructor; [|exact F]. destruct (Y H) as (p & u & E1 & E2 & E3). inversion E1; subst p. specialize (P H). inversion P; subst.
          cbn [version_set_to_specifier] in E2. rewrite item_to_specifier_eq in E2 by assumption. congruence.
        * intros e Ee H. destruct (Ee H) as (ss & E & _). discriminate.
      + intros e Ee H. destruct (Ee H) as (p & u & E & _). discriminate.
  Qed.

  Lemma revert_safe (R : Prop) a : (R -> canonical a) -> safe (all_inv R) (fun r => R -> near a r) (version_set_to_specifier_t mix a).
  Proof.
    intros C. apply revert_cached; [assumption|].
    assert (SELF : forall s, R -> version_set_to_specifier a = Ok s -> near a (Ok s)) by (intros s _ E; exists s, s; split; [reflexivity|]; split; [assumption|apply spec_eqb_refl]).
    assert (T : R -> exists s, version_set_to_specifier a = Ok s) by (intros H; destruct (set_convert a (C H)) as (s & E & _); eauto).
    destruct a as [|i|items]; cbn [pure safe].
    - intros H. now apply SELF.
    - intros H. destruct (T H) as (s & E). cbn [version_set_to_specifier] in E. rewrite E. now apply SELF.
    - cbn [andAfter pure]. destruct (exclude_version items) as [[v|]|e] eqn:X; cbn [version_set_to_specifier] in *; rewrite ?X in *; cbn [bind] in *.
      + intros H. apply SELF; auto.
      + eapply safe_then.
        * apply items_safe. intros H. specialize (C H). apply canonical_canon, canon_proper in C. exact C.
        * intros ss S H. destruct (S H) as (ss' & E & F). inversion E; subst ss'. specialize (C H).
          assert (P : Forall proper items) by (apply canonical_canon, canon_proper in C; exact C).
          exists (any_of ss), (any_of (map item_spec items)). split; [reflexivity|]. split.
          { cbn [version_set_to_specifier]. rewrite X. cbn [bind]. rewrite mapM_items by assumption. reflexivity. }
          apply canonical_canon in C. destruct C as [_ L]. destruct items as [|i [|j items]]; cbn in L; try lia. cbn [map] in *.
          inversion F as [|? ? ? ? F1 F']; subst. inversion F' as [|? ? ? ? F2 F'']; subst. apply spec_eqb_any. assumption.
        * intros e Ee H. destruct (Ee H) as (ss & E & _). discriminate.
      + intros H. destruct (T H). discriminate.
  Qed.
End Hashes.

(** ** Calls *)

Definition wrapped {A} (w : A -> answer) (r : result A) : result answer := let* a := r in Ok (w a).

(** What every answer to a call is, in a process that makes the calls [all]. *)
Definition call_good (all : list call) (c : call) (r : result answer) : Prop :=
  match c with
  | ParseVersion s => r = wrapped AVersion (parse_version s)
  | ParseSpecifier s => r = wrapped ASpec (parse_specifier s)
  | ParseVersionSet s => exists x, r = wrapped ASet x /\ worth_set (mentioned all) s x
  | ToVersionSet p => exists x, r = wrapped ASet x /\ worth (mentioned all) p x
  | ToSpecifier a => exists x, r = wrapped ASpec x /\ (Forall fair all -> near a x)
  | Simplify p => exists x, r = wrapped ASpec x /\ (Forall fair all ->
      (exists a, worth (mentioned all) p (Ok a) /\ canonical a /\ near a x) \/ (exists e, worth (mentioned all) p (Err e) /\ x = Err e))
  end.

Lemma give_safe {A} I (Q : result A -> Prop) w (m : prog A) : safe I Q m -> safe I (fun r => exists x, r = wrapped w x /\ Q x) (give_t w m).
Proof.
  intros S. apply safe_then with Q; auto.
  - intros a Qa. exists (Ok a). split; [reflexivity|assumption].
  - intros e Qe. exists (Err e). split; [reflexivity|assumption].
Qed.

Section Pool.
  Context (h : op_type -> N) (mix : list N -> N) (all : list call).

  Local Notation I := (all_inv (mentioned all) (Forall fair all)).

  Lemma call_safe c : In c all -> safe I (call_good all c) (do_call_t h mix c).
  Proof.
    intros J. pose proof (all_known all c J) as K.
    assert (FC : Forall fair all -> fair c) by (intros F; rewrite Forall_forall in F; auto).
    destruct c as [s|s|s|p|a|p]; cbn [do_call_t call_good].
    - eapply safe_weaken; [apply give_safe, version_safe|]. now intros r (x & -> & ->).
    - eapply safe_weaken; [apply give_safe, specifier_safe|]. now intros r (x & -> & ->).
    - apply give_safe, set_safe. intros p P. apply K. now constructor.
    - apply give_safe, convert_safe. apply K. constructor.
    - apply give_safe, revert_safe. exact FC.
    - apply give_safe. apply safe_then with (worth (mentioned all) p).
      + apply convert_safe. apply K. constructor.
      + intros a V. assert (C : Forall fair all -> canonical a) by (intros F; apply (worth_canonical all p); auto; apply (FC F)).
        eapply safe_weaken; [apply revert_safe; exact C|]. intros r N F. left. exists a. auto.
      + intros e V F. right. eauto.
  Qed.

  Definition thread_ok (t : thread) : Prop :=
    (forall c p, now t = Some (c, p) -> safe I (call_good all c) p) /\ incl (later t) all /\ (forall c r, In (c, r) (answers t) -> call_good all c r).

  Lemma step_ok d t : I d -> thread_ok t -> I (fst (step h mix d t)) /\ thread_ok (snd (step h mix d t)).
  Proof.
    intros D (N & L & A). unfold step. destruct (now t) as [[c [r|k|f p]]|] eqn:E; cbn [fst snd].
    - split; [assumption|]. split; [discriminate|]. split; [assumption|]. cbn [answers]. intros c' r' J. apply in_app_iff in J as [J|[J|[]]]; [now apply A|].
      inversion J; subst. exact (N _ _ eq_refl).
    - split; [assumption|]. split; [|now split]. cbn [now]. intros c' p' J. inversion J; subst. exact (N _ _ eq_refl d D).
    - destruct (N _ _ eq_refl) as [N1 N2]. split; [now apply N1|]. split; [|now split]. cbn [now]. intros c' p' J. inversion J; subst. exact N2.
    - destruct (later t) as [|c cs] eqn:E'; cbn [fst snd].
      + split; [assumption|]. split; [rewrite E; discriminate|]. rewrite E'. now split.
      + split; [assumption|]. split; [|split; [|assumption]].
        * cbn [now]. intros c' p' J. inversion J; subst. apply call_safe, L. now left.
        * cbn [later]. intros x X. apply L. now right.
  Qed.

  Lemma step_at_ok n d ts : I d -> Forall thread_ok ts -> I (fst (step_at h mix n d ts)) /\ Forall thread_ok (snd (step_at h mix n d ts)).
  Proof.
    intros D F. revert n d D. induction F as [|t ts T F IH]; intros [|n] d D; cbn [step_at]; try (split; [exact D|constructor]).
    - destruct (step_ok d t D T) as [D' T']. destruct (step h mix d t) as [d' t']. cbn [fst snd] in *. split; [assumption|]. now constructor.
    - destruct (IH n d D) as [D' F']. destruct (step_at h mix n d ts) as [d' ts']. cbn [fst snd] in *. split; [assumption|]. now constructor.
  Qed.

  Lemma schedule_ok ns : forall d ts, I d -> Forall thread_ok ts -> I (fst (schedule h mix ns d ts)) /\ Forall thread_ok (snd (schedule h mix ns d ts)).
  Proof.
    induction ns as [|n ns IH]; intros d ts D F; [now split|]. cbn [schedule]. destruct (step_at_ok n d ts D F) as [D' F'].
    destruct (step_at h mix n d ts) as [d' ts']. now apply IH.
  Qed.
End Pool.

Section Answers.
  Context (h : op_type -> N) (mix : list N -> N).

  Theorem answered_good css ns c r : answered h mix css ns c r -> call_good (List.concat css) c r.
  Proof.
    intros (t & T & J). destruct (schedule_ok h mix (List.concat css) ns no_caches (map fresh css)) as [_ F].
    - split; [apply empty_inv|]. intros _ a p [].
    - apply Forall_forall. intros u Ju. apply in_map_iff in Ju as (cs & <- & Jc). split; [discriminate|]. split; [|intros ? ? []].
      intros x X. apply in_concat. eauto.
    - rewrite Forall_forall in F. now apply (F t T).
  Qed.

  (** *** Where the threads are *)

  Lemma step_calls d t : calls_of (snd (step h mix d t)) = calls_of t.
  Proof.
    unfold step, calls_of. destruct (now t) as [[c [r|k|f p]]|] eqn:E; cbn [snd now later answers]; try reflexivity.
    - rewrite map_app, <- app_assoc. reflexivity.
    - destruct (later t) as [|c cs] eqn:L; cbn [snd now later answers]; rewrite ?E, ?L; reflexivity.
  Qed.

  Lemma step_at_calls n : forall d ts, map calls_of (snd (step_at h mix n d ts)) = map calls_of ts.
  Proof.
    induction n as [|n IH]; intros d [|t ts]; cbn [step_at]; try reflexivity.
    - pose proof (step_calls d t). destruct (step h mix d t) as [d' t']. cbn [snd map] in *. congruence.
    - pose proof (IH d ts). destruct (step_at h mix n d ts) as [d' ts']. cbn [snd map] in *. congruence.
  Qed.

  Lemma schedule_calls ns : forall d ts, map calls_of (snd (schedule h mix ns d ts)) = map calls_of ts.
  Proof.
    induction ns as [|n ns IH]; intros d ts; [reflexivity|]. cbn [schedule]. pose proof (step_at_calls n d ts).
    destruct (step_at h mix n d ts) as [d' ts']. cbn [snd] in *. now rewrite IH.
  Qed.

  Theorem in_order css ns : map calls_of (threads_after h mix css ns) = css.
  Proof.
    unfold threads_after. rewrite schedule_calls, map_map. rewrite <- (map_id css) at 2. apply map_ext. reflexivity.
  Qed.

  Lemma answered_among css ns c r : answered h mix css ns c r -> In c (List.concat css).
  Proof.
    intros (t & T & J). apply in_concat. exists (calls_of t). split.
    - rewrite <- (in_order css ns). now apply in_map.
    - unfold calls_of. apply in_app_iff. left. now apply (in_map fst) in J.
  Qed.

  (** *** Answers *)

  Theorem threads_version css ns s r : answered h mix css ns (ParseVersion s) r -> r = answer_alone (ParseVersion s).
  Proof. exact (answered_good css ns (ParseVersion s) r). Qed.

  Theorem threads_specifier css ns s r : answered h mix css ns (ParseSpecifier s) r -> r = answer_alone (ParseSpecifier s).
  Proof. exact (answered_good css ns (ParseSpecifier s) r). Qed.

  Theorem threads_convert css ns p r : answered h mix css ns (ToVersionSet p) r ->
    exists q, spec_eqb p q = true /\ (forall t v, leaf t v q -> mentioned (List.concat css) t v) /\ r = answer_alone (ToVersionSet q).
  Proof.
    intros A. destruct (answered_good _ _ _ _ A) as (x & -> & q & E & W & <-). exists q. split; [assumption|]. split; [exact W|]. reflexivity.
  Qed.

  Theorem threads_set css ns s p r : parse_specifier s = Ok p -> answered h mix css ns (ParseVersionSet s) r ->
    exists q, spec_eqb p q = true /\ (forall t v, leaf t v q -> mentioned (List.concat css) t v) /\ r = answer_alone (ToVersionSet q).
  Proof.
    intros P A. destruct (answered_good _ _ _ _ A) as (x & -> & [(p' & P' & q & E & W & <-)|(e & P' & _)]); [|congruence].
    rewrite P in P'. inversion P'; subst p'. exists q. split; [assumption|]. split; [exact W|]. reflexivity.
  Qed.

  Theorem threads_set_error css ns s e r : parse_specifier s = Err e -> answered h mix css ns (ParseVersionSet s) r -> r = Err e.
  Proof.
    intros P A. destruct (answered_good _ _ _ _ A) as (x & -> & [(p' & P' & _)|(e' & P' & ->)]); [congruence|]. rewrite P in P'. now inversion P'.
  Qed.

  Theorem threads_agree css ns c r : Forall fair (List.concat css) -> spelled_enough (List.concat css) -> answered h mix css ns c r ->
    agree r (answer_alone c).
  Proof.
    intros F S A. pose proof (answered_good _ _ _ _ A) as G. pose proof (answered_among _ _ _ _ A) as J. pose proof (all_known _ c J) as K.
    assert (Fc : fair c) by (rewrite Forall_forall in F; auto). destruct c as [s|s|s|p|a|p]; cbn [call_good answer_alone] in *.
    - subst r. unfold wrapped. destruct (parse_version s); reflexivity.
    - subst r. unfold wrapped. destruct (parse_specifier s); cbn; auto using spec_eqb_refl.
    - destruct G as (x & -> & [(p & P & V)|(e & P & ->)]); unfold parse_version_set; rewrite P; [|reflexivity].
      cbn [bind]. apply fits_agree. destruct (parsed_made s p P) as [M N]. apply (worth_fits (List.concat css)); auto. apply K. now constructor.
    - destruct G as (x & -> & V). destruct Fc as [M N]. apply fits_agree. apply (worth_fits (List.concat css)); auto. apply K. constructor.
    - destruct G as (x & -> & N). destruct (N F) as (p & u & -> & V & Q). rewrite V. exact Q.
    - destruct G as (x & -> & N). destruct Fc as [M P]. assert (W : within (mentioned (List.concat css)) p) by (apply K; constructor).
      unfold simplify. destruct (N F) as [(a & V & C & q & u & -> & E2 & E3)|(e & V & ->)].
      + apply worth_fits in V; auto. destruct (specifier_to_version_set p) as [b|e]; cbn [fits] in V; [|contradiction].
        destruct V as (_ & Cb & Q). destruct (set_to_specifier_eq a b C Cb Q) as (y & z & Y & Z & T).
        cbn [bind]. rewrite Z. cbn. rewrite Y in E2. inversion E2; subst. eapply spec_eqb_trans; eassumption.
      + apply worth_fits in V; auto. destruct (specifier_to_version_set p) as [b|e']; cbn [fits] in V; [contradiction|].
        subst e'. reflexivity.
  Qed.

  (** *** No thread waits for another *)

  Fixpoint run (k : nat) (d : caches) (t : thread) : caches * thread :=
    match k with O => (d, t) | S k' => let (d', t') := step h mix d t in run k' d' t' end.

  Lemma run_plus j k : forall d t, run (j + k) d t = run k (fst (run j d t)) (snd (run j d t)).
  Proof. induction j as [|j IH]; intros d t; [reflexivity|]. cbn [Nat.add run]. destruct (step h mix d t). apply IH. Qed.

  Lemma run_call c p : forall d cs l, exists k d' r, run k d (Thread (Some (c, p)) cs l) = (d', Thread None cs (l ++ [(c, r)])).
  Proof.
    induction p as [r|g IH|f p IH]; intros d cs l.
    - exists 1%nat, d, r. reflexivity.
    - destruct (IH d d cs l) as (k & d' & r & E). exists (S k), d', r. exact E.
    - destruct (IH (f d) cs l) as (k & d' & r & E). exists (S k), d', r. exact E.
  Qed.

  Lemma run_calls cs : forall d l, exists k, finished (snd (run k d (Thread None cs l))).
  Proof.
    induction cs as [|c cs IH]; intros d l; [exists O; now split|].
    destruct (run_call c (do_call_t h mix c) d cs l) as (j & d' & r & E). destruct (IH d' (l ++ [(c, r)])) as (k & F).
    exists (S j + k)%nat. rewrite run_plus. cbn [run step now later answers]. rewrite E. exact F.
  Qed.

  Lemma run_finishes d t : exists k, finished (snd (run k d t)).
  Proof.
    destruct t as [[[c p]|] cs l]; [|apply run_calls]. destruct (run_call c p d cs l) as (j & d' & r & E).
    destruct (run_calls cs d' (l ++ [(c, r)])) as (k & F). exists (j + k)%nat. rewrite run_plus, E. exact F.
  Qed.

  Lemma step_at_nth n : forall d ts t, nth_error ts n = Some t ->
    fst (step_at h mix n d ts) = fst (step h mix d t) /\ nth_error (snd (step_at h mix n d ts)) n = Some (snd (step h mix d t)).
  Proof.
    induction n as [|n IH]; intros d [|u ts] t T; try discriminate T; cbn [step_at nth_error] in *.
    - inversion T; subst u. destruct (step h mix d t). now split.
    - specialize (IH d ts t T). destruct (step_at h mix n d ts). exact IH.
  Qed.

  Lemma schedule_nth n k : forall d ts t, nth_error ts n = Some t -> nth_error (snd (schedule h mix (repeat n k) d ts)) n = Some (snd (run k d t)).
  Proof.
    induction k as [|k IH]; intros d ts t T; [exact T|]. cbn [repeat schedule run]. destruct (step_at_nth n d ts t T) as [E1 E2].
    destruct (step_at h mix n d ts) as [d1 ts1]. destruct (step h mix d t) as [d2 t2]. cbn [fst snd] in *. subst d2. now apply IH.
  Qed.

  Lemma schedule_app ns ms : forall d ts, schedule h mix (ns ++ ms) d ts = schedule h mix ms (fst (schedule h mix ns d ts)) (snd (schedule h mix ns d ts)).
  Proof. induction ns as [|n ns IH]; intros d ts; [reflexivity|]. cbn [app schedule]. destruct (step_at h mix n d ts). apply IH. Qed.

  Theorem no_waiting css ns n : (n < List.length css)%nat ->
    exists k t, nth_error (threads_after h mix css (ns ++ repeat n k)) n = Some t /\ finished t.
  Proof.
    intros L. unfold threads_after. destruct (schedule h mix ns no_caches (map fresh css)) as [d ts] eqn:E.
    assert (LT : (n < List.length ts)%nat).
    { pose proof (in_order css ns) as O. unfold threads_after in O. rewrite E in O. cbn [snd] in O. apply (f_equal (@List.length _)) in O. rewrite map_length in O. lia. }
    destruct (nth_error ts n) as [t|] eqn:T; [|apply nth_error_None in T; lia].
    destruct (run_finishes d t) as (k & F). exists k, (snd (run k d t)). split; [|exact F]. rewrite schedule_app, E. now apply schedule_nth.
  Qed.
End Answers.

(** *** Two threads may both miss *)

Lemma both_miss h mix : exists p q a b,
  threads_after h mix [[ToVersionSet p]; [ToVersionSet q]] [0; 1; 0; 1; 0; 1; 0; 1]%nat
    = [Thread None [] [(ToVersionSet p, Ok (ASet a))]; Thread None [] [(ToVersionSet q, Ok (ASet b))]]
  /\ answer_after h mix [ToVersionSet p] (ToVersionSet q) = Ok (ASet a)
  /\ answer_after h mix [ToVersionSet q] (ToVersionSet p) = Ok (ASet b)
  /\ set_eqb a b = false.
Proof.
  exists (One CARET (plain [0])), (One CARET (plain [0; 0; 0]))%Z,
    (Item (Range (Some (plain [0])) (Some (plain [1])) true false)), (Item (Range (Some (plain [0; 0; 0])) (Some (plain [0; 0; 1])) true false)).
  split; [vm_compute; reflexivity|]. split; [apply one_after_one; reflexivity|]. split; [apply one_after_one; reflexivity|]. vm_compute. reflexivity.
Qed.
