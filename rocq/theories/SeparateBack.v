(** What a call does to the dictionary of the way back. *)

From Coq Require Import List ZArith NArith String Bool Lia.
From Verif Require Import Py Segments Version VersionSets Operators SetStrings Specifiers Parsers Spec Orders Caches Histories
  SpecifierFacts CacheFacts Typed TypedSpec TypedFacts GenericSets GenericFacts TypedSets MixedFacts RenameFacts TypedSetFacts TypedCaches SeparateSpec SeparateFacts SeparateStates.
Import ListNotations.
Local Open Scope nat_scope.
Local Opaque key v_cmp v_eq t_union t_intersection t_complement t_translate t_item_to_specifier.

Section Back.
  Context (h : op_type -> N) (mix : list N -> N).
  Notation SS := (same_tset mix).
  Notation revert := (t_to_specifier_c mix).
  Notation item_revert := (t_item_to_specifier_c mix).
  Notation rev_of := (rev_of mix).

  Definition all_but (d d' : tcaches) : Prop :=
    tc_version d = tc_version d' /\ tc_specifier d = tc_specifier d' /\ tc_set d = tc_set d' /\ tc_convert d = tc_convert d'.
  Lemma all_refl d : all_but d d.
  Proof. now repeat split. Qed.
  Lemma all_trans d e f : all_but d e -> all_but e f -> all_but d f.
  Proof. unfold all_but. intuition congruence. Qed.

  Definition excluded (c : gset typed) : option typed := match c with GItem (GPoint x) => Some x | _ => None end.

  Definition back (a : gset typed) : tact tspec :=
    match a with
    | GEmpty => tlift (Ok TNever)
    | GItem i => tlift (t_item_to_specifier i)
    | GUnion items =>
        fun d => match t_complement a with
        | Err e => (Err e, d)
        | Ok c => match excluded c with
          | Some x => (Ok (TOne NOT_EQUAL x), d)
          | None => match t_mapM_c item_revert items d with (Ok ss, d') => (Ok (t_any_of ss), d') | (Err e, d') => (Err e, d') end
          end
        end
    end.

  Definition kept_back (a : gset typed) (r : result tspec * tcaches) : result tspec * tcaches :=
    match r with
    | (Ok v, d') => (Ok v, tput_revert ((a, v) :: tc_revert d') d')
    | (Err e, d') => (Err e, d')
    end.

  Lemma revert_eq a d : revert a d = match rev_of a d with Some v => (Ok v, d) | None => kept_back a (back a d) end.
  Proof.
    destruct a as [|i|items]; try reflexivity. unfold t_to_specifier_c, tcached, SeparateStates.rev_of. destruct (lookup _ _ _); [reflexivity|].
    cbn [back]. unfold tThen, tlift. destruct (t_complement _) as [[|[x|? ? ? ?]|?]|e]; cbn [excluded kept_back]; try reflexivity;
      destruct (t_mapM_c item_revert items d) as [[ss|e] d']; reflexivity.
  Qed.
  Lemma item_revert_eq i d : item_revert i d = revert (GItem i) d.
  Proof. reflexivity. Qed.

  Lemma rev_kept b a r : rev_of b (snd (kept_back a r)) = match fst r with Ok v => if SS b a then Some v else rev_of b (snd r) | Err _ => rev_of b (snd r) end.
  Proof. destruct r as [[v|e] d]; reflexivity. Qed.
  Lemma all_kept a d r : all_but d (snd r) -> all_but d (snd (kept_back a r)).
  Proof. destruct r as [[v|e] d']; auto. Qed.
  Lemma fst_kept a r : fst (kept_back a r) = fst r.
  Proof. now destruct r as [[v|e] d']. Qed.

  Lemma mapM_keeps (P : tcaches -> Prop) items : Forall (fun i => forall d, P d -> P (snd (item_revert i d))) items ->
    forall d, P d -> P (snd (t_mapM_c item_revert items d)).
  Proof.
    induction 1 as [|i items S F IH]; intros d H; auto. cbn [t_mapM_c]. unfold tThen, tlift. specialize (S d H).
    destruct (item_revert i d) as [[y|e] d']; cbn [fst snd] in *; auto. specialize (IH d' S). destruct (t_mapM_c item_revert items d') as [[ys|e] d'']; auto.
  Qed.
  Lemma back_keeps (P : tcaches -> Prop) a : Forall (fun i => forall d, P d -> P (snd (item_revert i d))) (g_extract a) -> forall d, P d -> P (snd (back a d)).
  Proof.
    destruct a as [|i|items]; auto. intros F d H. cbn [back]. destruct (t_complement _) as [c|e]; auto. destruct (excluded c); auto.
    assert (K := mapM_keeps P items F d H). destruct (t_mapM_c item_revert items d) as [[ss|e] d']; exact K.
  Qed.

  Lemma item_back_keeps i d : all_but d (snd (item_revert i d)).
  Proof. rewrite item_revert_eq, revert_eq. destruct (rev_of _ d); [apply all_refl|]. apply all_kept, all_refl. Qed.
  Lemma revert_keeps a d : all_but d (snd (revert a d)).
  Proof.
    rewrite revert_eq. destruct (rev_of a d); [apply all_refl|]. apply all_kept, (back_keeps (all_but d)); [|apply all_refl].
    apply Forall_forall. intros i _ e H. eapply all_trans; [exact H|apply item_back_keeps].
  Qed.

  Lemma item_frame b i d : SS b (GItem i) = false -> rev_of b (snd (item_revert i d)) = rev_of b d.
  Proof.
    intros F. rewrite item_revert_eq, revert_eq. destruct (rev_of (GItem i) d); [reflexivity|]. rewrite rev_kept, F. cbn [back tlift fst snd]. now destruct (t_item_to_specifier i).
  Qed.
  Lemma revert_frame b a d : SS b a = false -> (forall i, In i (g_extract a) -> SS b (GItem i) = false) -> rev_of b (snd (revert a d)) = rev_of b d.
  Proof.
    intros F G. rewrite revert_eq. destruct (rev_of a d); [reflexivity|]. rewrite rev_kept, F.
    assert (K : rev_of b (snd (back a d)) = rev_of b d).
    { apply (back_keeps (fun e => rev_of b e = rev_of b d)); auto. apply Forall_forall. intros i I e H. rewrite <- H. apply item_frame. auto. }
    rewrite K. now destruct (fst _).
  Qed.

  (** *** Sets without versions *)

  Definition back_exact (d : tcaches) : Prop := forall a p, plain_set a = true -> rev_of a d = Some p -> t_to_specifier a = Ok p.

  Lemma kept_plain a r : back_exact (snd r) -> (plain_set a = true -> fst r = t_to_specifier a) ->
    back_exact (snd (kept_back a r)) /\ (plain_set a = true -> fst (kept_back a r) = t_to_specifier a).
  Proof.
    intros H K. rewrite fst_kept. split; auto. intros b p P. rewrite rev_kept. destruct (fst r) as [v|e] eqn:F; [|now apply H].
    destruct (SS b a) eqn:E; [|now apply H]. apply (SS_eqb mix) in E. apply plain_set_equal in E as [_ E]. specialize (E P). subst b. rewrite <- K by assumption. congruence.
  Qed.

  Lemma item_plain i d : back_exact d -> back_exact (snd (item_revert i d)) /\ (plain_item i = true -> fst (item_revert i d) = t_item_to_specifier i).
  Proof.
    intros H. assert (P : plain_set (GItem i) = plain_item i) by (cbn; apply andb_true_r). rewrite item_revert_eq, revert_eq.
    destruct (rev_of (GItem i) d) as [p|] eqn:E; [cbn [fst snd]; split; [exact H|intros Q; symmetry; apply (H (GItem i)); congruence]|].
    rewrite <- P. apply (kept_plain (GItem i)); auto.
  Qed.

  Lemma revert_plain a d : back_exact d -> back_exact (snd (revert a d)) /\ (plain_set a = true -> fst (revert a d) = t_to_specifier a).
  Proof.
    intros H. rewrite revert_eq. destruct (rev_of a d) as [p|] eqn:E; [cbn [fst snd]; split; [exact H|intros Q; symmetry; now apply H]|]. apply kept_plain.
    - apply (back_keeps back_exact); auto. apply Forall_forall. intros i _ e K. now apply item_plain.
    - destruct a as [|i|items]; auto. intros P. cbn [back t_to_specifier]. destruct (t_complement _) as [c|e]; [|reflexivity]. cbn [bind].
      assert (M : forall items, forallb plain_item items = true -> forall d, back_exact d -> fst (t_mapM_c item_revert items d) = mapM t_item_to_specifier items).
      { clear. induction items as [|i items IH]; intros P d H; [reflexivity|]. cbn in P. apply andb_true_iff in P as [P1 P2]. cbn [t_mapM_c mapM]. unfold tThen, tlift.
        destruct (item_plain i d H) as [D1 D2]. rewrite <- (D2 P1). destruct (item_revert i d) as [[y|e] d']; [|reflexivity]. cbn [fst snd bind] in *.
        rewrite <- (IH P2 d' D1). destruct (t_mapM_c item_revert items d') as [[ys|e] d'']; reflexivity. }
      assert (X : match excluded c with
        | Some x => Ok (TOne NOT_EQUAL x)
        | None => fst (match t_mapM_c item_revert items d with (Ok ss, d') => (Ok (t_any_of ss), d') | (Err e, d') => (Err e, d') end)
        end = match c with GItem (GPoint x) => Ok (TOne NOT_EQUAL x) | _ => let* ss := mapM t_item_to_specifier items in Ok (t_any_of ss) end).
      { rewrite <- (M items P d H). destruct (t_mapM_c item_revert items d) as [[ss|e] d']; destruct c as [|[x|? ? ? ?]|?]; reflexivity. }
      rewrite <- X. destruct (excluded c); reflexivity.
  Qed.

  (** *** Two states that agree on a class *)

  Notation V T := (carry_set (Typed T)).

  Definition meet_back (T : vtype) (d e : tcaches) : Prop := back_exact d /\ back_exact e
    /\ forall a, plain_set (V T a) = false -> rev_of (V T a) d = rev_of (V T a) e.

  Lemma plain_apart b a : plain_set b = false -> plain_set a = true -> SS b a = false.
  Proof. intros B A. destruct (SS b a) eqn:E; auto. apply (SS_eqb mix) in E. apply plain_set_equal in E as [E _]. congruence. Qed.
  Lemma plain_items a i : plain_set a = true -> In i (g_extract a) -> plain_set (GItem i) = true.
  Proof. unfold plain_set at 1. rewrite forallb_forall. intros H I. cbn. now rewrite H. Qed.
  Lemma class_apart T U b a : T <> U -> plain_set (V T b) = false -> SS (V T b) (V U a) = false.
  Proof. intros D B. destruct (SS (V T b) (V U a)) eqn:E; auto. apply (SS_eqb mix) in E. rewrite (sets_plain T U b a D E) in B. discriminate. Qed.
  Lemma class_items U a i : In i (g_extract (V U a)) -> exists j, GItem i = V U (Item j).
  Proof. rewrite c_extract. intros I. apply in_map_iff in I as (j & <- & _). now exists j. Qed.

  Lemma plain_step T a d e : plain_set (V T a) = true -> meet_back T d e ->
    fst (revert (V T a) d) = fst (revert (V T a) e) /\ meet_back T (snd (revert (V T a) d)) (snd (revert (V T a) e)).
  Proof.
    intros P (Hd & He & M). destruct (revert_plain (V T a) d Hd) as [D1 D2], (revert_plain (V T a) e He) as [E1 E2]. rewrite D2, E2 by assumption.
    split; [reflexivity|]. split; [assumption|]. split; [assumption|]. intros b B.
    rewrite !revert_frame; auto using plain_apart; intros i I; apply plain_apart; auto; eapply plain_items; eassumption.
  Qed.

  Lemma kept_step T a r r' : plain_set (V T a) = false -> fst r = fst r' -> meet_back T (snd r) (snd r') ->
    fst (kept_back (V T a) r) = fst (kept_back (V T a) r') /\ meet_back T (snd (kept_back (V T a) r)) (snd (kept_back (V T a) r')).
  Proof.
    intros P E (Hd & He & M). rewrite !fst_kept. split; [exact E|]. split; [|split].
    - apply kept_plain; auto. rewrite P. discriminate.
    - apply kept_plain; auto. rewrite P. discriminate.
    - intros b B. rewrite !rev_kept, E, M by assumption. reflexivity.
  Qed.

  Lemma item_along T i d e : meet_back T d e ->
    fst (item_revert (carry_item (Typed T) i) d) = fst (item_revert (carry_item (Typed T) i) e)
    /\ meet_back T (snd (item_revert (carry_item (Typed T) i) d)) (snd (item_revert (carry_item (Typed T) i) e)).
  Proof.
    intros M. rewrite !item_revert_eq. change (GItem (carry_item (Typed T) i)) with (V T (Item i)).
    destruct (plain_set (V T (Item i))) eqn:P; [now apply plain_step|]. assert (M' := M). destruct M' as (Hd & He & K). rewrite !revert_eq, K by assumption.
    destruct (rev_of _ e); [now split|]. now apply kept_step.
  Qed.

  Lemma mapM_along T items : forall d e, meet_back T d e ->
    fst (t_mapM_c item_revert (map (carry_item (Typed T)) items) d) = fst (t_mapM_c item_revert (map (carry_item (Typed T)) items) e)
    /\ meet_back T (snd (t_mapM_c item_revert (map (carry_item (Typed T)) items) d)) (snd (t_mapM_c item_revert (map (carry_item (Typed T)) items) e)).
  Proof.
    induction items as [|i items IH]; intros d e M; [now split|]. cbn [map t_mapM_c]. unfold tThen, tlift. destruct (item_along T i d e M) as [S1 S2].
    destruct (item_revert _ d) as [[y|x] d'], (item_revert _ e) as [[y'|x'] e']; cbn [fst snd] in *; try discriminate; [|injection S1 as <-; now split]. injection S1 as <-.
    destruct (IH d' e' S2) as [S3 S4]. destruct (t_mapM_c _ _ d') as [[ys|x] d''], (t_mapM_c _ _ e') as [[ys'|x'] e'']; cbn [fst snd] in *; try discriminate; [|injection S3 as <-; now split].
    injection S3 as <-. now split.
  Qed.

  Lemma revert_along T a d e : meet_back T d e ->
    fst (revert (V T a) d) = fst (revert (V T a) e) /\ meet_back T (snd (revert (V T a) d)) (snd (revert (V T a) e)).
  Proof.
    intros M. destruct (plain_set (V T a)) eqn:P; [now apply plain_step|]. assert (M' := M). destruct M' as (Hd & He & K). rewrite !revert_eq, K by assumption.
    destruct (rev_of _ e); [now split|]. assert (B : fst (back (V T a) d) = fst (back (V T a) e) /\ meet_back T (snd (back (V T a) d)) (snd (back (V T a) e))).
    { destruct a as [|i|items]; try now split. cbn [carry_set back]. destruct (t_complement _) as [c|x]; [|now split]. destruct (excluded c); [now split|].
      destruct (mapM_along T items d e M) as [S1 S2].
      destruct (t_mapM_c _ _ d) as [[ys|x] d'], (t_mapM_c _ _ e) as [[ys'|x'] e']; cbn [fst snd] in *; try discriminate; [|injection S1 as <-; now split]. injection S1 as <-. now split. }
    apply kept_step; tauto.
  Qed.

  Lemma revert_aside T U a d e : T <> U -> meet_back T d e -> meet_back T (snd (revert (V U a) d)) e.
  Proof.
    intros D (Hd & He & M). split; [now apply revert_plain|]. split; [assumption|]. intros b B. rewrite revert_frame; auto using class_apart.
    intros i I. destruct (class_items U a i I) as [j ->]. now apply class_apart.
  Qed.
End Back.
