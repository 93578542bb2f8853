(** Calls with specifiers of any classes. *)

From Coq Require Import List ZArith NArith String Bool Lia.
From Verif Require Import Py Segments Version VersionSets Operators SetStrings Specifiers Parsers Spec Orders Caches Histories
  SpecifierFacts CacheFacts Typed TypedSpec TypedFacts GenericSets GenericFacts TypedSets MixedFacts RenameFacts TypedSetFacts TypedCaches SeparateSpec SeparateFacts SeparateStates SeparateBack SeparateMain.
Import ListNotations.
Local Open Scope nat_scope.
Local Opaque key v_cmp v_eq t_union t_intersection t_complement t_translate t_item_to_specifier.

Section Known.
  Context (h : op_type -> N) (mix : list N -> N) (K : op_type -> typed -> Prop).
  Notation convert := (t_to_version_set_c h mix).

  Definition t_within (p : tspec) : Prop := forall t x, t_leaf t x p -> K t x.
  Lemma t_within_any ss : t_within (TAnyOf ss) <-> Forall t_within ss.
  Proof.
    rewrite Forall_forall. split.
    - intros W s I t v L. apply W. econstructor; eauto.
    - intros F t v L. inversion L; subst. eapply F; eauto.
  Qed.
  Lemma t_within_all ss : t_within (TAllOf ss) <-> Forall t_within ss.
  Proof.
    rewrite Forall_forall. split.
    - intros W s I t v L. apply W. apply t_leaf_all with s; auto.
    - intros F t v L. inversion L; subst. eapply F; eauto.
  Qed.

  Definition t_worth (p : tspec) (r : result (gset typed)) : Prop :=
    exists p', tspec_eqb p p' = true /\ t_within p' /\ t_to_version_set p' = r.
  Definition all_worth (d : tcaches) : Prop := forall p a, In (p, a) (tc_convert d) -> t_worth p (Ok a).

  Lemma t_lookup_in p d a : conv h mix p d = Some a -> exists k, In (k, a) (tc_convert d) /\ tspec_eqb p k = true.
  Proof. intros H. apply lookup_in in H as (k & I & S). exists k. split; [exact I|]. now apply andb_true_iff in S. Qed.

  Definition t_good (s : tspec) : Prop := forall d, all_worth d -> t_within s -> all_worth (snd (convert s d)) /\ t_worth s (fst (convert s d)).

  Lemma t_cached s : (forall d, all_worth d -> t_within s -> all_worth (snd (body h mix s d)) /\ t_worth s (fst (body h mix s d))) -> t_good s.
  Proof.
    intros B d I W. rewrite convert_eq. destruct (conv h mix s d) as [a|] eqn:C; cbn [fst snd].
    - split; [exact I|]. apply t_lookup_in in C as (k & J & S). destruct (I _ _ J) as (p & P1 & P2 & P3). exists p. split; [|now split]. eapply teqb_trans; eassumption.
    - destruct (B d I W) as [B1 B2]. rewrite fst_stored. split; [|exact B2]. destruct (body h mix s d) as [[a|e] d']; cbn [fst snd stored] in *; [|exact B1].
      intros p b [H|H]; [inversion H; subst; exact B2|now apply B1].
  Qed.

  Lemma equals_refl ss : Forall2 (fun s u => tspec_eqb s u = true) ss ss.
  Proof. induction ss; constructor; auto using teqb_refl. Qed.

  Lemma t_reduce_from f ss : Forall t_good ss -> forall acc d, all_worth d -> Forall t_within ss ->
    all_worth (snd (t_reduce_from_c f convert acc ss d))
    /\ exists us, Forall2 (fun s u => tspec_eqb s u = true) ss us /\ Forall t_within us /\ g_reduce_from f t_to_version_set acc us = fst (t_reduce_from_c f convert acc ss d).
  Proof.
    induction 1 as [|s ss Gs G IH]; intros acc d I W; cbn [t_reduce_from_c].
    - split; [assumption|]. exists []. repeat split; constructor.
    - inversion W as [|? ? Ws Wss]; subst. destruct (Gs d I Ws) as (I' & u & Q & Wu & E). unfold tThen, tlift.
      destruct (convert s d) as [[y|e] d']; cbn [fst snd] in *.
      + destruct (f acc y) as [acc'|e] eqn:F.
        * destruct (IH acc' d' I' Wss) as (I'' & us & Q' & Wus & E'). split; [assumption|]. exists (u :: us). split; [constructor; auto|]. split; [constructor; auto|].
          cbn [g_reduce_from]. rewrite E. cbn [bind]. rewrite F. exact E'.
        * split; [assumption|]. exists (u :: ss). split; [constructor; auto using equals_refl|]. split; [constructor; auto|]. cbn [g_reduce_from]. rewrite E. cbn [bind]. now rewrite F.
      + split; [assumption|]. exists (u :: ss). split; [constructor; auto using equals_refl|]. split; [constructor; auto|]. cbn [g_reduce_from]. now rewrite E.
  Qed.
  Lemma t_reduce_map f ss d : Forall t_good ss -> all_worth d -> Forall t_within ss ->
    all_worth (snd (t_reduce_map_c f convert ss d))
    /\ exists us, Forall2 (fun s u => tspec_eqb s u = true) ss us /\ Forall t_within us /\ g_reduce_map f t_to_version_set us = fst (t_reduce_map_c f convert ss d).
  Proof.
    intros G I W. destruct ss as [|s ss]; cbn [t_reduce_map_c].
    - split; [assumption|]. exists []. repeat split; constructor.
    - inversion W as [|? ? Ws Wss]; inversion G as [|? ? Gs Gss]; subst. destruct (Gs d I Ws) as (I' & u & Q & Wu & E). unfold tThen.
      destruct (convert s d) as [[y|e] d']; cbn [fst snd] in *.
      + destruct (t_reduce_from f ss Gss y d' I' Wss) as (I'' & us & Q' & Wus & E'). split; [assumption|]. exists (u :: us). split; [constructor; auto|].
        split; [constructor; auto|]. cbn [g_reduce_map]. rewrite E. exact E'.
      + split; [assumption|]. exists (u :: ss). split; [constructor; auto using equals_refl|]. split; [constructor; auto|]. cbn [g_reduce_map]. now rewrite E.
  Qed.

  Lemma t_convert_good s : t_good s.
  Proof.
    induction s as [| |t v|ss IH|ss IH] using tspec_members; apply t_cached; intros d I W.
    - split; [assumption|]. now exists TNever.
    - split; [assumption|]. now exists TAlways.
    - split; [assumption|]. exists (TOne t v). split; [apply teqb_refl|]. now split.
    - apply t_within_any in W. destruct (t_reduce_map t_union ss d IH I W) as (I' & us & Q & Wus & E). split; [assumption|].
      exists (TAnyOf us). split; [now apply teqb_any|]. split; [now apply t_within_any|]. exact E.
    - apply t_within_all in W. destruct (t_reduce_map t_intersection ss d IH I W) as (I' & us & Q & Wus & E). split; [assumption|].
      exists (TAllOf us). split; [now apply teqb_all|]. split; [now apply t_within_all|]. exact E.
  Qed.

  Lemma worth_eq d d' : tc_convert d = tc_convert d' -> all_worth d -> all_worth d'.
  Proof. unfold all_worth. now intros ->. Qed.

  Definition t_known (c : tcall) : Prop := forall p, t_converts c p -> t_within p.

  Lemma worth_call c d : good h mix d -> all_worth d -> t_known c -> all_worth (snd (t_do_call h mix c d)).
  Proof.
    intros G A W. destruct c as [x|x|x|p|a|p]; cbn [t_do_call]; rewrite give_snd.
    - destruct (good_version h mix x d G) as (_ & _ & E & _). now apply (worth_eq d).
    - destruct (good_specifier h mix x d G) as (_ & _ & E & _). now apply (worth_eq d).
    - destruct (good_set h mix x d G) as (_ & _ & E & _). eapply worth_eq; [symmetry; exact E|]. unfold parse_convert, tThen, tlift.
      destruct (t_parse_specifier (a_type x) (a_string x)) as [p|e] eqn:P; [|assumption]. apply t_convert_good; auto. apply W. now constructor.
    - apply t_convert_good; auto. apply W. constructor.
    - eapply worth_eq; [|exact A]. apply (revert_keeps mix a d).
    - unfold t_simplify_c, tThen. assert (X := proj1 (t_convert_good p d A (W p ltac:(constructor)))). destruct (convert p d) as [[a|e] d']; [|exact X].
      eapply worth_eq; [|exact X]. apply (revert_keeps mix a d').
  Qed.

  Lemma worth_calls cs : forall d, good h mix d -> all_worth d -> Forall t_known cs -> all_worth (t_do_calls h mix cs d).
  Proof.
    induction cs as [|c cs IH]; intros d G A W; auto. inversion W; subst. cbn [t_do_calls]. apply IH; auto; [now apply good_call|now apply worth_call].
  Qed.
End Known.

Section Any.
  Context (h : op_type -> N) (mix : list N -> N).

  Lemma history_worth cs c : all_worth (t_mentioned (c :: cs)) (t_do_calls h mix cs no_tcaches).
  Proof.
    apply worth_calls; [apply good_empty|intros p a []|]. apply Forall_forall. intros c0 I p P t x L. exists c0, p. split; [now right|]. now split.
  Qed.

  Theorem any_to_set cs p : exists p', tspec_eqb p p' = true /\ (forall t x, t_leaf t x p' -> t_mentioned (TToVersionSet p :: cs) t x)
    /\ t_answer_after h mix cs (TToVersionSet p) = t_answer_alone (TToVersionSet p').
  Proof.
    assert (A := history_worth cs (TToVersionSet p)).
    destruct (t_convert_good h mix _ p _ A) as (_ & p' & E & W & V).
    - intros t x L. exists (TToVersionSet p), p. split; [now left|]. split; [constructor|exact L].
    - exists p'. split; [exact E|]. split; [exact W|]. unfold t_answer_after. cbn [t_do_call t_answer_alone]. now rewrite give_fst, V.
  Qed.

  Theorem any_parse_set cs x p : t_parse_specifier (a_type x) (a_string x) = Ok p ->
    exists p', tspec_eqb p p' = true /\ (forall t y, t_leaf t y p' -> t_mentioned (TParseVersionSet x :: cs) t y)
    /\ t_answer_after h mix cs (TParseVersionSet x) = t_answer_alone (TToVersionSet p').
  Proof.
    intros P. assert (A := history_worth cs (TParseVersionSet x)). assert (G := good_calls h mix cs _ (good_empty h mix)).
    destruct (t_convert_good h mix _ p _ A) as (_ & p' & E & W & V).
    - intros t y L. exists (TParseVersionSet x), p. split; [now left|]. split; [now constructor|exact L].
    - exists p'. split; [exact E|]. split; [exact W|]. unfold t_answer_after. cbn [t_do_call t_answer_alone]. rewrite give_fst.
      destruct (good_set h mix x _ G) as (-> & _). unfold parse_convert, tThen, tlift. now rewrite P, V.
  Qed.

  Theorem any_parse_error cs x e : t_parse_specifier (a_type x) (a_string x) = Err e -> t_answer_after h mix cs (TParseVersionSet x) = Err e.
  Proof.
    intros P. assert (G := good_calls h mix cs _ (good_empty h mix)). unfold t_answer_after. cbn [t_do_call]. rewrite give_fst.
    destruct (good_set h mix x _ G) as (-> & _). unfold parse_convert, tThen, tlift. now rewrite P.
  Qed.

  (** Specifiers equal to one of class [T] are of class [T]. *)
  Lemma equal_class T p : forall p', tspec_eqb (retype_spec T p) p' = true -> exists q, p' = retype_spec T q.
  Proof.
    assert (L : forall ss us, Forall (fun s => forall p', tspec_eqb (retype_spec T s) p' = true -> exists q, p' = retype_spec T q) ss ->
      Forall2 (fun s u => tspec_eqb s u = true) (map (retype_spec T) ss) us -> exists qs, us = map (retype_spec T) qs).
    { induction ss as [|s ss IH]; intros us F H; cbn [map] in H; inversion H as [|a u l l' H1 H2]; subst; [now exists []|]. inversion F as [|b l F1 F2]; subst.
      destruct (IH l' F2 H2) as (qs & ->). destruct (F1 u H1) as (q & ->). now exists (q :: qs). }
    induction p as [| |t v|ss IH|ss IH] using spec_members; intros p' H; destruct p' as [| |t' x'|us|us]; try discriminate.
    - now exists Never.
    - now exists Always.
    - cbn in H. apply andb_true_iff in H as [_ H]. apply t_same_iff in H as [H _]. destruct x' as [T' w]. cbn in H. subst T'. now exists (One t' w).
    - apply teqb_any in H. apply L in H as (qs & ->); auto. now exists (AnyOf qs).
    - apply teqb_all in H. apply L in H as (qs & ->); auto. now exists (AllOf qs).
  Qed.

  Lemma class_ends T a x : at_end (carry_set (Typed T) a) x -> t_type x = T.
  Proof.
    intros (i & I & H). rewrite c_extract in I. apply in_map_iff in I as (j & <- & _). rewrite c_min, c_max in H.
    destruct (i_min j), (i_max j); cbn in H; destruct H as [H|H]; inversion H; reflexivity.
  Qed.

  Theorem any_class cs T p a x : t_answer_after h mix cs (TToVersionSet (retype_spec T p)) = Ok (TASet a) -> at_end a x -> t_type x = T.
  Proof.
    intros H E. destruct (any_to_set cs (retype_spec T p)) as (p' & Q & _ & V). destruct (equal_class T p p' Q) as (q & ->). rewrite H in V. cbn [t_answer_alone] in V.
    rewrite o_to_version_set in V. destruct (specifier_to_version_set q) as [b|e]; [|discriminate]. injection V as ->. eapply class_ends; eassumption.
  Qed.

  Theorem any_parsed_class cs y a x : t_answer_after h mix cs (TParseVersionSet y) = Ok (TASet a) -> at_end a x -> t_type x = a_type y.
  Proof.
    intros H E. destruct (parse_specifier (a_string y)) as [q|e] eqn:P.
    - destruct (any_parse_set cs y (retype_spec (a_type y) q)) as (p' & Q & _ & V); [unfold t_parse_specifier; now rewrite P|].
      destruct (equal_class (a_type y) q p' Q) as (r & ->). rewrite H in V. cbn [t_answer_alone] in V.
      rewrite o_to_version_set in V. destruct (specifier_to_version_set r) as [b|e]; [|discriminate]. injection V as ->. eapply class_ends; eassumption.
    - rewrite (any_parse_error cs y e) in H by (unfold t_parse_specifier; now rewrite P). discriminate.
  Qed.
End Any.
