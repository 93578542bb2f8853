(** Specifier strings parse back once the parentheses are removed (C40). *)

From Coq Require Import List ZArith NArith String Bool Arith Lia.
From Verif Require Import Py Segments Version VersionSets Operators SetStrings Specifiers Parsers Orders Spec
  OrderFacts OperatorFacts SpecifierFacts Grammar Clauses ParseFacts ParseTheorems ClauseFacts SpecText SpecParse SpecStrings SpecFailures SpecMeaning SetTexts Compose SetNames SpecNames ParenSpec.
Import ListNotations.

Lemma bare_app a b : unparenthesised (a ++ b) = unparenthesised a ++ unparenthesised b.
Proof. apply filter_app. Qed.

Lemma bare_join sep xs : unparenthesised (join sep xs) = join (unparenthesised sep) (map unparenthesised xs).
Proof.
  induction xs as [|x [|y xs] IH]; try reflexivity. change (join sep (x :: y :: xs)) with (x ++ sep ++ join sep (y :: xs)).
  rewrite !bare_app, IH. reflexivity.
Qed.

Lemma bare_visible s : visible (unparenthesised s) = unparenthesised (visible s).
Proof.
  unfold visible, unparenthesised. induction s as [|c s IH]; [reflexivity|]. cbn [filter].
  destruct (parenthesis c) eqn:P, (is_space c) eqn:S; cbn [negb filter]; rewrite ?P, ?S; cbn [negb]; now rewrite IH.
Qed.

Lemma bare_stem s : Forall (fun c => stem c = true) s -> unparenthesised s = s.
Proof.
  induction 1 as [|c s H F IH]; [reflexivity|]. unfold unparenthesised. cbn [filter]. fold (unparenthesised s). rewrite IH.
  apply stem_iff in H as (_ & N1 & N2). replace (parenthesis c) with false; [reflexivity|]. symmetry.
  unfold parenthesis. cbn. rewrite !orb_false_iff, !N.eqb_neq. auto.
Qed.

Lemma stem_unbroken s : Forall (fun c => stem c = true) s -> unbroken s.
Proof. intros F. eapply Forall_impl; [|exact F]. intros c H. now apply stem_iff in H. Qed.

Lemma join_conjuncts c cs : join [44%N] (c :: cs) = conjuncts c cs.
Proof. revert c. induction cs as [|d cs IH]; intros c; [reflexivity|]. cbn [conjuncts]. rewrite <- IH. reflexivity. Qed.

Lemma join_alternatives c cs : join [124%N; 124%N] (c :: cs) = alternatives c (map (pair true) cs).
Proof. revert c. induction cs as [|d cs IH]; intros c; [reflexivity|]. cbn [map alternatives]. rewrite <- IH. reflexivity. Qed.

Section Words.
  Variable vs : version -> pstr.
  Hypothesis numeric_vs : forall v, wf v -> numeric (vs v).
  Hypothesis bald_vs : forall v, wf v -> Forall bald (vs v).

  Let word (x : op_type * gversion) : pstr := SpecNames.leaf vs (fst x) (reading (snd x)).

  Lemma word_stem c x : proper_clause c x -> Forall (fun c => stem c = true) (word x) /\ word x <> [].
  Proof.
    intros P. apply proper_writable in P as (W & _). split; [now apply leaf_stem|].
    destruct (leaf_head vs numeric_vs bald_vs (fst x) (reading (snd x)) W) as (y & w & E & _). unfold word. rewrite E. discriminate.
  Qed.

  Lemma bare_group mk sep (ss : list spec) : (forall us, words vs (mk us) = [40%N] ++ join sep (map (words vs) us) ++ [41%N]) -> unparenthesised sep = sep ->
    unparenthesised (words vs (grouped mk ss)) = join sep (map (fun s => unparenthesised (words vs s)) ss).
  Proof.
    intros M S. assert (E : unparenthesised (words vs (mk ss)) = join sep (map (fun s => unparenthesised (words vs s)) ss)).
    { rewrite M, !bare_app, bare_join, S, map_map. cbn [app]. apply app_nil_r. }
    destruct ss as [|s [|u ss]]; [exact E|reflexivity|exact E].
  Qed.

  Lemma bare_words css xss : Forall2 (Forall2 proper_clause) css xss ->
    unparenthesised (words vs (spec_of xss)) = join [124%N; 124%N] (map (fun xs => join [44%N] (map word xs)) xss).
  Proof.
    intros F. unfold spec_of. rewrite (bare_group AnyOf [124%N; 124%N]) by reflexivity. f_equal. rewrite map_map.
    induction F as [|cs xs css xss H F IH]; [reflexivity|]. cbn [map]. f_equal; [|exact IH].
    rewrite (bare_group AllOf [44%N]) by reflexivity. f_equal. rewrite map_map. clear - H numeric_vs bald_vs.
    induction H as [|c x cs xs P F IH]; [reflexivity|]. cbn [map]. f_equal; [|exact IH]. apply bare_stem. now apply (word_stem c x).
  Qed.

  Lemma bare_specification css xss : Forall2 (Forall2 proper_clause) css xss -> xss <> [] -> Forall (fun xs => xs <> []) xss ->
    specification (unparenthesised (words vs (spec_of xss))) (map (map word) xss).
  Proof.
    intros F N' G'. rewrite (bare_words css xss F).
    assert (U : Forall (Forall (fun c => c <> [] /\ unbroken c)) (map (map word) xss)).
    { apply Forall_map. clear - F numeric_vs bald_vs. induction F as [|cs xs css xss H F IH]; constructor; auto. apply Forall_map.
      induction H as [|c x cs xs P H IH']; constructor; auto. destruct (word_stem c x P) as [A B]. split; auto using stem_unbroken. }
    destruct xss as [|xs xss]; [congruence|]. inversion G' as [|? ? Nx G'']; subst. destruct xs as [|x xs]; [congruence|].
    exists (word x), (map word xs), (map (fun ys => (true, (hd [] (map word ys), tl (map word ys)))) xss).
    assert (E : map (fun ys => hd [] (map word ys) :: tl (map word ys)) xss = map (map word) xss).
    { apply map_ext_in. intros ys Y. rewrite Forall_forall in G''. specialize (G'' ys Y). destruct ys; [congruence|reflexivity]. }
    split; [|split; [exact U|]].
    - change (map (map word) ((x :: xs) :: xss)) with ((word x :: map word xs) :: map (map word) xss). f_equal. rewrite map_map. symmetry. exact E.
    - cbn [map]. rewrite join_alternatives, join_conjuncts, !map_map. cbn [fst snd].
      replace (map (fun ys => (true, conjuncts (hd [] (map word ys)) (tl (map word ys)))) xss) with (map (fun ys => (true, join [44%N] (map word ys))) xss); [apply respaced_refl|].
      apply map_ext_in. intros ys Y. rewrite Forall_forall in G''. specialize (G'' ys Y). destruct ys; [congruence|]. cbn [map hd tl]. now rewrite join_conjuncts.
  Qed.

  Lemma word_clause c x : proper_clause c x -> parse_specifier (word x) = Ok (clause_spec x) -> exists y, proper_clause (word x) y /\ clause_spec y = clause_spec x.
  Proof.
    intros P H. destruct (word_stem c x P) as [A B]. apply parse_specifier_ok in H as (css & xss & S & F & E).
    rewrite (specification_unique _ _ _ S (single_spec (word x) B (stem_unbroken _ A))) in F.
    inversion F as [|? ys ? ? F1 F2]; subst. inversion F2; subst. inversion F1 as [|? y ? ? P1 F3]; subst. inversion F3; subst. exists y. split; [assumption|]. symmetry. exact E.
  Qed.

  (** If the single clauses parse back, so does the whole. *)
  Lemma bare_parses css xss : Forall2 (Forall2 proper_clause) css xss -> xss <> [] -> Forall (fun xs => xs <> []) xss ->
    Forall (Forall (fun x => parse_specifier (word x) = Ok (clause_spec x))) xss ->
    parse_specifier (unparenthesised (words vs (spec_of xss))) = Ok (spec_of xss).
  Proof.
    intros F N G K. apply parse_specifier_ok.
    assert (E : exists yss, Forall2 (Forall2 proper_clause) (map (map word) xss) yss /\ map (map clause_spec) yss = map (map clause_spec) xss).
    { clear N G. induction F as [|cs xs css xss H F IH]; [exists []; split; [constructor|reflexivity]|]. inversion K as [|? ? K1 K2]; subst. destruct (IH K2) as (yss & Y1 & Y2).
      assert (E : exists ys, Forall2 proper_clause (map word xs) ys /\ map clause_spec ys = map clause_spec xs).
      { clear - H K1 numeric_vs bald_vs. induction H as [|c x cs xs P H IH]; [exists []; split; [constructor|reflexivity]|]. inversion K1 as [|? ? K2 K3]; subst. destruct (IH K3) as (ys & Y1 & Y2).
        destruct (word_clause c x P K2) as (y & Y3 & Y4). exists (y :: ys). split; [now constructor|]. cbn [map]. congruence. }
      destruct E as (ys & E1 & E2). exists (ys :: yss). split; [now constructor|]. cbn [map]. congruence. }
    destruct E as (yss & E1 & E2). exists (map (map word) xss), yss. split; [now apply (bare_specification css)|]. split; [exact E1|].
    unfold spec_of. f_equal. apply (f_equal (map (grouped AllOf))) in E2. rewrite !map_map in E2. symmetry. exact E2.
  Qed.

  Lemma bare_only css xss q : Forall2 (Forall2 proper_clause) css xss -> xss <> [] -> Forall (fun xs => xs <> []) xss ->
    parse_specifier (unparenthesised (words vs (spec_of xss))) = Ok q -> Forall (Forall (fun x => exists r, parse_specifier (word x) = Ok r)) xss.
  Proof.
    intros F N G H. pose proof (proj1 (parses_iff _ _ (bare_specification css xss F N G)) (ex_intro _ q H)) as P. rewrite Forall_map in P.
    eapply Forall_impl; [|exact P]. intros xs X. rewrite Forall_map in X. exact X.
  Qed.
End Words.

Lemma each_spec_of (P : op_type -> version -> Prop) xss : Forall (fun xs => xs <> []) xss -> xss <> [] ->
  each_op P (spec_of xss) <-> Forall (Forall (fun x => P (fst x) (reading (snd x)))) xss.
Proof.
  intros G N. assert (K : forall (mk : list spec -> spec) ss, (mk = AnyOf \/ mk = AllOf) -> ss <> [] -> each_op P (grouped mk ss) <-> Forall (each_op P) ss).
  { intros mk ss M Ns. destruct ss as [|s [|u ss]]; [congruence| |].
    - cbn [grouped]. split; [intros; now constructor|intros H; now inversion H].
    - cbn [grouped]. destruct M as [-> | ->]; [apply each_op_any|apply each_op_all]. }
  unfold spec_of. rewrite K by (auto; destruct xss; discriminate || congruence). rewrite Forall_map. split; intros H.
  - rewrite Forall_forall in *. intros xs X. specialize (H xs X). apply K in H; [|auto|specialize (G xs X); destruct xs; discriminate || congruence]. rewrite Forall_map in H. exact H.
  - rewrite Forall_forall in *. intros xs X. specialize (H xs X). apply K; [auto|specialize (G xs X); destruct xs; discriminate || congruence|]. apply Forall_map. exact H.
Qed.

Lemma long_word x : parse_specifier (SpecNames.leaf to_string (fst x) (reading (snd x))) = parse_specifier (op_to_string (fst x) (reading (snd x))).
Proof. symmetry. apply respaced_parse. exact (op_to_string_spaced _ _). Qed.

Theorem short_unparenthesised s p : parse_specifier s = Ok p -> parse_specifier (unparenthesised (spec_to_short_string p)) = Ok p.
Proof.
  intros H. apply parse_specifier_ok in H as (css & xss & S & F & ->). destruct (specification_nonempty _ _ S) as [N G]. destruct (shaped_rows _ _ F N G) as [N' G']. rewrite short_words.
  apply (bare_parses to_short_string short_numeric (fun v W => proj2 (bald_version v W)) css); auto.
  clear S N G N' G'. induction F as [|cs xs css xss H F IH]; constructor; auto. induction H as [|c x cs xs P H IH']; constructor; auto.
  apply proper_writable in P. exact (short_string_parses _ _ P).
Qed.

Theorem long_unparenthesised s p : parse_specifier s = Ok p ->
  parse_specifier (unparenthesised (spec_to_string p)) = Ok p <-> each_op (fun _ => no_candidate) p.
Proof.
  intros H. apply parse_specifier_ok in H as (css & xss & S & F & ->). destruct (specification_nonempty _ _ S) as [N G]. destruct (shaped_rows _ _ F N G) as [N' G'].
  assert (E : parse_specifier (unparenthesised (spec_to_string (spec_of xss))) = parse_specifier (unparenthesised (words to_string (spec_of xss)))).
  { apply respaced_parse, respaced_visible. rewrite !bare_visible. f_equal. apply respaced_visible, long_words. }
  rewrite E, each_spec_of by assumption. split; intros H.
  - apply (bare_only to_string long_numeric (fun v W => proj1 (bald_version v W)) css) in H; auto.
    clear - F H. induction F as [|cs xs css xss H' F IH]; constructor; inversion H as [|? ? H1 H2]; subst; auto. clear - H' H1.
    induction H' as [|c x cs xs P H' IH]; constructor; inversion H1 as [|? ? H2 H3]; subst; auto.
    intros u U C. destruct H2 as (r & R). rewrite long_word in R. apply proper_writable in P as (W & _).
    destruct (candidate_fails (fst x) (reading (snd x)) W) as (e & E); [apply candidate_iff; eauto|congruence].
  - apply (bare_parses to_string long_numeric (fun v W => proj1 (bald_version v W)) css); auto.
    clear - F H. induction F as [|cs xs css xss H' F IH]; constructor; inversion H as [|? ? H1 H2]; subst; auto. clear - H' H1.
    induction H' as [|c x cs xs P H' IH]; constructor; inversion H1 as [|? ? H2 H3]; subst; auto.
    rewrite long_word. apply proper_writable in P. apply long_string_parses; auto. destruct (candidate (reading (snd x))) eqn:C; auto.
    apply candidate_iff in C as (u & U & Q). now destruct (H2 u U).
Qed.

Theorem short_inj s t p q : parse_specifier s = Ok p -> parse_specifier t = Ok q ->
  unparenthesised (spec_to_short_string p) = unparenthesised (spec_to_short_string q) -> p = q.
Proof. intros P Q E. apply short_unparenthesised in P, Q. rewrite E in P. congruence. Qed.
