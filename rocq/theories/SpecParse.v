(** What the parser of specifications returns. *)

From Coq Require Import List ZArith NArith String Bool Arith Lia.
From Verif Require Import Py Segments Version VersionSets Operators Specifiers Regex Patterns Parsers Orders Spec SetVersions OrderFacts OperatorFacts SpecifierFacts
  Grammar Clauses RegexFacts Unambiguous VersionRegex ParseFacts ParseTheorems ClauseRegex ClauseFacts SpecText.
Import ListNotations.

(** ** Clauses *)

Lemma clause_tree s t v : clause s t v -> tree v.
Proof. now intros []. Qed.

Lemma outcome_ok t v p : tree v -> outcome t v = Ok p <-> lower_case v /\ op_made t (reading v) /\ p = One t (reading v).
Proof.
  intros T. unfold outcome. destruct (lower_caseb v) eqn:L.
  - apply lower_case_iff in L as L'. pose proof (wf_valid _ (reading_wf v T L')) as V. destruct (one_new_outcome t (reading v) V) as [A B].
    unfold one_new in *. destruct (op_valid t (reading v)) eqn:O.
    + split; [intros [= <-]|intros (_ & _ & ->); auto]. split; auto. split; auto. now apply op_valid_iff.
    + split; [discriminate|]. intros (_ & M & _). now apply A in M.
  - split; [discriminate|]. intros (H & _). apply lower_case_iff in H. congruence.
Qed.

Lemma made_more t v : tree v -> lower_case v -> op_made t (reading v) <-> (t = TILDE_EQUAL -> g_more v <> []).
Proof.
  intros T L. unfold op_made. split.
  - intros [_ H] E M. apply H in E. unfold reading in E. cbn [v_release] in E. rewrite M in E. cbn in E. lia.
  - intros H. split; [now apply wf_valid, reading_wf|]. intros E. apply H in E. unfold reading. cbn [v_release]. destruct (g_more v); [congruence|]. cbn. lia.
Qed.

Lemma text_nonempty t : tree t -> text t <> [].
Proof.
  intros (_ & _ & [N _] & _) E. unfold text, public_text, release_text in E. destruct (g_first t); [congruence|]. destruct (g_v t); [discriminate|]. cbn [one app] in E.
  destruct (g_epoch t) as [e|]; cbn [spell] in E; [destruct e|]; discriminate.
Qed.

(** ** Characters of clauses *)

Definition inner (c : N) : bool := negb (((c =? 44) || (c =? 124))%N || is_space c).

Lemma inner_unbroken s : forallb inner s = true <-> unbroken s.
Proof.
  unfold unbroken. rewrite forallb_forall, Forall_forall. split; intros H c Hc; apply H in Hc; unfold inner in *.
  - rewrite negb_true_iff, !orb_false_iff, !N.eqb_neq in Hc. destruct Hc as [[A B] C]. rewrite <- white_iff. split; auto. split; auto. congruence.
  - rewrite negb_true_iff, !orb_false_iff, !N.eqb_neq. rewrite <- white_iff in Hc. destruct (is_space c); intuition congruence.
Qed.

Lemma inner_digits d : digits d -> forallb inner d = true.
Proof.
  intros [_ F]. apply forallb_forall. rewrite Forall_forall in F. intros c H. apply F in H. unfold digit in H. unfold inner, is_space.
  rewrite negb_true_iff, !orb_false_iff, !andb_false_iff, !N.leb_gt, !N.eqb_neq. lia.
Qed.

Lemma inner_letter c : letter c -> inner c = true.
Proof.
  intros (a & H & F). unfold inner, is_space. rewrite negb_true_iff, !orb_false_iff, !andb_false_iff, !N.leb_gt, !N.eqb_neq. unfold folds in F. lia.
Qed.

Lemma inner_sep c : separator c -> inner c = true.
Proof. intros [-> | [-> | ->]]; reflexivity. Qed.

Lemma inner_one o : opt separator o -> forallb inner (one o) = true.
Proof. destruct o; cbn; auto. intros H. now rewrite inner_sep. Qed.

Lemma inner_alnum w : alphanumeric w -> forallb inner w = true.
Proof.
  intros [_ F]. apply forallb_forall. rewrite Forall_forall in F. intros c H. apply F in H as [H|H]; [|now apply inner_letter].
  assert (X : forallb inner [c] = true) by (apply inner_digits; split; [discriminate|auto]). cbn in X. now apply andb_true_iff in X.
Qed.

Lemma inner_word ws w p : In ws [pre_words; post_words; dev_words] -> In p ws -> spells w p -> forallb inner w = true.
Proof.
  intros Hws Hp S. pose proof (in_all_words ws p Hws Hp) as A. destruct (words_letters p A) as [L _].
  clear - S L. induction S as [|c a w p F S IH]; auto. inversion L; subst. cbn [forallb]. rewrite IH by auto. rewrite andb_true_r. apply inner_letter. exists a. auto.
Qed.

Lemma inner_tag ws t : In ws [pre_words; post_words; dev_words] -> tag_tree ws t -> forallb inner (tag_text t) = true.
Proof.
  intros Hws (O & (p & Hp & S) & V). unfold tag_text, tag_word. rewrite !forallb_app, inner_one, (inner_word ws _ p) by auto.
  destruct (g_value t) as [[o d]|]; cbn [spell fst snd]; auto. destruct V as [V1 V2]. now rewrite forallb_app, inner_one, inner_digits.
Qed.

Lemma inner_concat {A} (f : A -> pstr) xs : Forall (fun x => forallb inner (f x) = true) xs -> forallb inner (List.concat (map f xs)) = true.
Proof. induction 1 as [|x xs H F IH]; auto. cbn [map List.concat]. now rewrite forallb_app, H, IH. Qed.

Lemma inner_tree t : tree t -> forallb inner (text t) = true.
Proof.
  intros (V & E & F & M & P & Q & G & L & _). unfold text, public_text, release_text. rewrite !forallb_app.
  repeat (apply andb_true_iff; split).
  - destruct (g_v t) as [c|]; auto. destruct V as [-> | ->]; reflexivity.
  - destruct (g_epoch t); auto. cbn [spell]. rewrite forallb_app, inner_digits; auto.
  - now apply inner_digits.
  - apply inner_concat. eapply Forall_impl; [|exact M]. intros d H. change (true && forallb inner d = true). now apply inner_digits.
  - destruct (g_pre t); auto. apply (inner_tag pre_words); cbn; auto.
  - destruct (g_post t) as [[d|u]|]; auto; cbn [spell post_text].
    + change (true && forallb inner d = true). now apply inner_digits.
    + apply (inner_tag post_words); cbn; auto.
  - destruct (g_dev t); auto. apply (inner_tag dev_words); cbn; auto.
  - destruct (g_local t) as [[a xs]|]; auto. cbn [opt fst snd] in L. destruct L as [L1 L2]. cbn [spell]. change (forallb inner (local_text (a, xs)) = true).
    unfold local_text. cbn [fst snd]. rewrite forallb_app, inner_alnum by auto. apply inner_concat. eapply Forall_impl; [|exact L2].
    intros [c w] [A B]. cbn [fst snd] in *. change (inner c && forallb inner w = true). now rewrite inner_sep, inner_alnum.
Qed.

Lemma clause_inner s t v : clause s t v -> s <> [] /\ unbroken s.
Proof.
  assert (K : forall o t, In (o, t) (equal_ops ++ public_ops ++ wild_ops) -> forallb inner o = true) by (clear; intros o t H; op_cases H).
  intros H. split.
  - destruct H as [o O T -> |o O T G -> |o c u O C W T ->].
    + intros E. apply app_eq_nil in E as [_ E]. now apply text_nonempty in E.
    + intros E. apply app_eq_nil in E as [_ E]. now apply text_nonempty in E.
    + intros E. apply app_eq_nil in E as [_ E]. apply wild_text in W as (a & _ & W & _). rewrite W in E. now destruct a.
  - apply inner_unbroken. destruct H as [o O T -> |o O T G -> |o c u O C W T ->]; rewrite forallb_app.
    + rewrite (K o t) by now apply in_equal. now apply inner_tree.
    + rewrite (K o t) by now apply in_public. now apply inner_tree.
    + rewrite (K o t) by now apply in_wild. apply inner_tree in T. apply wild_text in W as (a & W & -> & _). rewrite W, forallb_app in T.
      apply andb_true_iff in T as [T _]. rewrite forallb_app, T. destruct C as [-> | ->]; reflexivity.
Qed.

(** ** Single clauses *)

Lemma single_spec c : c <> [] -> unbroken c -> specification c [[c]].
Proof.
  intros N U. exists c, [], []. split; auto. split; [repeat constructor; auto|]. apply respaced_refl.
Qed.

Lemma single_parse c : c <> [] -> unbroken c -> parse_specifier c = parse_single c.
Proof.
  intros N U. rewrite (specification_parse c [[c]]) by now apply single_spec. unfold all_parsed. cbn [mapM]. destruct (parse_single c); reflexivity.
Qed.

(** [parse_single] inverted, without deciding whether a string is a clause. *)
Lemma none_or_match {A} (o : option A) : o = None \/ exists a, o = Some a.
Proof. destruct o; eauto. Qed.

Lemma first_parser_ok ps s p : first_parser ps s = Ok p -> exists q, In q ps /\ q s = Ok (Some p).
Proof.
  induction ps as [|q ps IH]; [discriminate|]. cbn [first_parser]. destruct (q s) as [[x|]|] eqn:E; cbn [bind]; try discriminate.
  - intros [= ->]. exists q. cbn. auto.
  - intros H. apply IH in H as (r & H & R). exists r. cbn. auto.
Qed.

Lemma first_parser_err ps s e : first_parser ps s = Err e -> (exists q, In q ps /\ q s = Err e) \/ e = ParseSpecificationError.
Proof.
  induction ps as [|q ps IH]; [cbn; intros [= <-]; auto|]. cbn [first_parser]. destruct (q s) as [[x|]|] eqn:E; cbn [bind]; try discriminate.
  - intros H. apply IH in H as [(r & H & R)|H]; auto. left. exists r. cbn. auto.
  - intros [= ->]. left. exists q. cbn. auto.
Qed.

Definition matched (s : pstr) (r : result (option spec)) : Prop :=
  r = Ok None \/ (exists t v, clause s t v /\ r = bind (outcome t v) (fun s => Ok (Some s))) \/ (capital_wild s /\ r = Err ParseVersionError).

Lemma wild_matched s : matched s (try_parse_wildcard s).
Proof.
  destruct (none_or_match (fullmatch WILDCARD_SPECIFICATION s)) as [E|(m & E)].
  { left. unfold try_parse_wildcard. now rewrite E. }
  assert (X : exists o t c v u, In (o, t) wild_ops /\ any_wildcard c /\ wild c v u /\ tree v /\ s = o ++ text u).
  { apply fullmatch_sound in E. apply D_cat_iff in E as (w1 & w2 & d1 & d2 & -> & -> & H1 & H2).
    apply D_grp_iff in H2 as (es & -> & H2). apply wild_iff in H2 as [(c & v & u & C & W & T & ->) ->].
    apply D_opt_iff in H1 as [H1|[-> ->]].
    - apply (D_operator eq_strs eq_strs_ok eq_strs_some) in H1 as [H1 _]. destruct (strs_wild_ops w1 (or_intror H1)) as [t O]. exists w1, t, c, v, u. auto.
    - exists [], WILDCARD_EQUAL, c, v, u. cbn. auto 8. }
  destruct X as (o & t & c & v & u & O & C & W & T & ->). rewrite (try_wild o t c v u) by auto.
  destruct (N.eqb_spec c 88) as [-> |X].
  - right. right. split; auto. exists o, t, v, u. auto.
  - right. left. exists t, v. split; auto. apply (clause_wild _ t v o c u); auto. unfold wildcard. destruct C as [C|[C|C]]; auto. contradiction.
Qed.

Lemma equal_matched s : matched s (try_parse_equal s).
Proof.
  destruct (none_or_match (fullmatch EQUAL_SPECIFICATION s)) as [E|(m & E)].
  { left. unfold try_parse_equal. now rewrite E. }
  assert (X : exists o t v, In (o, t) equal_ops /\ tree v /\ s = o ++ text v).
  { apply fullmatch_sound in E. apply D_cat_iff in E as (w1 & w2 & d1 & d2 & -> & -> & H1 & H2).
    apply D_grp_iff in H2 as (es & -> & H2). assert (Y : exists v, tree v /\ w2 = text v) by (apply D_version_tree; eauto). destruct Y as (v & T & ->).
    apply D_opt_iff in H1 as [H1|[-> ->]].
    - apply (D_operator eq_strs eq_strs_ok eq_strs_some) in H1 as [H1 _]. destruct (strs_equal_ops w1 (or_intror H1)) as [t O]. exists w1, t, v. auto.
    - exists [], EQUAL, v. cbn. auto 8. }
  destruct X as (o & t & v & O & T & ->). right. left. exists t, v. split; [now apply (clause_equal _ t v o)|now apply try_equal].
Qed.

Lemma public_matched l ops s : (forall o, In o ops -> In o (op_strs l)) -> (forall o t, In (o, t) l -> In o ops /\ op_of_value o = Ok t) ->
  forallb (fun o => negb (str_eqb o []) && forallb sym o) ops = true -> ops <> [] -> (forall x, In x l -> In x public_ops) ->
  matched s (try_parse_with (Cat (Grp G_OPERATOR (alts ops)) (Grp G_VERSION PUBLIC_VERSION)) s).
Proof.
  intros A B C N I. destruct (none_or_match (fullmatch (Cat (Grp G_OPERATOR (alts ops)) (Grp G_VERSION PUBLIC_VERSION)) s)) as [E|(m & E)].
  { left. unfold try_parse_with. now rewrite E. }
  assert (X : exists o t v, In (o, t) l /\ tree v /\ g_local v = None /\ s = o ++ text v).
  { apply fullmatch_sound in E. apply D_cat_iff in E as (w1 & w2 & d1 & d2 & -> & -> & H1 & H2).
    apply D_grp_iff in H2 as (es & -> & H2). assert (Y : exists v, tree v /\ g_local v = None /\ w2 = text v) by (apply D_public_tree; eauto).
    destruct Y as (v & T & G & ->). apply (D_operator ops (strs_sym ops C) N) in H1 as [H1 _].
    apply A, in_map_iff in H1 as ([o t] & <- & O). exists o, t, v. auto. }
  destruct X as (o & t & v & O & T & G & ->). right. left. exists t, v. split; [apply (clause_public _ t v o); auto|]. now apply (try_public l).
Qed.

Lemma parsers_matched s q : In q [try_parse_wildcard; try_parse_order; try_parse_equal; try_parse_caret; try_parse_tilde] -> matched s (q s).
Proof.
  cbn [In]. intros [<-|[<-|[<-|[<-|[<-|[]]]]]].
  - apply wild_matched.
  - apply (public_matched order_ops); [apply order_strs|apply order_strs|reflexivity|discriminate|]. intros x H. apply public_cases. auto.
  - apply equal_matched.
  - apply (public_matched caret_ops); [apply caret_strs|apply caret_strs|reflexivity|discriminate|]. intros x H. apply public_cases. auto.
  - apply (public_matched tilde_ops); [apply tilde_strs|apply tilde_strs|reflexivity|discriminate|]. intros x H. apply public_cases. auto.
Qed.

Lemma outcome_cases t v : outcome t v = Ok (One t (reading v)) \/ outcome t v = Err ValueError.
Proof. unfold outcome, one_new. destruct (lower_caseb v), (op_valid t (reading v)); auto. Qed.

Theorem single_ok s p : parse_single s = Ok p <-> exists x, proper_clause s x /\ p = clause_spec x.
Proof.
  split.
  - intros H. unfold parse_single in H. apply first_parser_ok in H as (q & I & H). apply (parsers_matched s) in I as [I|[(t & v & C & I)|[_ I]]]; rewrite I in H; try discriminate.
    exists (t, v). pose proof (clause_tree _ _ _ C) as T. destruct (outcome t v) as [p'|] eqn:O; [|discriminate]. cbn [bind] in H. injection H as ->.
    apply outcome_ok in O as (L & M & ->); auto. split; [|reflexivity]. split; [exact C|]. split; [exact L|]. now apply made_more.
  - intros ([t v] & (C & L & M) & ->). cbn [fst snd] in *. rewrite (single_clause s t v C). pose proof (clause_tree _ _ _ C) as T.
    apply outcome_ok; auto. split; auto. split; [now apply made_more|reflexivity].
Qed.

Theorem single_err s e : parse_single s = Err e ->
  (e = ValueError /\ exists t v, clause s t v /\ (~ lower_case v \/ (t = TILDE_EQUAL /\ g_more v = [])))
  \/ (e = ParseVersionError /\ capital_wild s)
  \/ (e = ParseSpecificationError /\ (forall t v, ~ clause s t v) /\ ~ capital_wild s).
Proof.
  intros H. pose proof H as H'. unfold parse_single in H'. apply first_parser_err in H' as [(q & I & H')| ->].
  - apply (parsers_matched s) in I as [I|[(t & v & C & I)|[K I]]]; rewrite I in H'; try discriminate.
    + left. destruct (outcome_cases t v) as [O|O]; rewrite O in H'; [discriminate|]. injection H' as <-. split; auto. exists t, v. split; auto.
      pose proof (clause_tree _ _ _ C) as T. destruct (lower_caseb v) eqn:L; [|left; rewrite <- lower_case_iff; congruence].
      apply lower_case_iff in L. right.
      assert (K : ~ op_made t (reading v)).
      { intros M. rewrite (proj2 (outcome_ok t v (One t (reading v)) T)) in O; [discriminate|auto]. }
      rewrite made_more in K by auto. destruct (g_more v) eqn:G; [|exfalso; apply K; discriminate].
      split; auto. destruct t; auto; exfalso; apply K; discriminate.
    + right. left. injection H' as <-. auto.
  - right. right. split; auto. split.
    + intros t v C. rewrite (single_clause s t v C) in H. destruct (outcome_cases t v); congruence.
    + intros C. rewrite (single_capital s C) in H. discriminate.
Qed.

(** ** Whole specifications *)

Lemma any_of_grouped ss : ss <> [] -> any_of ss = grouped AnyOf ss.
Proof. now destruct ss as [|s [|u ss]]. Qed.
Lemma all_of_grouped ss : ss <> [] -> all_of ss = grouped AllOf ss.
Proof. now destruct ss as [|s [|u ss]]. Qed.

Lemma mapM_ok_iff {A B} (f : A -> result B) xs : forall ys, mapM f xs = Ok ys <-> Forall2 (fun x y => f x = Ok y) xs ys.
Proof.
  induction xs as [|x xs IH]; intros ys; cbn [mapM].
  - split; [intros [= <-]; constructor|]. inversion 1. reflexivity.
  - destruct (f x) as [y|] eqn:E; cbn [bind].
    + destruct (mapM f xs) as [zs|] eqn:M; cbn [bind].
      * split; [intros [= <-]; constructor; [exact E|now apply IH]|]. inversion 1; subst. f_equal. f_equal; [congruence|]. apply IH in H4. congruence.
      * split; [discriminate|]. inversion 1; subst. apply IH in H4. discriminate.
    + split; [discriminate|]. inversion 1; subst. congruence.
Qed.

Lemma mapM_err {A B} (f : A -> result B) xs e : mapM f xs = Err e -> Exists (fun x => f x = Err e) xs.
Proof.
  induction xs as [|x xs IH]; [discriminate|]. cbn [mapM]. destruct (f x) as [y|] eqn:E; cbn [bind].
  - destruct (mapM f xs) eqn:M; [discriminate|]. cbn [bind]. intros [= ->]. right. auto.
  - intros [= ->]. now left.
Qed.

Lemma all_parsed_ok cs p : cs <> [] -> all_parsed cs = Ok p <-> exists xs, Forall2 proper_clause cs xs /\ p = grouped AllOf (map clause_spec xs).
Proof.
  intros N. unfold all_parsed. split.
  - destruct (mapM parse_single cs) as [ss|] eqn:M; [|discriminate]. cbn [bind]. intros [= <-]. apply mapM_ok_iff in M.
    assert (X : exists xs, Forall2 proper_clause cs xs /\ ss = map clause_spec xs).
    { clear N. induction M as [|c s cs ss H M (xs & IH & ->)]; [exists []; split; auto; constructor|]. apply single_ok in H as (x & H & ->). exists (x :: xs). split; auto; constructor; auto. }
    destruct X as (xs & F & ->). exists xs. split; auto. apply all_of_grouped. destruct F; [congruence|discriminate].
  - intros (xs & F & ->). assert (M : mapM parse_single cs = Ok (map clause_spec xs)).
    { apply mapM_ok_iff. clear N. induction F as [|c x cs xs H F IH]; constructor; auto. apply single_ok. eauto. }
    rewrite M. cbn [bind]. rewrite all_of_grouped; auto. destruct F; [congruence|discriminate].
Qed.

Lemma specification_nonempty s css : specification s css -> css <> [] /\ Forall (fun cs => cs <> []) css.
Proof.
  intros (c & cs & al & -> & _). split; [discriminate|]. constructor; [discriminate|]. apply Forall_map, Forall_forall. intros; discriminate.
Qed.

Lemma specification_ok s css p : specification s css -> parse_specifier s = Ok p <-> exists xss, Forall2 (Forall2 proper_clause) css xss /\ p = spec_of xss.
Proof.
  intros S. rewrite (specification_parse s css S). destruct (specification_nonempty s css S) as [N F]. split.
  - destruct (mapM all_parsed css) as [ss|] eqn:M; [|discriminate]. cbn [bind]. intros [= <-]. apply mapM_ok_iff in M.
    assert (X : exists xss, Forall2 (Forall2 proper_clause) css xss /\ ss = map (fun xs => grouped AllOf (map clause_spec xs)) xss).
    { clear N S. induction M as [|cs p css ss H M IH]; [exists []; split; auto; constructor|]. inversion F; subst. destruct IH as (xss & IH & ->); auto.
      apply all_parsed_ok in H as (xs & H & ->); auto. exists (xs :: xss). split; auto; constructor; auto. }
    destruct X as (xss & X & ->). exists xss. split; auto. apply any_of_grouped. destruct X; [congruence|discriminate].
  - intros (xss & X & ->). assert (M : mapM all_parsed css = Ok (map (fun xs => grouped AllOf (map clause_spec xs)) xss)).
    { apply mapM_ok_iff. clear N S. induction X as [|cs xs css xss H X IH]; constructor; inversion F; subst; auto. apply all_parsed_ok; eauto. }
    rewrite M. cbn [bind]. f_equal. apply any_of_grouped. destruct X; [congruence|discriminate].
Qed.

(** Every string splits into pieces. *)
Lemma pieces s : exists c cs, split_pipes (visible s) = c :: map snd cs /\ visible s = alternatives c cs
  /\ Forall (fun x => Forall (fun y => y <> 124%N /\ is_space y = false) x) (c :: map snd cs).
Proof.
  destruct (alternatives_split (visible s)) as (c & cs & E & A & F & Q). exists c, cs. split; auto. split; auto.
  assert (V : Forall (fun y => is_space y = false) (visible s)).
  { apply Forall_forall. intros y Hy. apply filter_In in Hy as [_ Hy]. now apply negb_true_iff. }
  apply Q in V. rewrite Forall_forall in *. intros x Hx. apply V in Hx as V'. apply F in Hx. unfold pipeless in Hx. rewrite Forall_forall in *. auto.
Qed.

Lemma parse_all_ok c p : parse_all c = Ok p -> exists d ds xs, split_on 44 c = d :: ds /\ c = conjuncts d ds
  /\ Forall2 proper_clause (d :: ds) xs /\ p = grouped AllOf (map clause_spec xs).
Proof.
  destruct (conjuncts_split c) as (d & ds & E & A & _). unfold parse_all. rewrite E. intros H. exists d, ds.
  change (all_parsed (d :: ds) = Ok p) in H. apply all_parsed_ok in H as (xs & F & ->); [|discriminate]. eauto.
Qed.

Lemma parse_any_pieces cs ps : Forall2 (fun c p => parse_all c = Ok p) cs ps ->
  exists dss : list (pstr * list pstr), exists xss, cs = map (fun d => conjuncts (fst d) (snd d)) dss
    /\ Forall2 (Forall2 proper_clause) (map (fun d => fst d :: snd d) dss) xss /\ ps = map (fun xs => grouped AllOf (map clause_spec xs)) xss.
Proof.
  induction 1 as [|c p cs ps H F (dss & xss & -> & IH & ->)]; [exists [], []; repeat split; constructor|].
  apply parse_all_ok in H as (d & ds & xs & _ & -> & H & ->). exists ((d, ds) :: dss), (xs :: xss). split; [reflexivity|]. split; [constructor; auto|reflexivity].
Qed.

Lemma proper_inner c x : proper_clause c x -> c <> [] /\ unbroken c.
Proof. intros [C _]. now apply clause_inner in C. Qed.

Lemma proper_all cs xs : Forall2 proper_clause cs xs -> Forall (fun c => c <> [] /\ unbroken c) cs.
Proof. induction 1 as [|c x cs xs H F IH]; constructor; auto. now apply proper_inner in H. Qed.

Lemma zip_alts (cs : list (bool * pstr)) dss : map snd cs = map (fun d : pstr * list pstr => conjuncts (fst d) (snd d)) dss ->
  exists al : list (bool * (pstr * list pstr)), cs = map (fun x => (fst x, conjuncts (fst (snd x)) (snd (snd x)))) al /\ map snd al = dss.
Proof.
  revert dss. induction cs as [|[b c] cs IH]; intros [|d dss] E; try discriminate; [exists []; auto|]. cbn [map snd] in E. injection E as E1 E2.
  destruct (IH dss E2) as (al & -> & <-). exists ((b, d) :: al). cbn. now rewrite E1.
Qed.

Theorem parse_some s p : parse_specifier s = Ok p -> exists css, specification s css.
Proof.
  unfold parse_specifier. rewrite clear_visible. destruct (pieces s) as (c & cs & E & A & F). unfold parse_any. rewrite E.
  destruct (mapM parse_all (c :: map snd cs)) as [ps|] eqn:M; [|discriminate]. intros _. apply mapM_ok_iff, parse_any_pieces in M as (dss & xss & D & X & _).
  destruct dss as [|[d ds] dss]; [discriminate|]. cbn [map fst snd] in D. injection D as -> D. apply zip_alts in D as (al & -> & <-).
  exists ((d :: ds) :: map (fun x => fst (snd x) :: snd (snd x)) al). exists d, ds, al. split; auto. split.
  - cbn [map fst snd] in X. rewrite map_map in X. clear - X. remember ((d :: ds) :: map (fun x : bool * (pstr * list pstr) => fst (snd x) :: snd (snd x)) al) as css.
    clear Heqcss. induction X as [|cs xs css xss H X IH]; constructor; auto. now apply proper_all in H.
  - apply respaced_visible. rewrite A. symmetry. apply visible_fixed. apply alternatives_forall; [reflexivity|].
    rewrite Forall_forall in *. intros x Hx. apply F in Hx. eapply Forall_impl; [|exact Hx]. cbn. tauto.
Qed.

Theorem parse_specifier_ok s p : parse_specifier s = Ok p <-> exists css xss, specification s css /\ Forall2 (Forall2 proper_clause) css xss /\ p = spec_of xss.
Proof.
  split.
  - intros H. assert (E : exists css, specification s css) by (eapply parse_some; eauto). destruct E as (css & S).
    rewrite (specification_ok s css p S) in H. destruct H as (xss & X & ->). eauto.
  - intros (css & xss & S & X & ->). apply (specification_ok s css); eauto.
Qed.

Theorem parse_specifier_err s e : parse_specifier s = Err e -> e = ParseSpecificationError \/ e = ParseVersionError \/ e = ValueError.
Proof.
  unfold parse_specifier, parse_any. destruct (mapM parse_all _) as [|e'] eqn:M; [discriminate|]. cbn [bind]. intros [= ->]. apply mapM_err in M.
  apply Exists_exists in M as (c & _ & M). unfold parse_all in M. destruct (mapM parse_single _) as [|e'] eqn:M'; [discriminate|]. cbn [bind] in M. injection M as ->.
  apply mapM_err, Exists_exists in M' as (d & _ & M'). apply single_err in M' as [[-> _]|[[-> _]|[-> _]]]; auto.
Qed.
