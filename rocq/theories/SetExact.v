(** Exactly which version sets have strings that parse back. *)

From Coq Require Import List ZArith NArith String Bool Arith Lia.
From Verif Require Import Py Segments Version VersionSets Operators SetStrings Specifiers Regex Patterns Parsers Orders Spec Cuts SetItems SetOps SetVersions SetAlgebra
  SetTheorems OrderFacts OperatorFacts SpecifierFacts Provenance
  Grammar Clauses RegexFacts Unambiguous VersionRegex ParseFacts ParseTheorems ClauseRegex ClauseFacts SpecText SpecParse SpecStrings SpecFailures SpecMeaning SetTexts MetaFacts Compose SetNames.
Import ListNotations.
Local Opaque key.

Lemma rows_specification css : css <> [] -> Forall (fun row => row <> [] /\ Forall Compose.inner row) css ->
  specification (join [124%N; 124%N] (map (join [44%N]) css)) css.
Proof.
  intros N F. destruct css as [|[|c cs] css]; [congruence|inversion F as [|? ? [H _] _]; congruence|]. inversion F as [|? ? [_ F1] F']; subst.
  exists c, cs, (map (fun cs => (true, (hd [] cs, tl cs))) css). split; [|split].
  - f_equal. rewrite map_map. cbn [fst snd]. clear - F'. induction F' as [|x css [N _] F IH]; auto. cbn [map]. rewrite <- IH. destruct x; [congruence|reflexivity].
  - eapply Forall_impl; [|exact F]. intros row [_ H]. exact H.
  - cbn [map]. rewrite join_alternatives, join_conjuncts, !map_map. cbn [fst snd].
    assert (E : map (fun x => (true, join [44%N] x)) css = map (fun x => (true, conjuncts (hd [] x) (tl x))) css).
    { apply map_ext_in. intros x X. rewrite Forall_forall in F'. apply F' in X as [X _]. destruct x; [now destruct X|]. now rewrite join_conjuncts. }
    rewrite E. apply respaced_refl.
Qed.

Section Exact.
  Variables (good : version -> Prop) (vs : version -> pstr) (os : op_type -> version -> pstr).
  Hypothesis vs_numeric : forall v, wf v -> numeric (vs v).
  Hypothesis os_lo : forall b v, os (lo_op b) v = (if b then [62%N; 61%N] else [62%N]) ++ vs v.
  Hypothesis os_hi : forall b v, os (hi_op b) v = (if b then [60%N; 61%N] else [60%N]) ++ vs v.
  Hypothesis os_ne : forall v, os NOT_EQUAL v = [33%N; 61%N] ++ vs v.
  Hypothesis vs_clause : forall v x, wf v -> proper_clause (vs v) x -> good v.
  Hypothesis ne_clause : forall v x, wf v -> proper_clause (os NOT_EQUAL v) x -> good v.
  Hypothesis lo_clause : forall b v x, wf v -> proper_clause (os (lo_op b) v) x -> good v /\ v_local v = None.
  Hypothesis hi_clause : forall b v x, wf v -> proper_clause (os (hi_op b) v) x -> good v /\ v_local v = None.
  Hypothesis good_eq : forall v w, wf v -> wf w -> v_eq v w = true -> good v -> good w.

  Lemma texts_proper a s p : canonical a -> Forall wf (bounds a) -> set_render vs os a = Ok s -> parse_specifier s = Ok p ->
    exists xss, Forall2 (Forall2 proper_clause) (set_texts vs os a) xss.
  Proof.
    intros C F R P. rewrite (render_texts vs os a C) in R. injection R as <-. destruct (texts_inner vs os vs_numeric os_lo os_hi os_ne a C F) as [I N].
    pose proof (rows_specification _ N I) as S. apply parse_specifier_ok in P as (css & xss & S' & G & _). rewrite (specification_unique _ _ _ S S'). eauto.
  Qed.

  Lemma item_fine i xs : Forall wf (item_bounds i) -> Forall2 proper_clause (item_texts vs os i) xs ->
    Forall good (item_bounds i) /\ match i with Point _ => True | Range _ _ _ _ => Forall (fun v => v_local v = None) (item_bounds i) end.
  Proof.
    intros F G. destruct i as [v|[m|] [M|] b c]; cbn [item_texts some_text app item_bounds] in *;
      repeat match goal with H : Forall _ (_ :: _) |- _ => inversion H; clear H; subst end;
      repeat match goal with H : Forall2 _ (_ :: _) _ |- _ => inversion H; clear H; subst end;
      repeat match goal with H : proper_clause (os (lo_op _) _) _ |- _ => apply lo_clause in H as [? ?]; [|assumption] end;
      repeat match goal with H : proper_clause (os (hi_op _) _) _ |- _ => apply hi_clause in H as [? ?]; [|assumption] end;
      repeat match goal with H : proper_clause (vs _) _ |- _ => apply vs_clause in H; [|assumption] end;
      (split; [|try exact I]); repeat (apply Forall_cons; [assumption|]); apply Forall_nil.
  Qed.

  Lemma items_fine items xss : Forall wf (flat_map item_bounds items) -> Forall2 (Forall2 proper_clause) (map (item_texts vs os) items) xss ->
    Forall good (flat_map item_bounds items)
    /\ Forall (fun i => match i with Point _ => True | Range _ _ _ _ => Forall (fun v => v_local v = None) (item_bounds i) end) items.
  Proof.
    revert xss. induction items as [|i items IH]; intros xss F G; [split; constructor|]. cbn [map flat_map] in *. apply Forall_app in F as [F1 F2].
    inversion G as [|? xs ? xss' G1 G2]; subst. destruct (item_fine i xs F1 G1) as [A B], (IH xss' F2 G2) as [C D]. split; [now apply Forall_app|now constructor].
  Qed.

  Theorem parsed_readable a s p : canonical a -> a <> Empty -> Forall wf (bounds a) -> set_render vs os a = Ok s -> parse_specifier s = Ok p ->
    readable (fun v => wf v /\ good v) a.
  Proof.
    intros C N F R P. destruct (texts_proper a s p C F R P) as (xss & G). assert (K : Forall good (bounds a) -> Forall (fun v => wf v /\ good v) (bounds a)).
    { intros H. rewrite Forall_forall in *. auto. }
    rewrite bounds_extract in *. destruct a as [|i|items]; [congruence| |]; cbn [set_texts extract] in *.
    - destruct (items_fine [i] xss F) as [A B]; [exact G|]. split; auto. split; auto. rewrite bounds_extract. cbn [extract]. auto.
    - destruct (excludes_total items C) as (r & X & U). rewrite X in G. destruct r as [u|].
      + destruct (U u eq_refl) as [I _]. inversion G as [|? xs ? ? G1 _]; subst. inversion G1 as [|? x ? ? G2 _]; subst.
        assert (Wu : wf u) by (rewrite Forall_forall in F; auto). apply ne_clause in G2; [|exact Wu].
        pose proof (excluded_hole items u C X) as H. split; auto. split; auto. split; [|now left]. rewrite bounds_extract. cbn [extract]. apply K.
        destruct H as (v & w & E & Q). injection E as ->. cbn [flat_map item_bounds app In] in *. inversion F as [|? ? Wv F']; subst. inversion F' as [|? ? Ww _]; subst.
        assert (Q' : v_eq w v = true) by now rewrite v_eq_sym. assert (Gv : good v /\ good w) by (destruct I as [<-|[<-|[]]]; split; auto; [now apply (good_eq v)|now apply (good_eq w)]).
        constructor; [tauto|]. constructor; [tauto|constructor].
      + destruct (items_fine items xss F G) as [A B]. split; [exact C|]. split; [exact N|]. split; [exact (K A)|now right].
  Qed.
End Exact.

(** ** Single clauses *)

Lemma order_clause o t v x : In (o, t) public_ops -> stops sym v -> clause (o ++ v) (fst x) (snd x) -> exists g, tree g /\ g_local g = None /\ v = text g.
Proof.
  intros O V C. destruct x as [t' g]. cbn [fst snd] in C. destruct C as [o' O' T E|o' O' T L E|o' c u O' Cw W T E].
  - apply (strs_neq o t _ o' t') in E as [-> _]; auto using in_public, in_equal, tree_head. exfalso. cbn [public_ops equal_ops In] in O, O'.
    repeat (destruct O as [O|O]; [injection O as <- <-; repeat (destruct O' as [O'|O']; [discriminate O'|]); destruct O'|]). destruct O.
  - apply (strs_neq o t _ o' t') in E as [_ ->]; auto using in_public, tree_head. eauto.
  - apply (strs_neq o t _ o' t') in E as [-> _]; auto using in_public, in_wild.
    + exfalso. cbn [public_ops wild_ops In] in O, O'. repeat (destruct O as [O|O]; [injection O as <- <-; repeat (destruct O' as [O'|O']; [discriminate O'|]); destruct O'|]). destruct O.
    + apply (wild_tree_head c g); auto. destruct Cw; [now left|right; now left].
Qed.

Lemma numeric_head s : numeric s -> stops sym s.
Proof. intros [(d & r & -> & D) _]. cbn [stops]. now apply digit_sym. Qed.

Lemma lo_public (b : bool) v (vs : version -> pstr) : exists (o : pstr) (t : op_type), (if b then [62%N; 61%N] else [62%N]) ++ vs v = o ++ vs v /\ In (o, t) public_ops.
Proof. destruct b; [exists (lit ">="), GREATER_OR_EQUAL|exists (lit ">"), GREATER]; (split; [reflexivity|cbn; tauto]). Qed.
Lemma hi_public (b : bool) v (vs : version -> pstr) : exists (o : pstr) (t : op_type), (if b then [60%N; 61%N] else [60%N]) ++ vs v = o ++ vs v /\ In (o, t) public_ops.
Proof. destruct b; [exists (lit "<="), LESS_OR_EQUAL|exists (lit "<"), LESS]; (split; [reflexivity|cbn; tauto]). Qed.

Lemma short_public o t v x : wf v -> In (o, t) public_ops -> proper_clause (o ++ to_short_string v) x -> v_local v = None.
Proof.
  intros W O (C & _). apply (order_clause o t) in C as (g & T & L & E); auto using numeric_head, short_numeric.
  destruct (short_tree_ok v W) as (T' & _ & E' & R). rewrite <- E' in E. apply text_unique in E; auto. rewrite <- R, E. now apply reading_local.
Qed.

Lemma candidate_clause o v x : wf v -> forallb plain o = true -> visible o = o -> proper_clause (o ++ to_string v) x -> candidate v = false.
Proof.
  intros W O V C. destruct (candidate v) eqn:E; auto. exfalso. apply proper_parse in C. apply parsed_after in C.
  destruct (candidate_text v W E) as (a & b & E' & A). rewrite E', app_assoc in C. rewrite visible_app in C. unfold visible at 2 in C. cbn [filter] in C.
  change (negb (is_space 110)) with true in C. cbn match in C. specialize (C _ _ eq_refl). unfold visible in C. apply filter_In in C as [C _].
  apply in_app_iff in C. rewrite forallb_forall in A, O. destruct C as [C|C]; [now apply O in C|now apply A in C].
Qed.

Lemma long_public o t v x : wf v -> In (o, t) public_ops -> proper_clause (o ++ to_string v) x -> candidate v = false /\ v_local v = None.
Proof.
  intros W O C. assert (K : candidate v = false).
  { apply (candidate_clause o v x); auto; cbn [public_ops In] in O; repeat (destruct O as [O|O]; [injection O as <- <-; reflexivity|]); destruct O. }
  split; [exact K|]. destruct C as (C & _). apply (order_clause o t) in C as (g & T & L & E); auto using numeric_head, long_numeric.
  destruct (long_tree_ok v W K) as (T' & _ & E' & R). rewrite <- E' in E. apply text_unique in E; auto. rewrite <- R, E. now apply reading_local.
Qed.

(** ** Both strings *)

Lemma empty_zero : set_to_short_string Empty = Ok (lit "0") /\ set_to_string Empty = Ok (lit "0").
Proof. split; reflexivity. Qed.

Lemma zero_parses b : parse_version_set (lit "0") = Ok b -> set_eqb b Empty = false.
Proof. assert (E : parse_version_set (lit "0") = Ok (Item (Point (bare 0 [0%Z])))) by (vm_compute; reflexivity). rewrite E. now intros [= <-]. Qed.

Theorem short_exactly a : canonical a -> Forall wf (bounds a) ->
  (exists s b, set_to_short_string a = Ok s /\ parse_version_set s = Ok b /\ set_eqb b a = true) <-> readable wf a.
Proof.
  intros C F. split; [|apply set_short_parses]. intros (s & b & S & P & E). assert (N : a <> Empty).
  { intros ->. rewrite (proj1 empty_zero) in S. injection S as <-. apply zero_parses in P. congruence. }
  unfold parse_version_set in P. destruct (parse_specifier s) as [p|] eqn:Q; [|discriminate]. rewrite short_render in S. destruct short_ops as (L & H & O).
  assert (R : readable (fun v => wf v /\ True) a).
  { apply (parsed_readable (fun _ => True) to_short_string op_to_short_string short_numeric L H O) with (s := s) (p := p); auto.
    - intros c v x W X. split; auto. rewrite L in X. destruct (lo_public c v to_short_string) as (o & t & Y & Z). rewrite Y in X. eapply short_public; eauto.
    - intros c v x W X. split; auto. rewrite H in X. destruct (hi_public c v to_short_string) as (o & t & Y & Z). rewrite Y in X. eapply short_public; eauto. }
  destruct R as (_ & _ & _ & R). split; auto.
Qed.

Theorem long_exactly a : canonical a -> Forall wf (bounds a) ->
  (exists s b, set_to_string a = Ok s /\ parse_version_set s = Ok b /\ set_eqb b a = true) <-> readable printable a.
Proof.
  intros C F. split; [|apply set_long_parses]. intros (s & b & S & P & E). assert (N : a <> Empty).
  { intros ->. rewrite (proj2 empty_zero) in S. injection S as <-. apply zero_parses in P. congruence. }
  pose proof (set_spaced a) as X. rewrite S in X. destruct (set_render to_string tight a) as [u|] eqn:U; [|contradiction].
  assert (P' : parse_version_set u = Ok b) by (destruct (respaced_parse _ _ X) as [_ <-]; exact P).
  unfold parse_version_set in P'. destruct (parse_specifier u) as [p|] eqn:Q; [|discriminate]. destruct tight_ops as (L & H & O).
  assert (R : readable (fun v => wf v /\ candidate v = false) a).
  { apply (parsed_readable (fun v => candidate v = false) to_string tight long_numeric L H O) with (s := u) (p := p); auto.
    - intros v x W Y. now apply (candidate_clause [] v x).
    - intros v x W Y. rewrite O in Y. now apply (candidate_clause [33%N; 61%N] v x).
    - intros c v x W Y. rewrite L in Y. destruct (lo_public c v to_string) as (o & t & Z & Z'). rewrite Z in Y. eapply long_public; eauto.
    - intros c v x W Y. rewrite H in Y. destruct (hi_public c v to_string) as (o & t & Z & Z'). rewrite Z in Y. eapply long_public; eauto.
    - intros v w Wv Ww Q' K. apply eq_same in Q' as (_ & _ & Q' & _); auto using wf_valid. unfold candidate in *. now rewrite <- Q'. }
  destruct R as (_ & _ & R1 & R2). split; auto. split; auto. split; auto. eapply Forall_impl; [|exact R1]. intros v [W K]. split; auto. intros t T G.
  assert (candidate v = true) by (apply candidate_iff; eauto). congruence.
Qed.
