(** The strings of operators over candidates fail in one way. *)

From Coq Require Import List ZArith NArith String Bool Arith Lia.
From Verif Require Import Py Segments Version VersionSets Operators SetStrings Specifiers Regex Patterns Parsers Orders Spec OrderFacts OperatorFacts
  Grammar Clauses RegexFacts Unambiguous VersionRegex ParseFacts ParseTheorems ClauseRegex ClauseFacts SpecText SpecParse SpecStrings SpecFailures SpecMeaning SetNames.
Import ListNotations.

Lemma capital_after s : capital_wild s -> after_plus s.
Proof.
  assert (K : forall o t, In (o, t) wild_ops -> after_plus o) by (clear; intros o t H; apply after_plain; cbn in H; repeat (destruct H as [[= <- <-]|H]; [reflexivity|]); destruct H).
  intros (o & t & v & u & O & W & T & ->). apply after_app; [eapply K, O|]. apply tree_loose in T as [L _]. destruct (wild_plain 88%N v u W L) as (a & _ & -> & P).
  apply after_app; [now apply plain_n|]. now apply after_plain.
Qed.

Lemma rstrip_prefix p s : exists r, s = rstrip_by p s ++ r.
Proof.
  unfold rstrip_by. assert (X : exists r, rev s = r ++ drop_while p (rev s)).
  { induction (rev s) as [|c l IH]; [exists []; reflexivity|]. cbn [drop_while]. destruct (p c); [|exists []; reflexivity]. destruct IH as (r & E). exists (c :: r). cbn [app]. now rewrite <- E. }
  destruct X as (r & E). exists (rev r). rewrite <- rev_app_distr, <- E. now rewrite rev_involutive.
Qed.

Lemma tight_unbroken t v : wf v -> tight t v <> [] /\ unbroken (tight t v).
Proof.
  intros W. destruct (long_numeric v W) as [(d & r & E & D) U]. assert (O : unbroken (op_string t) /\ op_string t <> []).
  { unfold unbroken. destruct t; (split; [|discriminate]); cbn; repeat (constructor; [repeat split; try discriminate; intros H; cbn in H; intuition discriminate|]); constructor. }
  destruct O as [O N]. unfold tight. split; [intros H; apply app_eq_nil in H as [H _]; auto|]. apply Forall_app. split; auto. destruct (op_is_wildcard t); auto.
  unfold wildcard_string. destruct (rstrip_prefix is_digit (to_string v)) as (x & X). unfold unbroken in U. rewrite X in U. apply Forall_app in U as [U _]. apply Forall_app. split; auto.
  constructor; [|constructor]. repeat split; try discriminate. intros H. cbn in H. intuition discriminate.
Qed.

Lemma tight_not_after t v : wf v -> candidate v = true -> ~ after_plus (tight t v).
Proof.
  intros W C P. assert (X : exists a b, tight t v = a ++ 110%N :: b /\ forallb plain a = true).
  { destruct (candidate_text v W C) as (a & b & E & A). unfold tight. exists (op_string t ++ a). rewrite E. destruct (op_is_wildcard t).
    - unfold wildcard_string. destruct (rstrip_keeps a 110%N b eq_refl) as (r & ->). eexists. rewrite <- !app_assoc. cbn [app]. split; [reflexivity|]. now rewrite forallb_app, op_string_plain.
    - exists b. rewrite <- app_assoc. split; auto. now rewrite forallb_app, op_string_plain. }
  destruct X as (a & b & E & A). apply P in E. rewrite forallb_forall in A. now apply A in E.
Qed.

Theorem candidate_string_error t v u : wf v -> v_pre v = Some u -> phase u = lit "candidate" -> parse_specifier (op_to_string t v) = Err ParseSpecificationError.
Proof.
  intros W E P. assert (C : candidate v = true) by (apply candidate_iff; eauto).
  destruct (respaced_parse _ _ (op_to_string_spaced t v)) as [-> _]. destruct (tight_unbroken t v W) as [N U]. rewrite single_parse by auto.
  apply single_other; [intros t' v' H; apply clause_after in H|intros H; apply capital_after in H]; revert H; now apply tight_not_after.
Qed.

Theorem long_outcome s p : parse_specifier s = Ok p ->
  (parse_specifier (spec_to_string p) = Ok p <-> exists t v, p = One t v /\ forall u, v_pre v = Some u -> phase u <> lit "candidate")
  /\ (parse_specifier (spec_to_string p) = Ok p \/ parse_specifier (spec_to_string p) = Err ParseSpecificationError).
Proof.
  intros H. assert (X : (exists t v, p = One t v /\ forall u, v_pre v = Some u -> phase u <> lit "candidate") \/ parse_specifier (spec_to_string p) = Err ParseSpecificationError).
  { destruct p as [| |t v| |].
    - right. apply (compound_fails s); auto; discriminate.
    - right. apply (compound_fails s); auto; discriminate.
    - destruct (candidate v) eqn:C.
      + right. apply candidate_iff in C as (u & E & P). apply (candidate_string_error t v u); auto. apply parsed_one in H as [(c & x & K & X)|(ss & [X|X])]; [|discriminate..].
        unfold clause_spec in X. injection X as -> ->. apply proper_writable in K. apply K.
      + left. exists t, v. split; auto. intros u E P. enough (candidate v = true) by congruence. apply candidate_iff. eauto.
    - right. apply (compound_fails s); auto; discriminate.
    - right. apply (compound_fails s); auto; discriminate. }
  destruct X as [X|X]; split.
  - split; auto. intros _. destruct X as (t & v & -> & N). now apply (long_parses_back s).
  - left. destruct X as (t & v & -> & N). now apply (long_parses_back s).
  - split; [rewrite X; discriminate|]. intros (t & v & -> & N). now apply (long_parses_back s).
  - auto.
Qed.
