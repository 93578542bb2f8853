(** Facts about the classes of the exceptions raised. *)

From Coq Require Import List ZArith NArith String Bool Lia.
From Verif Require Import Py Segments Version VersionSets Operators Specifiers Parsers Spec Grammar Clauses ParseTheorems SpecMeaning AccessFacts
  Limits LimitFacts LimitClauses Errors.
Import ListNotations.

Lemma version_errors s e : parse_version s = Err e -> e = ParseVersionError \/ e = ValueError.
Proof. intros H. apply parse_err in H. destruct H as [[-> _]|[-> _]]; auto. Qed.

Lemma specifier_errors s e : parse_specifier s = Err e -> e = ParseSpecificationError \/ e = ParseVersionError \/ e = ValueError.
Proof. intros H. apply parse_errors in H. destruct H as [-> |[-> |[-> _]]]; auto. Qed.

Lemma tag_errors c s e : parse_tag c s = Err e -> e = ParseTagError \/ e = ValueError.
Proof.
  intros H. assert (D : {e = ParseTagError \/ e = ValueError} + {~ (e = ParseTagError \/ e = ValueError)}).
  { destruct e; auto; right; intros [X|X]; discriminate. }
  destruct D as [D|D]; auto. exfalso. destruct (parse_tag_exact c s) as [A B]. apply D. left.
  assert (E : parse_tag c s = Err ParseTagError); [|congruence]. apply B. intros w n W. apply D. right. rewrite (A w n W) in H.
  destruct (str_in w _); congruence.
Qed.

Lemma set_error_cases s e : parse_version_set s = Err e ->
  (e = ParseSpecificationError \/ e = ParseVersionError \/ e = ValueError) \/ (e = RecursionError /\ exists p, parse_specifier s = Ok p /\ ~ no_any p).
Proof.
  intros H. apply set_errors in H. destruct H as [H|(p & P & [[-> _]|[-> N]])].
  - left. now apply specifier_errors with s.
  - auto.
  - right. split; auto. exists p. auto.
Qed.

Lemma value_error b s e : parse_version s = Err e \/ parse_specifier s = Err e \/ (exists c, parse_tag c s = Err e) -> catches X_ValueError b e = true.
Proof.
  intros [H|[H|(c & H)]].
  - destruct (version_errors s e H) as [-> | ->]; reflexivity.
  - destruct (specifier_errors s e H) as [-> |[-> | ->]]; reflexivity.
  - destruct (tag_errors c s e H) as [-> | ->]; reflexivity.
Qed.

Lemma value_error_limit b k s e : parse_version_within k s = Err e \/ parse_specifier_within k s = Err e -> catches X_ValueError b e = true.
Proof.
  intros [H|H].
  - destruct (parse_within_cases k s) as [E|E]; rewrite E in H; [apply (value_error b s e); auto|injection H as <-; reflexivity].
  - destruct (specifier_within_cases k s) as [E|E]; rewrite E in H; [apply (value_error b s e); auto|injection H as <-; reflexivity].
Qed.

Lemma parse_error_version b s e : parse_version s = Err e -> catches X_ParseError b e = true <-> ~ exists t, tree t /\ text t = s.
Proof.
  intros H. apply parse_err in H. destruct H as [[-> N]|[-> (t & T & _ & E)]].
  - split; auto.
  - split; [discriminate|]. intros N. exfalso. apply N. exists t. auto.
Qed.

Lemma parse_error_specifier b s e : parse_specifier s = Err e ->
  (forall c a, In c s -> folds c a -> c = a) -> (forall c v, piece c s -> clause c TILDE_EQUAL v -> g_more v <> []) -> catches X_ParseError b e = true.
Proof.
  intros H F T. destruct (parse_fixed_errors s F T) as [(p & E)|[E|E]]; rewrite E in H; [discriminate| |]; injection H as <-; reflexivity.
Qed.

Lemma set_error b s e : parse_version_set s = Err e ->
  (catches X_ValueError b e = true /\ catches X_RuntimeError b e = false)
  \/ (catches X_ValueError b e = false /\ catches X_RuntimeError b e = true /\ e = RecursionError /\ exists p, parse_specifier s = Ok p /\ ~ no_any p).
Proof.
  intros H. destruct (set_error_cases s e H) as [[-> |[-> | ->]]|[-> P]]; [left; auto..|right; auto].
Qed.

Lemma not_internal b s e :
  parse_version s = Err e \/ parse_specifier s = Err e \/ parse_version_set s = Err e \/ (exists c, parse_tag c s = Err e) ->
  catches X_InternalError b e = false /\ catches X_DatabaseError b e = false.
Proof.
  intros [H|[H|[H|(c & H)]]].
  - destruct (version_errors s e H) as [-> | ->]; auto.
  - destruct (specifier_errors s e H) as [-> |[-> | ->]]; auto.
  - destruct (set_error_cases s e H) as [[-> |[-> | ->]]|[-> _]]; auto.
  - destruct (tag_errors c s e H) as [-> | ->]; auto.
Qed.

(** What each clause catches. *)
Theorem catches_exactly b e :
  catches X_Exception b e = true
  /\ (catches X_ValueError b e = true <-> In e [ValueError; ParseTagError; ParseVersionError; ParseSpecificationError])
  /\ (catches X_ParseError b e = true <-> In e [ParseTagError; ParseVersionError; ParseSpecificationError])
  /\ (catches X_RuntimeError b e = true <-> e = RecursionError \/ (e = InternalError /\ b = false))
  /\ (catches X_InternalError b e = true <-> e = InternalError /\ b = false)
  /\ (catches X_DatabaseError b e = true <-> e = InternalError /\ b = true)
  /\ (catches X_LookupError b e = true <-> e = IndexError)
  /\ (catches X_TypeError b e = true <-> e = TypeError)
  /\ (catches X_AttributeError b e = true <-> e = AttributeError).
Proof.
  destruct e, b; unfold catches, is_instance, raised; cbn;
    (split; [reflexivity|]); intuition congruence.
Qed.
