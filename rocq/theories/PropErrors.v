(** Theorems about the classes of the exceptions raised: C92. *)

From Coq Require Import List ZArith NArith String Bool Lia.
From Verif Require Import Py Segments Version VersionSets Operators Specifiers Parsers Spec Grammar Clauses ParseTheorems Limits Errors ErrorFacts.
Import ListNotations.

(** ** C92 Catching failures *)

(** Whatever the string, [except ValueError] catches the failure. *)
Theorem C92_value_error b s e : parse_version s = Err e \/ parse_specifier s = Err e \/ (exists c, parse_tag c s = Err e) -> catches X_ValueError b e = true.
Proof. exact (value_error b s e). Qed.
Print Assumptions C92_value_error.

Theorem C92_digit_limit b k s e : parse_version_within k s = Err e \/ parse_specifier_within k s = Err e -> catches X_ValueError b e = true.
Proof. exact (value_error_limit b k s e). Qed.
Print Assumptions C92_digit_limit.

(** [except ParseError] only catches strings that do not match. *)
Theorem C92_parse_error b s e : parse_version s = Err e -> catches X_ParseError b e = true <-> ~ exists t, tree t /\ text t = s.
Proof. exact (parse_error_version b s e). Qed.
Print Assumptions C92_parse_error.

Theorem C92_specifier_parse_error b s e : parse_specifier s = Err e ->
  (forall c a, In c s -> folds c a -> c = a) -> (forall c v, piece c s -> clause c TILDE_EQUAL v -> g_more v <> []) -> catches X_ParseError b e = true.
Proof. exact (parse_error_specifier b s e). Qed.
Print Assumptions C92_specifier_parse_error.

(** Sets: a ValueError, or a RecursionError of a specification that was read,
    has alternatives and is a RuntimeError. *)
Theorem C92_sets b s e : parse_version_set s = Err e ->
  (catches X_ValueError b e = true /\ catches X_RuntimeError b e = false)
  \/ (catches X_ValueError b e = false /\ catches X_RuntimeError b e = true /\ e = RecursionError /\ exists p, parse_specifier s = Ok p /\ ~ no_any p).
Proof. exact (set_error b s e). Qed.
Print Assumptions C92_sets.

(** No failure is an InternalError, of either module. *)
Theorem C92_not_internal b s e :
  parse_version s = Err e \/ parse_specifier s = Err e \/ parse_version_set s = Err e \/ (exists c, parse_tag c s = Err e) ->
  catches X_InternalError b e = false /\ catches X_DatabaseError b e = false.
Proof. exact (not_internal b s e). Qed.
Print Assumptions C92_not_internal.

(** What each [except] clause catches. *)
Theorem C92_clauses b e :
  catches X_Exception b e = true
  /\ (catches X_ValueError b e = true <-> In e [ValueError; ParseTagError; ParseVersionError; ParseSpecificationError])
  /\ (catches X_ParseError b e = true <-> In e [ParseTagError; ParseVersionError; ParseSpecificationError])
  /\ (catches X_RuntimeError b e = true <-> e = RecursionError \/ (e = InternalError /\ b = false))
  /\ (catches X_InternalError b e = true <-> e = InternalError /\ b = false)
  /\ (catches X_DatabaseError b e = true <-> e = InternalError /\ b = true)
  /\ (catches X_LookupError b e = true <-> e = IndexError)
  /\ (catches X_TypeError b e = true <-> e = TypeError)
  /\ (catches X_AttributeError b e = true <-> e = AttributeError).
Proof. exact (catches_exactly b e). Qed.
Print Assumptions C92_clauses.

Example C92_case : parse_version (lit "1.0RC1") = Err ValueError /\ parse_version (lit "x") = Err ParseVersionError
  /\ parse_version_set (lit "1||>1") = Err RecursionError /\ catches X_ParseError true ValueError = false /\ catches X_ParseError true ParseVersionError = true
  /\ catches X_InternalError true InternalError = false /\ catches X_InternalError false InternalError = true.
Proof. now vm_compute. Qed.
