(** Python's dispatch of operators and protocol methods over the kinds of
    version sets and specifications. *)

From Coq Require Import List ZArith NArith String Bool.
From Verif Require Import Py Segments Version VersionSets Operators Specifiers.
Import ListNotations.

(** version_sets.py:59, 341, 391, 927: the empty set, ranges and points inherit
    VersionSetProtocol and with it the operators; version_sets.py:1023: unions
    only inherit Specification.  Neither defines reflected operators. *)
Definition has_operators (a : vset) : bool :=
  match a with Union _ => false | _ => true end.

(** [a & b], [a | b], [a - b], [a ^ b] (version_sets.py:172-262): the method of
    the left operand, TypeError if it has none.  The in-place forms (183-193,
    206-215, 228-238, 252-262) are the same functions. *)
Definition py_and (a b : vset) : result vset :=
  if has_operators a then intersection a b else Err TypeError.
Definition py_or (a b : vset) : result vset :=
  if has_operators a then union a b else Err TypeError.
Definition py_sub (a b : vset) : result vset :=
  if has_operators a then difference a b else Err TypeError.
Definition py_xor (a b : vset) : result vset :=
  if has_operators a then symmetric_difference a b else Err TypeError.

(** [v in a] (version_sets.py:164-170); a union is not iterable either. *)
Definition py_in (v : version) (a : vset) : result bool :=
  if has_operators a then Ok (contains a v) else Err TypeError.

(** [~a]: version_sets.py:264-273 defines [__negate__], which no operator calls,
    and nothing defines [__invert__]. *)
Definition py_invert (a : vset) : result vset := Err TypeError.

(** version_sets.py:264-273, called by name *)
Definition negate (a : vset) : result vset :=
  if has_operators a then complement a else Err AttributeError.

(** version_sets.py:105-115 (for the empty set), 628, 961, 1109 (aliases of
    [contains] for ranges, points and unions) *)
Definition set_accepts (a : vset) (v : version) : result bool := Ok (contains a v).

(** specification.py:20-33: what a version can be matched against *)
Inductive specification :=
| BySpec (s : spec)
| BySet (a : vset).

Definition specification_accepts (p : specification) (v : version) : result bool :=
  match p with
  | BySpec s => accepts s v
  | BySet a => set_accepts a v
  end.

(** version.py:955-964 *)
Definition version_matches (v : version) (p : specification) : result bool :=
  specification_accepts p v.
