(** The answers of [versions/operators.py] and [versions/specifiers.py] once more,
    counting comparisons of versions as in Counts.v. *)

From Coq Require Import List ZArith Bool.
From Verif Require Import Py Version Operators Specifiers Counts.
Import ListNotations.
Open Scope counted_scope.

(** [against <= version < f(against)] (operators.py:266, 285, 304, 445): the second
    comparison is only made when the first one holds. *)
Definition between_c (against version : version) (upper : result Version.version) : counted (result bool) :=
  let+ b := once (v_le against version) in
  if b : bool then let! u := free upper in once (Ok (v_lt version u)) else free (Ok false).

(** operators.py:422-445 *)
Definition matches_wildcard_equal_c (version against : version) : counted (result bool) :=
  let! wildcard := free (next_wildcard_breaking against) in
  match wildcard with
  | None => free (Ok true)
  | Some w => between_c against version (Ok w)
  end.

(** operators.py:250-466, 788-802 *)
Definition op_matches_c (t : op_type) (version against : version) : counted (result bool) :=
  match t with
  | TILDE_EQUAL => between_c against version (next_tilde_equal_breaking against)
  | CARET => between_c against version (next_caret_breaking against)
  | TILDE => between_c against version (next_tilde_breaking against)
  | DOUBLE_EQUAL | EQUAL => once (Ok (v_eq version against))
  | NOT_EQUAL => once (Ok (v_ne version against))
  | LESS => once (Ok (v_lt version against))
  | LESS_OR_EQUAL => once (Ok (v_le version against))
  | GREATER => once (Ok (v_gt version against))
  | GREATER_OR_EQUAL => once (Ok (v_ge version against))
  | WILDCARD_DOUBLE_EQUAL | WILDCARD_EQUAL => matches_wildcard_equal_c version against
  | WILDCARD_NOT_EQUAL => let! b := matches_wildcard_equal_c version against in free (Ok (negb b))
  end.

(** [any] and [all] stop at the first member that settles them. *)
Section Quantifiers.
  Context {A : Type} (f : A -> counted (result bool)).
  Fixpoint any_rc (xs : list A) : counted (result bool) :=
    match xs with
    | [] => free (Ok false)
    | x :: xs' => let! b := f x in if b : bool then free (Ok true) else any_rc xs'
    end.
  Fixpoint all_rc (xs : list A) : counted (result bool) :=
    match xs with
    | [] => free (Ok true)
    | x :: xs' => let! b := f x in if b : bool then all_rc xs' else free (Ok false)
    end.
End Quantifiers.

(** specifiers.py:55-56, 69-70, 85-86, 133-134, 179-180 *)
Fixpoint accepts_c (s : spec) (v : version) : counted (result bool) :=
  match s with
  | Never => free (Ok false)
  | Always => free (Ok true)
  | One t w => op_matches_c t v w
  | AnyOf ss => any_rc (fun s => accepts_c s v) ss
  | AllOf ss => all_rc (fun s => accepts_c s v) ss
  end.
