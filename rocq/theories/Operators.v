(** [versions/operators.py]: breaking versions, operator types, matching and
    translation to version sets. *)

From Coq Require Import List ZArith NArith String Bool.
From Verif Require Import Py Segments Version VersionSets.
Import ListNotations.
Open Scope Z_scope.

(** operators.py:82-105 *)
Definition next_caret_breaking (v : version) : result version := next_breaking v.

(** operators.py:111-145 *)
Definition next_tilde_equal_breaking (v : version) : result version :=
  let index := last_index v in
  if negb (index =? 0) then next_at (to_stable v) (index - 1) else Err ValueError.

(** operators.py:148-173 *)
Definition next_tilde_breaking (v : version) : result version :=
  if has_minor v then next_minor v else next_major v.

(** operators.py:176-232 *)
Definition next_wildcard_breaking (v : version) : result (option version) :=
  let index := last_index v in
  if is_stable v && negb (is_post_release v) then
    if index =? 0 then Ok None
    else let* w := next_at v (index - 1) in Ok (Some w)
  else let* w := next_at v index in Ok (Some w).

(** The chained comparison [against <= version < f(against)]: [f] is only
    evaluated when the first comparison holds. *)
Definition between (against version : version) (upper : result Version.version) : result bool :=
  if v_le against version then let* u := upper in Ok (v_lt version u) else Ok false.

(** operators.py:250-266 *)
Definition matches_caret (version against : version) : result bool :=
  between against version (next_caret_breaking against).

(** operators.py:269-285 *)
Definition matches_tilde_equal (version against : version) : result bool :=
  between against version (next_tilde_equal_breaking against).

(** operators.py:288-304 *)
Definition matches_tilde (version against : version) : result bool :=
  between against version (next_tilde_breaking against).

(** operators.py:307-419 *)
Definition matches_equal (version against : version) : result bool := Ok (v_eq version against).
Definition matches_not_equal (version against : version) : result bool := Ok (v_ne version against).
Definition matches_less (version against : version) : result bool := Ok (v_lt version against).
Definition matches_less_or_equal (version against : version) : result bool := Ok (v_le version against).
Definition matches_greater (version against : version) : result bool := Ok (v_gt version against).
Definition matches_greater_or_equal (version against : version) : result bool := Ok (v_ge version against).

(** operators.py:422-445 *)
Definition matches_wildcard_equal (version against : version) : result bool :=
  let* wildcard := next_wildcard_breaking against in
  match wildcard with
  | None => Ok true
  | Some w => between against version (Ok w)
  end.

(** operators.py:448-466 *)
Definition matches_wildcard_not_equal (version against : version) : result bool :=
  let* b := matches_wildcard_equal version against in Ok (negb b).

(** operators.py:469-523: [[version, breaking)] *)
Definition translate_caret (v : version) : result vset :=
  let* w := next_caret_breaking v in
  let* r := range_new (Some v) (Some w) true false in Ok (Item r).
Definition translate_tilde_equal (v : version) : result vset :=
  let* w := next_tilde_equal_breaking v in
  let* r := range_new (Some v) (Some w) true false in Ok (Item r).
Definition translate_tilde (v : version) : result vset :=
  let* w := next_tilde_breaking v in
  let* r := range_new (Some v) (Some w) true false in Ok (Item r).

(** operators.py:526-537 *)
Definition translate_equal (v : version) : result vset := Ok (Item (Point v)).

(** operators.py:543-559 *)
Definition translate_not_equal (v : version) : result vset :=
  let* e := translate_equal v in
  let* c := complement e in
  match c with Union _ => Ok c | _ => Err InternalError end.

(** operators.py:562-616 *)
Definition translate_less (v : version) : result vset :=
  let* r := range_new None (Some v) false false in Ok (Item r).
Definition translate_less_or_equal (v : version) : result vset :=
  let* r := range_new None (Some v) false true in Ok (Item r).
Definition translate_greater (v : version) : result vset :=
  let* r := range_new (Some v) None false false in Ok (Item r).
Definition translate_greater_or_equal (v : version) : result vset :=
  let* r := range_new (Some v) None true false in Ok (Item r).

(** operators.py:619-637 *)
Definition translate_wildcard_equal (v : version) : result vset :=
  let* wildcard := next_wildcard_breaking v in
  match wildcard with
  | None => let* r := range_new None None false false in Ok (Item r)
  | Some w => let* r := range_new (Some v) (Some w) true false in Ok (Item r)
  end.

(** operators.py:643-661 *)
Definition translate_wildcard_not_equal (v : version) : result vset :=
  let* e := translate_wildcard_equal v in
  let* c := complement e in
  match c with
  | Empty | Union _ => Ok c
  | _ => Err InternalError
  end.

(** operators.py:664-695 *)
Inductive op_type :=
| TILDE_EQUAL | DOUBLE_EQUAL | NOT_EQUAL | LESS | LESS_OR_EQUAL | GREATER | GREATER_OR_EQUAL
| CARET | EQUAL | TILDE
| WILDCARD_DOUBLE_EQUAL | WILDCARD_EQUAL | WILDCARD_NOT_EQUAL.

(** operators.py:668-694, constants.py:126-142 *)
Definition op_value (t : op_type) : pstr :=
  match t with
  | TILDE_EQUAL => lit "~="
  | DOUBLE_EQUAL => lit "=="
  | NOT_EQUAL => lit "!="
  | LESS => lit "<"
  | LESS_OR_EQUAL => lit "<="
  | GREATER => lit ">"
  | GREATER_OR_EQUAL => lit ">="
  | CARET => lit "^"
  | EQUAL => lit "="
  | TILDE => lit "~"
  | WILDCARD_DOUBLE_EQUAL => lit "==*"
  | WILDCARD_EQUAL => lit "=*"
  | WILDCARD_NOT_EQUAL => lit "!=*"
  end.

Definition all_ops : list op_type :=
  [TILDE_EQUAL; DOUBLE_EQUAL; NOT_EQUAL; LESS; LESS_OR_EQUAL; GREATER; GREATER_OR_EQUAL;
   CARET; EQUAL; TILDE; WILDCARD_DOUBLE_EQUAL; WILDCARD_EQUAL; WILDCARD_NOT_EQUAL].

(** [OperatorType(string)]: lookup of an enumeration member by value,
    ValueError if there is none. *)
Definition op_of_value (s : pstr) : result op_type :=
  match find (fun t => str_eqb (op_value t) s) all_ops with
  | Some t => Ok t
  | None => Err ValueError
  end.

(** The identity of an enumeration member; also what its hash depends on
    (operators.py:768-769, Enum hashes the member name). *)
Definition op_index (t : op_type) : N :=
  match t with
  | TILDE_EQUAL => 0 | DOUBLE_EQUAL => 1 | NOT_EQUAL => 2 | LESS => 3 | LESS_OR_EQUAL => 4
  | GREATER => 5 | GREATER_OR_EQUAL => 6 | CARET => 7 | EQUAL => 8 | TILDE => 9
  | WILDCARD_DOUBLE_EQUAL => 10 | WILDCARD_EQUAL => 11 | WILDCARD_NOT_EQUAL => 12
  end%N.
Definition op_is (t u : op_type) : bool := (op_index t =? op_index u)%N.

(** operators.py:736-756, 776-786 *)
Definition op_in_equals (t : op_type) : bool := op_is t DOUBLE_EQUAL || op_is t EQUAL.
Definition op_in_wildcard_equals (t : op_type) : bool :=
  op_is t WILDCARD_DOUBLE_EQUAL || op_is t WILDCARD_EQUAL.
Definition op_is_unary (t : op_type) : bool := op_is t CARET || op_is t TILDE.
Definition op_is_wildcard (t : op_type) : bool :=
  op_is t WILDCARD_DOUBLE_EQUAL || op_is t WILDCARD_EQUAL || op_is t WILDCARD_NOT_EQUAL.

(** operators.py:758-766 *)
Definition op_eqb (t u : op_type) : bool :=
  (op_in_equals t && op_in_equals u) || (op_in_wildcard_equals t && op_in_wildcard_equals u)
  || op_is t u.

(** operators.py:788-802 *)
Definition op_matches (t : op_type) : version -> version -> result bool :=
  match t with
  | TILDE_EQUAL => matches_tilde_equal
  | DOUBLE_EQUAL => matches_equal
  | NOT_EQUAL => matches_not_equal
  | LESS => matches_less
  | LESS_OR_EQUAL => matches_less_or_equal
  | GREATER => matches_greater
  | GREATER_OR_EQUAL => matches_greater_or_equal
  | CARET => matches_caret
  | EQUAL => matches_equal
  | TILDE => matches_tilde
  | WILDCARD_DOUBLE_EQUAL => matches_wildcard_equal
  | WILDCARD_EQUAL => matches_wildcard_equal
  | WILDCARD_NOT_EQUAL => matches_wildcard_not_equal
  end.

Definition op_translate (t : op_type) : version -> result vset :=
  match t with
  | TILDE_EQUAL => translate_tilde_equal
  | DOUBLE_EQUAL => translate_equal
  | NOT_EQUAL => translate_not_equal
  | LESS => translate_less
  | LESS_OR_EQUAL => translate_less_or_equal
  | GREATER => translate_greater
  | GREATER_OR_EQUAL => translate_greater_or_equal
  | CARET => translate_caret
  | EQUAL => translate_equal
  | TILDE => translate_tilde
  | WILDCARD_DOUBLE_EQUAL => translate_wildcard_equal
  | WILDCARD_EQUAL => translate_wildcard_equal
  | WILDCARD_NOT_EQUAL => translate_wildcard_not_equal
  end.

(** operators.py:805-820: the constructor of Operator *)
Definition op_valid (t : op_type) (v : version) : bool :=
  negb (op_is t TILDE_EQUAL && (last_index v =? 0)).

(** [s.rstrip(chars)], [s.strip(chars)] for one class of characters *)
Fixpoint drop_while (p : N -> bool) (s : pstr) : pstr :=
  match s with
  | c :: s' => if p c then drop_while p s' else s
  | [] => []
  end.
Definition rstrip_by (p : N -> bool) (s : pstr) : pstr := rev (drop_while p (rev s)).
Definition strip_by (p : N -> bool) (s : pstr) : pstr := rstrip_by p (drop_while p s).

(** operators.py:235-236 *)
Definition wildcard_string (s : pstr) : pstr := rstrip_by is_digit s ++ lit "*".

(** operators.py:239-240, 771-773 *)
Definition op_string (t : op_type) : pstr := strip_by (fun c => (c =? 42)%N) (op_value t).

(** operators.py:954-968 *)
Definition op_to_string (t : op_type) (v : version) : pstr :=
  let s := to_string v in
  let s := if op_is_wildcard t then wildcard_string s else s in
  if op_is_unary t then op_string t ++ s else op_string t ++ lit " " ++ s.

(** operators.py:970-982 *)
Definition op_to_short_string (t : op_type) (v : version) : pstr :=
  let s := to_short_string v in
  let s := if op_is_wildcard t then wildcard_string s else s in
  op_string t ++ s.
