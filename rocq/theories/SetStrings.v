(** Rendering of version sets (version_sets.py:374-375, 858-920, 998-1002,
    1178-1196). *)

From Coq Require Import List ZArith NArith String Bool.
From Verif Require Import Py Segments Version VersionSets Operators.
Import ListNotations.

(** constants.py:106-107 *)
Definition EMPTY_VERSION := lit "0".
Definition UNIVERSE_VERSION := lit "*".

(** version_sets.py:858-885, 916-917 (ranges), 998-999 (points).  [vs] renders
    a version and [os] an operator, [sep] joins. *)
Definition item_render (vs : version -> pstr) (os : op_type -> version -> pstr) (sep : pstr)
  (i : item) : result pstr :=
  match i with
  | Point v => Ok (vs v)
  | Range min max imin imax =>
      if item_is_empty i then Ok EMPTY_VERSION
      else if item_is_point i then let* v := item_version i in Ok (vs v)
      else if item_is_universal i then Ok UNIVERSE_VERSION
      else
        Ok (join sep
          (match min with
           | None => []
           | Some m => [os (if imin then GREATER_OR_EQUAL else GREATER) m]
           end ++
           match max with
           | None => []
           | Some m => [os (if imax then LESS_OR_EQUAL else LESS) m]
           end))
  end.

Definition item_to_string : item -> result pstr := item_render to_string op_to_string (lit ", ").

(** version_sets.py:887-914, 919-920, 1001-1002 *)
Definition item_to_short_string : item -> result pstr :=
  item_render to_short_string op_to_short_string (lit ",").

(** version_sets.py:374-375, 1178-1186 *)
Definition set_to_string (a : vset) : result pstr :=
  match a with
  | Empty => Ok EMPTY_VERSION
  | Item i => item_to_string i
  | Union items =>
      let* e := exclude_version items in
      match e with
      | Some v => Ok (op_to_string NOT_EQUAL v)
      | None => let* ss := mapM item_to_string items in Ok (join (lit " || ") ss)
      end
  end.

(** version_sets.py:1188-1196 *)
Definition set_to_short_string (a : vset) : result pstr :=
  match a with
  | Empty => Ok EMPTY_VERSION
  | Item i => item_to_short_string i
  | Union items =>
      let* e := exclude_version items in
      match e with
      | Some v => Ok (op_to_short_string NOT_EQUAL v)
      | None => let* ss := mapM item_to_short_string items in Ok (join (lit "||") ss)
      end
  end.
