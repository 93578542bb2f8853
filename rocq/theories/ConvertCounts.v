(** [versions/converters.py] and the translations of [versions/operators.py] once
    more, counting comparisons as in Counts.v.  What the caches of converters.py:58, 94
    compare is not counted. *)

From Coq Require Import List ZArith Bool.
From Verif Require Import Py Version VersionSets Operators Specifiers Counts.
Import ListNotations.
Open Scope counted_scope.

(** A range made from given bounds. *)
Definition range_set_c (min max : option version) (imin imax : bool) : counted (result vset) :=
  let! r := range_new_c min max imin imax in free (Ok (Item r)).

Section Counts.
Variable w : nat -> nat.

(** operators.py:469-523: no versions are compared before the range is made. *)
Definition until_c (next_breaking : version -> result version) (v : version) : counted (result vset) :=
  let! x := free (next_breaking v) in range_set_c (Some v) (Some x) true false.

(** operators.py:526-537 *)
Definition translate_equal_c (v : version) : counted (result vset) :=
  let+ i := point_new_c v in free (Ok (Item i)).

(** operators.py:543-559 *)
Definition translate_not_equal_c (v : version) : counted (result vset) :=
  let! e := translate_equal_c v in
  let! c := complement_c w e in
  free (match c with Union _ => Ok c | _ => Err InternalError end).

(** operators.py:619-637 *)
Definition translate_wildcard_equal_c (v : version) : counted (result vset) :=
  let! wildcard := free (next_wildcard_breaking v) in
  match wildcard with
  | None => range_set_c None None false false
  | Some x => range_set_c (Some v) (Some x) true false
  end.

(** operators.py:643-661 *)
Definition translate_wildcard_not_equal_c (v : version) : counted (result vset) :=
  let! e := translate_wildcard_equal_c v in
  let! c := complement_c w e in
  free (match c with Empty | Union _ => Ok c | _ => Err InternalError end).

(** operators.py:562-616, 788-802, 929-945 *)
Definition op_translate_c (t : op_type) (v : version) : counted (result vset) :=
  match t with
  | TILDE_EQUAL => until_c next_tilde_equal_breaking v
  | DOUBLE_EQUAL => translate_equal_c v
  | NOT_EQUAL => translate_not_equal_c v
  | LESS => range_set_c None (Some v) false false
  | LESS_OR_EQUAL => range_set_c None (Some v) false true
  | GREATER => range_set_c (Some v) None false false
  | GREATER_OR_EQUAL => range_set_c (Some v) None true false
  | CARET => until_c next_caret_breaking v
  | EQUAL => translate_equal_c v
  | TILDE => until_c next_tilde_breaking v
  | WILDCARD_DOUBLE_EQUAL => translate_wildcard_equal_c v
  | WILDCARD_EQUAL => translate_wildcard_equal_c v
  | WILDCARD_NOT_EQUAL => translate_wildcard_not_equal_c v
  end.

(** [reduce(f, map(g, xs))] *)
Section Reduce.
  Context {A : Type} (f : vset -> vset -> counted (result vset)) (g : A -> counted (result vset)).
  Fixpoint reduce_from_c (acc : vset) (xs : list A) : counted (result vset) :=
    match xs with
    | [] => free (Ok acc)
    | x :: xs' =>
        let! y := g x in
        let! acc' := f acc y in
        reduce_from_c acc' xs'
    end.
  Definition reduce_map_c (xs : list A) : counted (result vset) :=
    match xs with
    | [] => free (Err TypeError)
    | x :: xs' => let! y := g x in reduce_from_c y xs'
    end.
End Reduce.

(** converters.py:58-84, converters_utils.py:23-28 *)
Fixpoint to_version_set_c (s : spec) : counted (result vset) :=
  match s with
  | One t v => op_translate_c t v
  | Never => free (Ok Empty)
  | Always => free (Ok UNIVERSAL_SET)
  | AllOf ss => reduce_map_c (intersection_c w) to_version_set_c ss
  | AnyOf ss => reduce_map_c (union_c w) to_version_set_c ss
  end.

(** converters_utils.py:45-55 *)
Definition try_range_simple_c (i : item) : counted (result (option spec)) :=
  let+ b := item_is_empty_c i in
  if b then free (Ok (Some Never))
  else if item_is_universal i then free (Ok (Some Always))
  else
    let+ b := item_is_point_c i in
    if b then let! v := item_version_c i in free (Ok (Some (pin_version v)))
    else free (Ok None).

(** converters.py:108-117 *)
Definition item_to_specifier_c (i : item) : counted (result spec) :=
  match i with
  | Point v => free (Ok (pin_version v))
  | Range min max imin imax =>
      let! o := try_range_simple_c i in
      match o with
      | Some s => free (Ok s)
      | None => free (try_range_unwrap min max imin imax)
      end
  end.

(** version_sets.py:1094-1098 *)
Definition exclude_version_c (items : list item) : counted (result (option version)) :=
  let! c := complement_c w (Union items) in
  free (Ok (match c with Item (Point v) => Some v | _ => None end)).

Fixpoint specifiers_c (items : list item) : counted (result (list spec)) :=
  match items with
  | [] => free (Ok [])
  | i :: items' =>
      let! s := item_to_specifier_c i in
      let! ss := specifiers_c items' in
      free (Ok (s :: ss))
  end.

(** converters.py:94-124, converters_utils.py:39-42 *)
Definition to_specifier_c (a : vset) : counted (result spec) :=
  match a with
  | Empty => free (Ok Never)
  | Item i => item_to_specifier_c i
  | Union items =>
      let! e := exclude_version_c items in
      match e with
      | Some v => free (Ok (unpin_version v))
      | None => let! ss := specifiers_c items in free (Ok (any_of ss))
      end
  end.

(** converters.py:41-52 *)
Definition simplify_c (s : spec) : counted (result spec) :=
  let! a := to_version_set_c s in to_specifier_c a.

End Counts.
