(** The methods of version sets on any object of the library, also on objects
    that are neither sets nor versions. *)

From Coq Require Import List ZArith NArith String Bool.
From Verif Require Import Py Segments Version VersionSets Operators Specifiers Rich Classes Compare Dispatch.
Import ListNotations.

(** [x.is_empty()] and [x.contains(version)]: version_sets.py:344-345, 356-357,
    585-586, 610-626, 948-949, 957-959, 1100-1101, 1106-1107.  No other class has
    these methods. *)
Definition obj_is_empty (x : obj) : result bool :=
  match x with OSet b => Ok (is_empty b) | _ => Err AttributeError end.
Definition obj_contains_version (x : obj) (v : version) : result bool :=
  match x with OSet b => Ok (contains b v) | _ => Err AttributeError end.

(** version_sets.py:1040-1046: an object that is no set has no items. *)
Definition obj_extract (x : obj) : list item :=
  match x with OSet b => extract b | _ => [] end.

(** version_sets.py:386-387: what ranges do when no check succeeds *)
Definition unexpected_version_set {A} : result A := Err TypeError.

(** version_sets.py:350-351, 630-643, 963-966, 1111-1125 *)
Definition obj_includes (a : vset) (x : obj) : result bool :=
  match a with
  | Empty => obj_is_empty x
  | Item (Point v) =>
      let* e := obj_is_empty x in
      if e : bool then Ok true
      else match x with OSet (Item (Point w)) => Ok (v_eq v w) | _ => Ok false end
  | Item _ => match x with OSet b => Ok (includes a b) | _ => unexpected_version_set end
  | Union selfs => Ok (includes_loop selfs (obj_extract x))
  end.

(** version_sets.py:353-354, 645-658, 968-969, 1127-1144 *)
Definition obj_intersects (a : vset) (x : obj) : result bool :=
  match a with
  | Empty => Ok false
  | Item (Point v) => obj_contains_version x v
  | Item _ => match x with OSet b => Ok (intersects a b) | _ => unexpected_version_set end
  | Union selfs => Ok (intersects_loop selfs (obj_extract x))
  end.

(** version_sets.py:359-360, 663-709, 971-972, 1146-1166 *)
Definition obj_intersection (a : vset) (x : obj) : result obj :=
  match a with
  | Empty => Ok (OSet Empty)
  | Item (Point v) => let* c := obj_contains_version x v in Ok (OSet (if c : bool then a else Empty))
  | Item _ => match x with OSet b => rmap OSet (intersection a b) | _ => unexpected_version_set end
  | Union selfs =>
      let* items := intersection_loop selfs (obj_extract x) in
      rmap OSet (merge (map Item items))
  end.

(** version_sets.py:1048-1092: [VersionUnion.of] on any objects *)
Definition obj_of (xs : list obj) : result vset := merge (map Item (flat_map obj_extract xs)).

(** version_sets.py:362-363, 711-759, 974-990, 1168-1169 *)
Definition obj_union (a : vset) (x : obj) : result obj :=
  match a with
  | Empty => Ok x
  | Item (Point v) =>
      match x with
      | OSet b => rmap OSet (union a b)
      | _ =>
          let* c := obj_contains_version x v in
          if c : bool then Ok x else unexpected_version_set
      end
  | Item _ => match x with OSet b => rmap OSet (union a b) | _ => unexpected_version_set end
  | Union _ => rmap OSet (obj_of [OSet a; x])
  end.

(** version_sets.py:365-366, 761-831, 992-993, 1171-1173 *)
Definition obj_difference (a : vset) (x : obj) : result obj :=
  match a with
  | Empty => Ok (OSet Empty)
  | Item (Point v) => let* c := obj_contains_version x v in Ok (OSet (if c : bool then Empty else a))
  | Item _ => match x with OSet b => rmap OSet (difference a b) | _ => unexpected_version_set end
  | Union selfs =>
      let* ds := items_difference selfs (obj_extract x) in
      rmap OSet (merge (map Item ds))
  end.

(** version_sets.py:153-162, 368-369 *)
Definition obj_symmetric_difference (a : vset) (x : obj) : result obj :=
  match a with
  | Empty => Ok x
  | Item _ =>
      let* u := obj_union a x in
      let* i := obj_intersection a x in
      match u with OSet u' => obj_difference u' i | _ => Err AttributeError end
  | Union _ => Err AttributeError
  end.

(** [x o infinity] and [x o negative_infinity] for an object of the library:
    ranges and points have methods of their own ([is_version_range] is false of an
    infinity and [compare] asks it for [comparable_min]); all others give up, and
    the infinity answers (types.py:29-58, 70-99). *)
Definition obj_infinity (o : rop) (x : obj) : result bool :=
  match x with
  | OSet (Item _) => item_method_other o
  | _ => Ok (infinity_method (reflected o) false)
  end.
Definition obj_negative_infinity (o : rop) (x : obj) : result bool :=
  match x with
  | OSet (Item _) => item_method_other o
  | _ => Ok (negative_infinity_method (reflected o) false)
  end.

(** [x o comparable_min], [x o comparable_max]: version_sets.py:423-433 *)
Definition obj_min (o : rop) (x : obj) (min : option version) : result bool :=
  match min with None => obj_negative_infinity o x | Some v => obj_rich o x (OVersion v) end.
Definition obj_max (o : rop) (x : obj) (max : option version) : result bool :=
  match max with None => obj_infinity o x | Some v => obj_rich o x (OVersion v) end.

(** version_sets.py:610-626, 957-959: [item.contains(x)]; Python evaluates the
    comparisons one after the other, and the second of each pair only when the
    bound is excluded. *)
Definition obj_item_contains (i : item) (x : obj) : result bool :=
  match i with
  | Point v => obj_rich OpEq (OVersion v) x
  | Range min max imin imax =>
      let* b := obj_min OpLt x min in
      if b : bool then Ok false else
      let* b := (if imin then Ok false else obj_min OpEq x min) in
      if b : bool then Ok false else
      let* b := obj_max OpGt x max in
      if b : bool then Ok false else
      let* b := (if imax then Ok false else obj_max OpEq x max) in
      Ok (negb b)
  end.

(** version_sets.py:356-357, 1106-1107 *)
Fixpoint obj_any (items : list item) (x : obj) : result bool :=
  match items with
  | [] => Ok false
  | i :: items' => let* b := obj_item_contains i x in if b : bool then Ok true else obj_any items' x
  end.
Definition obj_contains (a : vset) (x : obj) : result bool :=
  match a with
  | Empty => Ok false
  | Item i => obj_item_contains i x
  | Union items => obj_any items x
  end.

(** [a & x], [a | x], [a - x], [a ^ x], see [Dispatch.v]; no class of the library
    defines reflected operators. *)
Definition obj_and (a : vset) (x : obj) : result obj := if has_operators a then obj_intersection a x else Err TypeError.
Definition obj_or (a : vset) (x : obj) : result obj := if has_operators a then obj_union a x else Err TypeError.
Definition obj_sub (a : vset) (x : obj) : result obj := if has_operators a then obj_difference a x else Err TypeError.
Definition obj_xor (a : vset) (x : obj) : result obj := if has_operators a then obj_symmetric_difference a x else Err TypeError.

(** converters.py:58-84: the last line when no check succeeds.  Also for the
    class [Operator], which is no [SpecifierOne]. *)
Definition obj_to_version_set (x : obj) : result vset :=
  match x with OSpec s => specifier_to_version_set s | _ => Err TypeError end.

(** converters.py:94-124 *)
Definition obj_to_specifier (x : obj) : result spec :=
  match x with OSet a => version_set_to_specifier a | _ => Err TypeError end.

(** converters.py:41-52: [simplify] on any object *)
Definition obj_simplify (x : obj) : result spec :=
  let* a := obj_to_version_set x in obj_to_specifier (OSet a).

(** ** Specifiers *)

(** [against <= x < f(against)], one comparison after the other *)
Definition obj_between (against : version) (x : obj) (upper : result version) : result bool :=
  let* b := obj_rich OpLe (OVersion against) x in
  if b : bool then let* u := upper in obj_rich OpLt x (OVersion u) else Ok false.

(** operators.py:422-445 *)
Definition obj_matches_wildcard_equal (x : obj) (against : version) : result bool :=
  let* wildcard := next_wildcard_breaking against in
  match wildcard with
  | None => Ok true
  | Some w => obj_between against x (Ok w)
  end.

(** operators.py:250-466, 788-802: [Operator(t, against).matches(x)] *)
Definition obj_matches (t : op_type) (x : obj) (against : version) : result bool :=
  match t with
  | TILDE_EQUAL => obj_between against x (next_tilde_equal_breaking against)
  | DOUBLE_EQUAL | EQUAL => obj_rich OpEq x (OVersion against)
  | NOT_EQUAL => obj_rich OpNe x (OVersion against)
  | LESS => obj_rich OpLt x (OVersion against)
  | LESS_OR_EQUAL => obj_rich OpLe x (OVersion against)
  | GREATER => obj_rich OpGt x (OVersion against)
  | GREATER_OR_EQUAL => obj_rich OpGe x (OVersion against)
  | CARET => obj_between against x (next_caret_breaking against)
  | TILDE => obj_between against x (next_tilde_breaking against)
  | WILDCARD_DOUBLE_EQUAL | WILDCARD_EQUAL => obj_matches_wildcard_equal x against
  | WILDCARD_NOT_EQUAL => let* b := obj_matches_wildcard_equal x against in Ok (negb b)
  end.

(** specifiers.py:55-56, 69-70, 85-86, 133-134, 179-180 *)
Fixpoint obj_accepts (s : spec) (x : obj) : result bool :=
  match s with
  | Never => Ok false
  | Always => Ok true
  | One t v => obj_matches t x v
  | AnyOf ss => any_r (fun s => obj_accepts s x) ss
  | AllOf ss => all_r (fun s => obj_accepts s x) ss
  end.
