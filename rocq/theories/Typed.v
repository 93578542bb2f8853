(** Versions of types other than [Version]: the [version_type] argument of
    [versions/functions.py] and [versions/parsers.py], and what comparing
    versions of different types does to matching, specifiers and sets.

    The types are [Version] and classes derived from it that override nothing.
    [evolve] keeps the class (all updates in version.py go through it or through
    [cls]), so the type is carried along unchanged; only the places where two
    versions meet are modelled anew here.  The set operations other than
    membership are in [TypedSets.v]. *)

From Coq Require Import List ZArith NArith String Bool.
From Verif Require Import Py Segments Version VersionSets Operators Specifiers Parsers Rich.
Import ListNotations.

(** The class of a version; 0 is [Version] itself. *)
Definition vtype := nat.

(** version.py:40-59 with the class of the object *)
Record typed := Typed { t_type : vtype; t_version : version }.

(** attrs [eq=True, order=True] (version.py:39): the methods give up unless
    [other.__class__ is self.__class__], and so do the reflected ones. *)
Definition t_rich (o : rop) (x y : typed) : result bool :=
  if Nat.eqb (t_type x) (t_type y) then Ok (native o (v_cmp (t_version x) (t_version y))) else unrelated o.

(** ** Matching *)

(** [against <= version < f(against)]; [f] keeps the type *)
Definition t_between (against version : typed) (upper : result Version.version) : result bool :=
  let* b := t_rich OpLe against version in
  if b : bool then let* u := upper in t_rich OpLt version (Typed (t_type against) u) else Ok false.

(** operators.py:422-445 *)
Definition t_matches_wildcard_equal (version against : typed) : result bool :=
  let* wildcard := next_wildcard_breaking (t_version against) in
  match wildcard with
  | None => Ok true
  | Some w => t_between against version (Ok w)
  end.

(** operators.py:250-466, 788-802 *)
Definition t_matches (t : op_type) (version against : typed) : result bool :=
  match t with
  | TILDE_EQUAL => t_between against version (next_tilde_equal_breaking (t_version against))
  | DOUBLE_EQUAL | EQUAL => t_rich OpEq version against
  | NOT_EQUAL => t_rich OpNe version against
  | LESS => t_rich OpLt version against
  | LESS_OR_EQUAL => t_rich OpLe version against
  | GREATER => t_rich OpGt version against
  | GREATER_OR_EQUAL => t_rich OpGe version against
  | CARET => t_between against version (next_caret_breaking (t_version against))
  | TILDE => t_between against version (next_tilde_breaking (t_version against))
  | WILDCARD_DOUBLE_EQUAL | WILDCARD_EQUAL => t_matches_wildcard_equal version against
  | WILDCARD_NOT_EQUAL => let* b := t_matches_wildcard_equal version against in Ok (negb b)
  end.

(** ** Specifiers *)

(** specifiers.py:44-180: [spec] with typed versions *)
Inductive tspec :=
| TNever
| TAlways
| TOne (t : op_type) (x : typed)
| TAnyOf (ss : list tspec)
| TAllOf (ss : list tspec).

(** specifiers.py:55-56, 69-70, 85-86, 133-134, 179-180 *)
Fixpoint t_accepts (s : tspec) (x : typed) : result bool :=
  match s with
  | TNever => Ok false
  | TAlways => Ok true
  | TOne t y => t_matches t x y
  | TAnyOf ss => any_r (fun s => t_accepts s x) ss
  | TAllOf ss => all_r (fun s => t_accepts s x) ss
  end.

(** attrs equality of versions inside other objects, which never raises *)
Definition t_same (x y : typed) : bool := Nat.eqb (t_type x) (t_type y) && v_eq (t_version x) (t_version y).

(** attrs equality of the specifier classes *)
Fixpoint tspec_eqb (s u : tspec) : bool :=
  let fix list_eqb (xs ys : list tspec) : bool :=
    match xs, ys with
    | [], [] => true
    | x :: xs', y :: ys' => tspec_eqb x y && list_eqb xs' ys'
    | _, _ => false
    end in
  match s, u with
  | TNever, TNever => true
  | TAlways, TAlways => true
  | TOne t x, TOne t' x' => op_eqb t t' && t_same x x'
  | TAnyOf xs, TAnyOf ys => list_eqb xs ys
  | TAllOf xs, TAllOf ys => list_eqb xs ys
  | _, _ => false
  end.

(** ** Sets *)

(** version_sets.py:390-397, 926-946, 1329 *)
Inductive titem :=
| TPoint (x : typed)
| TRange (min max : option typed) (include_min include_max : bool).

Inductive tset :=
| TEmpty
| TItem (i : titem)
| TUnion (items : list titem).

(** version_sets.py:423-433 *)
Definition t_lower (m : option typed) : ext typed := match m with None => NegInf | Some x => Fin x end.
Definition t_upper (m : option typed) : ext typed := match m with None => PosInf | Some x => Fin x end.

(** Comparison of versions and infinities; these answer for versions of any
    type (types.py:35-51, 76-92). *)
Definition t_bound (o : rop) (x y : ext typed) : result bool :=
  match x, y with
  | Fin a, Fin b => t_rich o a b
  | _, _ => Ok (native o (ext_cmp (fun _ _ => Eq) x y))
  end.

(** version_sets.py:399-407 *)
Definition t_range_new (min max : option typed) (imin imax : bool) : result titem :=
  if (match min with None => imin | _ => false end) then Err ValueError
  else if (match max with None => imax | _ => false end) then Err ValueError
  else let* b := t_bound OpGt (t_lower min) (t_upper max) in
       if b : bool then Err ValueError else Ok (TRange min max imin imax).

(** version_sets.py:610-626, 957-959 *)
Definition t_item_contains (i : titem) (x : typed) : result bool :=
  match i with
  | TPoint y => t_rich OpEq y x
  | TRange min max imin imax =>
      let* lower := t_bound OpLt (Fin x) (t_lower min) in
      if lower : bool then Ok false else
      let* at_min := (if imin then Ok false else t_bound OpEq (Fin x) (t_lower min)) in
      if at_min : bool then Ok false else
      let* higher := t_bound OpGt (Fin x) (t_upper max) in
      if higher : bool then Ok false else
      let* at_max := (if imax then Ok false else t_bound OpEq (Fin x) (t_upper max)) in
      if at_max : bool then Ok false else Ok true
  end.

(** version_sets.py:356-357, 1106-1107 *)
Definition t_contains (a : tset) (x : typed) : result bool :=
  match a with
  | TEmpty => Ok false
  | TItem i => t_item_contains i x
  | TUnion items => any_r (fun i => t_item_contains i x) items
  end.

(** ** Parsing with a [version_type] *)

Section Retype.
  Context (T : vtype).
  (** The same object with all versions of type [T]. *)
  Fixpoint retype_spec (s : spec) : tspec :=
    match s with
    | Never => TNever
    | Always => TAlways
    | One t v => TOne t (Typed T v)
    | AnyOf ss => TAnyOf (map retype_spec ss)
    | AllOf ss => TAllOf (map retype_spec ss)
    end.
  Definition retype_item (i : item) : titem :=
    match i with
    | Point v => TPoint (Typed T v)
    | Range min max imin imax => TRange (option_map (Typed T) min) (option_map (Typed T) max) imin imax
    end.
  Definition retype_set (a : vset) : tset :=
    match a with
    | Empty => TEmpty
    | Item i => TItem (retype_item i)
    | Union items => TUnion (map retype_item items)
    end.

  (** functions.py:28-39, 42-53, 56-67; parsers.py:130-148: [version_type] is only used
      to build the versions at the end. *)
  Definition t_parse_version (s : pstr) : result typed := rmap (Typed T) (parse_version s).
  Definition t_parse_specifier (s : pstr) : result tspec := rmap retype_spec (parse_specifier s).
  Definition t_parse_version_set (s : pstr) : result tset := rmap retype_set (parse_version_set s).
End Retype.
