(** The sets of [GenericSets.v] with versions of several classes. *)

From Coq Require Import List ZArith NArith String Bool.
From Verif Require Import Py Segments Version VersionSets Operators Specifiers Rich Typed GenericSets.
Import ListNotations.

(** [<] and [>] of attrs (version.py:39), see [t_rich]: both answer, or both
    raise. *)
Definition t_cmp (x y : typed) : result comparison :=
  if Nat.eqb (t_type x) (t_type y) then Ok (v_cmp (t_version x) (t_version y)) else Err TypeError.

(** The sets of [Typed.v] among these. *)
Definition gen_item (i : titem) : gitem typed :=
  match i with TPoint x => GPoint x | TRange min max imin imax => GRange min max imin imax end.
Definition gen_set (a : tset) : gset typed :=
  match a with TEmpty => GEmpty | TItem i => GItem (gen_item i) | TUnion items => GUnion (map gen_item items) end.

(** version_sets.py:350-372, 534-535, 610-856, 957-996, 1022, 1106-1176 *)
Definition t_set_eqb := g_set_eqb t_same.
Definition t_includes := g_includes t_cmp t_same.
Definition t_intersects := g_intersects t_cmp t_same.
Definition t_union := g_union t_cmp t_same.
Definition t_intersection := g_intersection t_cmp t_same.
Definition t_difference := g_difference t_cmp t_same.
Definition t_symmetric_difference := g_symmetric_difference t_cmp t_same.
Definition t_complement := g_complement t_cmp t_same.

(** ** Conversion (converters.py, converters_utils.py) *)

Definition t_range (min max : option typed) (imin imax : bool) : result (gset typed) :=
  let* r := g_range_new t_cmp min max imin imax in Ok (GItem r).

(** [VersionRange(version, f(version), include_min=True)] where [f] keeps the
    class *)
Definition t_up_to (x : typed) (upper : result version) : result (gset typed) :=
  let* w := upper in t_range (Some x) (Some (Typed (t_type x) w)) true false.

(** operators.py:619-637 *)
Definition t_translate_wildcard_equal (x : typed) : result (gset typed) :=
  let* wildcard := next_wildcard_breaking (t_version x) in
  match wildcard with
  | None => t_range None None false false
  | Some w => t_up_to x (Ok w)
  end.

(** operators.py:469-661, 788-802, 929-945 *)
Definition t_translate (t : op_type) (x : typed) : result (gset typed) :=
  match t with
  | TILDE_EQUAL => t_up_to x (next_tilde_equal_breaking (t_version x))
  | DOUBLE_EQUAL | EQUAL => Ok (GItem (GPoint x))
  | NOT_EQUAL =>
      let* c := t_complement (GItem (GPoint x)) in
      match c with GUnion _ => Ok c | _ => Err InternalError end
  | LESS => t_range None (Some x) false false
  | LESS_OR_EQUAL => t_range None (Some x) false true
  | GREATER => t_range (Some x) None false false
  | GREATER_OR_EQUAL => t_range (Some x) None true false
  | CARET => t_up_to x (next_caret_breaking (t_version x))
  | TILDE => t_up_to x (next_tilde_breaking (t_version x))
  | WILDCARD_DOUBLE_EQUAL | WILDCARD_EQUAL => t_translate_wildcard_equal x
  | WILDCARD_NOT_EQUAL =>
      let* e := t_translate_wildcard_equal x in
      let* c := t_complement e in
      match c with GEmpty | GUnion _ => Ok c | _ => Err InternalError end
  end.

(** [reduce(f, map(g, xs))] *)
Section Reduce.
  Context {A B : Type} (f : B -> B -> result B) (g : A -> result B).
  Fixpoint g_reduce_from (acc : B) (xs : list A) : result B :=
    match xs with
    | [] => Ok acc
    | x :: xs' => let* y := g x in let* acc' := f acc y in g_reduce_from acc' xs'
    end.
  Definition g_reduce_map (xs : list A) : result B :=
    match xs with
    | [] => Err TypeError
    | x :: xs' => let* y := g x in g_reduce_from y xs'
    end.
End Reduce.

(** converters.py:58-84, converters_utils.py:23-28 *)
Fixpoint t_to_version_set (s : tspec) : result (gset typed) :=
  match s with
  | TOne t x => t_translate t x
  | TNever => Ok GEmpty
  | TAlways => Ok g_universal
  | TAllOf ss => g_reduce_map t_intersection t_to_version_set ss
  | TAnyOf ss => g_reduce_map t_union t_to_version_set ss
  end.

(** specifiers.py:115-123, 161-169 *)
Definition t_any_of (ss : list tspec) : tspec := match ss with [] => TNever | [s] => s | _ => TAnyOf ss end.
Definition t_all_of (ss : list tspec) : tspec := match ss with [] => TAlways | [s] => s | _ => TAllOf ss end.

(** converters_utils.py:31-36, 45-83; converters.py:108-117 *)
Definition t_item_to_specifier (i : gitem typed) : result tspec :=
  match i with
  | GPoint x => Ok (TOne DOUBLE_EQUAL x)
  | GRange min max imin imax =>
      if g_item_is_empty t_same i then Ok TNever
      else if g_item_is_universal i then Ok TAlways
      else if g_item_is_point t_same i then let* x := g_item_version t_same i in Ok (TOne DOUBLE_EQUAL x)
      else
        match min, max with
        | Some m, Some M =>
            Ok (t_all_of [TOne (if imin then GREATER_OR_EQUAL else GREATER) m; TOne (if imax then LESS_OR_EQUAL else LESS) M])
        | Some m, None => Ok (TOne (if imin then GREATER_OR_EQUAL else GREATER) m)
        | None, Some M => Ok (TOne (if imax then LESS_OR_EQUAL else LESS) M)
        | None, None => Err InternalError
        end
  end.

(** converters.py:94-124, converters_utils.py:39-42, version_sets.py:1094-1098 *)
Definition t_to_specifier (a : gset typed) : result tspec :=
  match a with
  | GEmpty => Ok TNever
  | GItem i => t_item_to_specifier i
  | GUnion items =>
      let* c := t_complement a in
      match c with
      | GItem (GPoint x) => Ok (TOne NOT_EQUAL x)
      | _ => let* ss := mapM t_item_to_specifier items in Ok (t_any_of ss)
      end
  end.

(** converters.py:41-52 *)
Definition t_simplify (s : tspec) : result tspec :=
  let* a := t_to_version_set s in t_to_specifier a.
