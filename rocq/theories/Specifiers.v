(** [versions/specifiers.py], [versions/converters.py] and
    [versions/converters_utils.py] (without the caches, see [Caches.v]). *)

From Coq Require Import List ZArith NArith String Bool.
From Verif Require Import Py Segments Version VersionSets Operators SetStrings.
Import ListNotations.

(** specifiers.py:44-190 *)
Inductive spec :=
| Never
| Always
| One (t : op_type) (v : version)
| AnyOf (ss : list spec)
| AllOf (ss : list spec).

(** specifiers.py:79-86 with Operator's validation (operators.py:815-820) *)
Definition one_new (t : op_type) (v : version) : result spec :=
  if op_valid t v then Ok (One t v) else Err ValueError.

(** specifiers.py:115-123 *)
Definition any_of (ss : list spec) : spec :=
  match ss with [] => Never | [s] => s | _ => AnyOf ss end.

(** specifiers.py:161-169 *)
Definition all_of (ss : list spec) : spec :=
  match ss with [] => Always | [s] => s | _ => AllOf ss end.

(** [any(f(x) for x in xs)] and [all(f(x) for x in xs)] where [f] may raise *)
Section Quantifiers.
  Context {A : Type} (f : A -> result bool).
  Fixpoint any_r (xs : list A) : result bool :=
    match xs with
    | [] => Ok false
    | x :: xs' => let* b := f x in if b : bool then Ok true else any_r xs'
    end.
  Fixpoint all_r (xs : list A) : result bool :=
    match xs with
    | [] => Ok true
    | x :: xs' => let* b := f x in if b : bool then all_r xs' else Ok false
    end.
End Quantifiers.

(** specifiers.py:55-56, 69-70, 85-86, 133-134, 179-180 *)
Fixpoint accepts (s : spec) (v : version) : result bool :=
  match s with
  | Never => Ok false
  | Always => Ok true
  | One t w => op_matches t v w
  | AnyOf ss => any_r (fun s => accepts s v) ss
  | AllOf ss => all_r (fun s => accepts s v) ss
  end.

(** attrs equality of the specifier classes *)
Fixpoint spec_eqb (s u : spec) : bool :=
  let fix list_eqb (xs ys : list spec) : bool :=
    match xs, ys with
    | [], [] => true
    | x :: xs', y :: ys' => spec_eqb x y && list_eqb xs' ys'
    | _, _ => false
    end in
  match s, u with
  | Never, Never => true
  | Always, Always => true
  | One t v, One t' v' => op_eqb t t' && v_eq v v'
  | AnyOf xs, AnyOf ys => list_eqb xs ys
  | AllOf xs, AllOf ys => list_eqb xs ys
  | _, _ => false
  end.

(** string.py:129-136, constants.py:156 *)
Definition wrap (s : pstr) : pstr := lit "(" ++ s ++ lit ")".

(** specifiers.py:58-59, 72-73, 136-139, 182-185 *)
Fixpoint spec_to_string (s : spec) : pstr :=
  match s with
  | Never => EMPTY_VERSION
  | Always => UNIVERSE_VERSION
  | One t v => op_to_string t v
  | AnyOf ss => wrap (join (lit " || ") (map spec_to_string ss))
  | AllOf ss => wrap (join (lit ", ") (map spec_to_string ss))
  end.

(** specifiers.py:141-144, 187-190 *)
Fixpoint spec_to_short_string (s : spec) : pstr :=
  match s with
  | Never => EMPTY_VERSION
  | Always => UNIVERSE_VERSION
  | One t v => op_to_short_string t v
  | AnyOf ss => wrap (join (lit "||") (map spec_to_short_string ss))
  | AllOf ss => wrap (join (lit ",") (map spec_to_short_string ss))
  end.

(** [reduce(f, map(g, xs))]: elements are produced and folded one by one;
    TypeError on an empty sequence. *)
Section Reduce.
  Context {A : Type} (f : vset -> vset -> result vset) (g : A -> result vset).
  Fixpoint reduce_from (acc : vset) (xs : list A) : result vset :=
    match xs with
    | [] => Ok acc
    | x :: xs' =>
        let* y := g x in
        let* acc' := f acc y in
        reduce_from acc' xs'
    end.
  Definition reduce_map (xs : list A) : result vset :=
    match xs with
    | [] => Err TypeError
    | x :: xs' => let* y := g x in reduce_from y xs'
    end.
End Reduce.

(** converters.py:58-84, converters_utils.py:23-28 *)
Fixpoint specifier_to_version_set (s : spec) : result vset :=
  match s with
  | One t v => op_translate t v
  | Never => Ok Empty
  | Always => Ok UNIVERSAL_SET
  | AllOf ss => reduce_map intersection specifier_to_version_set ss
  | AnyOf ss => reduce_map union specifier_to_version_set ss
  end.

(** converters_utils.py:31-36 *)
Definition pin_version (v : version) : spec := One DOUBLE_EQUAL v.
Definition unpin_version (v : version) : spec := One NOT_EQUAL v.

(** converters_utils.py:45-55 *)
Definition try_range_simple (i : item) : result (option spec) :=
  if item_is_empty i then Ok (Some Never)
  else if item_is_universal i then Ok (Some Always)
  else if item_is_point i then let* v := item_version i in Ok (Some (pin_version v))
  else Ok None.

(** converters_utils.py:61-83 *)
Definition try_range_unwrap (min max : option version) (imin imax : bool) : result spec :=
  let lo := match min with
            | None => None
            | Some m => Some (One (if imin then GREATER_OR_EQUAL else GREATER) m)
            end in
  let hi := match max with
            | None => None
            | Some m => Some (One (if imax then LESS_OR_EQUAL else LESS) m)
            end in
  match lo, hi with
  | Some a, Some b => Ok (all_of [a; b])
  | Some a, None => Ok a
  | None, Some b => Ok b
  | None, None => Err InternalError
  end.

(** converters.py:108-117 *)
Definition item_to_specifier (i : item) : result spec :=
  match i with
  | Point v => Ok (pin_version v)
  | Range min max imin imax =>
      let* o := try_range_simple i in
      match o with
      | Some s => Ok s
      | None => try_range_unwrap min max imin imax
      end
  end.

(** converters.py:94-124, converters_utils.py:39-42 *)
Definition version_set_to_specifier (a : vset) : result spec :=
  match a with
  | Empty => Ok Never
  | Item i => item_to_specifier i
  | Union items =>
      let* e := exclude_version items in
      match e with
      | Some v => Ok (unpin_version v)
      | None => let* ss := mapM item_to_specifier items in Ok (any_of ss)
      end
  end.

(** converters.py:41-52 *)
Definition simplify (s : spec) : result spec :=
  let* a := specifier_to_version_set s in version_set_to_specifier a.
