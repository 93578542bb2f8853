(** The comparison operators between any two objects of the library.
    [Rich.v] has the methods of segments and versions; here are those of
    operators, specifiers and sets, and Python's choice of method. *)

From Coq Require Import List ZArith NArith String Bool.
From Verif Require Import Py Segments Version VersionSets Operators Specifiers Rich Classes.
Import ListNotations.

(** Segments and versions as the values of [Rich.v]: epoch.py:13, release.py:28,
    tags.py:40, 182, 191, 200, local.py:23, version.py:39 *)
Definition obj_value (x : obj) : option pyval :=
  match x with
  | OEpoch e => Some (epoch_value e)
  | ORelease r => Some (release_value r)
  | OTag c t => Some (tag_value c t)
  | OLocal l => Some (local_value l)
  | OVersion v => Some (version_value v)
  | _ => None
  end.

(** version_sets.py:534-550: the methods of a range or point on another *)
Definition item_method (o : rop) (s t : item) : bool :=
  match o with
  | OpEq => item_eqb s t
  | OpNe => negb (item_eqb s t)
  | OpLt => item_lt s t
  | OpLe => item_le s t
  | OpGt => item_gt s t
  | OpGe => item_ge s t
  end.

(** version_sets.py:534-550 on what is not a range: [is_version_range] is false,
    and [compare] asks for [other.comparable_min] (version_sets.py:554) *)
Definition item_method_other (o : rop) : result bool :=
  match o with OpEq => Ok false | OpNe => Ok true | _ => Err AttributeError end.

(** attrs [eq=True, order=False] on objects of one class: no order, so both
    operands give up *)
Definition equality_only (o : rop) (e : bool) : result bool :=
  match o with OpEq => Ok e | OpNe => Ok (negb e) | _ => Err TypeError end.

(** [x o y].  Python asks the left operand first, unless the class of the right
    one derives from that of the left: then the reflected method of the right
    one is asked first, as between a range and a point (version_sets.py:927).
    Attrs methods give up on objects of another class (also on derived classes,
    as between an [Operator] and a [SpecifierOne] or a [Tag] and a [PreTag]), and
    then the other operand is asked; if both give up, [==] is identity. *)
Definition obj_rich (o : rop) (x y : obj) : result bool :=
  match x, y with
  | OSet (Item (Range _ _ _ _ as s)), OSet (Item (Point _ as t)) => Ok (item_method (reflected o) t s)
  | OSet (Item s), OSet (Item t) => Ok (item_method o s t)
  | OSet (Item _), _ => item_method_other o
  | _, OSet (Item _) => item_method_other (reflected o)
  | OOperator t v, OOperator u w => equality_only o (op_eqb t u && v_eq v w)
  | OSpec s, OSpec u => equality_only o (spec_eqb s u)
  | OSet a, OSet b => equality_only o (set_eqb a b)
  | _, _ => match obj_value x, obj_value y with
            | Some a, Some b => rich o a b
            | _, _ => unrelated o
            end
  end.
