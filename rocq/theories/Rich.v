(** Python's rich comparisons on the objects that [version.py] compares:
    [versions/types.py], the attrs classes of [versions/segments] and
    [Version] itself.  [Version.v] models these comparisons by one three-way
    comparison of keys; here each operator is run on the objects, with the
    reflected methods and [TypeError]. *)

From Coq Require Import List ZArith NArith String Bool.
From Verif Require Import Py Segments Version.
Import ListNotations.
Open Scope Z_scope.

(** The six operators. *)
Inductive rop := OpLt | OpLe | OpGt | OpGe | OpEq | OpNe.

(** The classes decorated with [frozen(eq=True, order=True)]: epoch.py:13,
    release.py:28, tags.py:40, 182, 191, 200, local.py:23, version.py:39. *)
Inductive class := CEpoch | CRelease | CTag (c : tag_class) | CLocal | CVersion.

Definition class_eqb (c d : class) : bool :=
  match c, d with
  | CEpoch, CEpoch | CRelease, CRelease | CLocal, CLocal | CVersion, CVersion => true
  | CTag AnyTag, CTag AnyTag | CTag PreTag, CTag PreTag => true
  | CTag PostTag, CTag PostTag | CTag DevTag, CTag DevTag => true
  | _, _ => false
  end.

(** Integers, strings, tuples, the two infinities, and objects of the classes
    above, of which only the compared fields are kept. *)
Inductive pyval :=
| VInt (z : Z)
| VStr (s : pstr)
| VTuple (xs : list pyval)
| VInfinity
| VNegInfinity
| VObject (c : class) (fields : list pyval).

(** The operator tried on the right operand when the left one gives up. *)
Definition reflected (o : rop) : rop :=
  match o with OpLt => OpGt | OpLe => OpGe | OpGt => OpLt | OpGe => OpLe | OpEq => OpEq | OpNe => OpNe end.

(** types.py:35-51; [same] is [self is other] *)
Definition infinity_method (o : rop) (same : bool) : bool :=
  match o with
  | OpEq => same
  | OpNe => negb same
  | OpLt => false
  | OpLe => same
  | OpGt => negb same
  | OpGe => true
  end.

(** types.py:76-92 *)
Definition negative_infinity_method (o : rop) (same : bool) : bool :=
  match o with
  | OpEq => same
  | OpNe => negb same
  | OpLt => negb same
  | OpLe => true
  | OpGt => false
  | OpGe => same
  end.

(** types.py:61-67, 102-108 *)
Definition is_infinity (x : pyval) : bool := match x with VInfinity => true | _ => false end.
Definition is_negative_infinity (x : pyval) : bool := match x with VNegInfinity => true | _ => false end.

(** What [int] and [str] answer, given which operand is lower. *)
Definition native (o : rop) (c : comparison) : bool :=
  match o, c with
  | OpLt, Lt | OpLe, Lt | OpLe, Eq | OpGt, Gt | OpGe, Gt | OpGe, Eq | OpEq, Eq => true
  | OpNe, Lt | OpNe, Gt => true
  | _, _ => false
  end.

(** Operands of which neither knows the other. *)
Definition unrelated (o : rop) : result bool :=
  match o with OpEq => Ok false | OpNe => Ok true | _ => Err TypeError end.

(** [x o y].  Tuples look for the first pair of unequal elements and apply the
    operator to it, or to the lengths if there is none.  attrs compares objects
    of the same class as tuples of fields and gives up otherwise.  The infinities
    answer whatever the other operand is; when only the right operand is one,
    the left gives up and the reflected method answers. *)
Fixpoint rich (o : rop) (x y : pyval) {struct x} : result bool :=
  let fix tuples (xs ys : list pyval) {struct xs} : result bool :=
    match xs, ys with
    | [], [] => Ok (native o Eq)
    | [], _ :: _ => Ok (native o Lt)
    | _ :: _, [] => Ok (native o Gt)
    | a :: xs', b :: ys' =>
        let* e := rich OpEq a b in
        if e then tuples xs' ys'
        else match o with
             | OpEq => Ok false
             | OpNe => Ok true
             | _ => rich o a b
             end
    end in
  match x, y with
  | VInfinity, _ => Ok (infinity_method o (is_infinity y))
  | VNegInfinity, _ => Ok (negative_infinity_method o (is_negative_infinity y))
  | _, VInfinity => Ok (infinity_method (reflected o) (is_infinity x))
  | _, VNegInfinity => Ok (negative_infinity_method (reflected o) (is_negative_infinity x))
  | VInt a, VInt b => Ok (native o (Z.compare a b))
  | VStr s, VStr t => Ok (native o (str_cmp s t))
  | VTuple xs, VTuple ys => tuples xs ys
  | VObject c fs, VObject d gs => if class_eqb c d then tuples fs gs else unrelated o
  | _, _ => unrelated o
  end.

(** ** The objects *)

(** epoch.py:13-17 *)
Definition epoch_value (e : Z) : pyval := VObject CEpoch [VInt e].

(** release.py:28-35 *)
Definition release_value (r : list Z) : pyval :=
  VObject CRelease [VTuple (map VInt (rel_compare_parts r))].

(** tags.py:40-51 *)
Definition tag_value (c : tag_class) (t : tag) : pyval :=
  VObject (CTag c) [VStr (phase t); VInt (value t)].

(** local.py:39-46 *)
Definition local_part_value (p : local_part) : pyval :=
  match p with LInt z => VTuple [VInt z; VStr []] | LStr s => VTuple [VNegInfinity; VStr s] end.

(** local.py:23-32 *)
Definition local_value (l : list local_part) : pyval :=
  VObject CLocal [VTuple (map local_part_value l)].

(** version.py:39-108 *)
Definition compare_key_value (v : version) : pyval :=
  VTuple
    [epoch_value (v_epoch v);
     release_value (v_release v);
     match v_pre v with
     | None => match v_post v, v_dev v with
               | None, Some _ => VNegInfinity
               | _, _ => VInfinity
               end
     | Some t => tag_value PreTag t
     end;
     match v_post v with None => VNegInfinity | Some t => tag_value PostTag t end;
     match v_dev v with None => VInfinity | Some t => tag_value DevTag t end;
     match v_local v with None => VNegInfinity | Some l => local_value l end].

Definition version_value (v : version) : pyval := VObject CVersion [compare_key_value v].
