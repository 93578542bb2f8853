(** What is claimed about cached calls with versions of several classes. *)

From Coq Require Import List ZArith NArith String Bool.
From Verif Require Import Py Segments Version VersionSets Operators Specifiers Parsers Caches Typed GenericSets TypedSets TypedCaches.
Import ListNotations.

(** A call made with one class of versions. *)
Record classed := Classed { c_how : nat; c_class : vtype; c_call : call }.

Definition in_class (x : classed) : tcall :=
  let args s := Arguments (c_how x) (c_class x) s in
  match c_call x with
  | ParseVersion s => TParseVersion (args s)
  | ParseSpecifier s => TParseSpecifier (args s)
  | ParseVersionSet s => TParseVersionSet (args s)
  | ToVersionSet p => TToVersionSet (retype_spec (c_class x) p)
  | ToSpecifier a => TToSpecifier (carry_set (Typed (c_class x)) a)
  | Simplify p => TSimplify (retype_spec (c_class x) p)
  end.

(** The calls made with class [T]. *)
Fixpoint calls_of (T : vtype) (xs : list classed) : list call :=
  match xs with
  | [] => []
  | x :: xs' => if Nat.eqb (c_class x) T then c_call x :: calls_of T xs' else calls_of T xs'
  end.

(** The same answer with versions of class [T]. *)
Definition answer_in (T : vtype) (a : answer) : tanswer :=
  match a with
  | AVersion v => TAVersion (Typed T v)
  | ASpec p => TASpec (retype_spec T p)
  | ASet s => TASet (carry_set (Typed T) s)
  end.

(** The answer of the functions without caches. *)
Definition t_answer_alone (c : tcall) : result tanswer :=
  match c with
  | TParseVersion x => rmap TAVersion (t_parse_version (a_type x) (a_string x))
  | TParseSpecifier x => rmap TASpec (t_parse_specifier (a_type x) (a_string x))
  | TParseVersionSet x => rmap TASet (let* p := t_parse_specifier (a_type x) (a_string x) in t_to_version_set p)
  | TToVersionSet p => rmap TASet (t_to_version_set p)
  | TToSpecifier a => rmap TASpec (t_to_specifier a)
  | TSimplify p => rmap TASpec (t_simplify p)
  end.

(** An operator with its version, somewhere in a specifier. *)
Inductive t_leaf (t : op_type) (x : typed) : tspec -> Prop :=
| t_leaf_one : t_leaf t x (TOne t x)
| t_leaf_any s ss : In s ss -> t_leaf t x s -> t_leaf t x (TAnyOf ss)
| t_leaf_all s ss : In s ss -> t_leaf t x s -> t_leaf t x (TAllOf ss).

(** The specifier a call converts. *)
Inductive t_converts : tcall -> tspec -> Prop :=
| t_converts_parsed x p : t_parse_specifier (a_type x) (a_string x) = Ok p -> t_converts (TParseVersionSet x) p
| t_converts_given p : t_converts (TToVersionSet p) p
| t_converts_simplified p : t_converts (TSimplify p) p.

Definition t_mentioned (cs : list tcall) (t : op_type) (x : typed) : Prop :=
  exists c p, In c cs /\ t_converts c p /\ t_leaf t x p.

(** A version at the end of an item of a set. *)
Definition at_end (a : gset typed) (x : typed) : Prop :=
  exists i, In i (g_extract a) /\ (g_min i = Some x \/ g_max i = Some x).
