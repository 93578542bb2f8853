(** What comparing two objects of the library should mean. *)

From Coq Require Import List ZArith NArith String Bool.
From Verif Require Import Py Segments Version VersionSets Operators Specifiers Spec Rich Classes.
Import ListNotations.

(** Objects between which [<] answers: segments of one class, versions, and
    ranges and points. *)
Definition comparable (x y : obj) : Prop :=
  match x, y with
  | OEpoch _, OEpoch _ | ORelease _, ORelease _ | OLocal _, OLocal _ | OVersion _, OVersion _ => True
  | OTag c _, OTag d _ => c = d
  | OSet (Item _), OSet (Item _) => True
  | _, _ => False
  end.

Definition a_range (x : obj) : Prop := match x with OSet (Item _) => True | _ => False end.

(** The operators that order. *)
Definition ordering (o : rop) : Prop := match o with OpEq | OpNe => False | _ => True end.

(** The two spellings of one operator. *)
Inductive same_operator : op_type -> op_type -> Prop :=
| same_itself t : same_operator t t
| same_equal : same_operator EQUAL DOUBLE_EQUAL
| same_double : same_operator DOUBLE_EQUAL EQUAL
| same_wildcard : same_operator WILDCARD_EQUAL WILDCARD_DOUBLE_EQUAL
| same_double_wildcard : same_operator WILDCARD_DOUBLE_EQUAL WILDCARD_EQUAL.

(** Versions that are equal, in terms of the order alone. *)
Definition tied (v w : version) : Prop := v_lt v w = false /\ v_lt w v = false.

Definition tied_ends (m n : option version) : Prop :=
  match m, n with None, None => True | Some v, Some w => tied v w | _, _ => False end.

(** Ranges with the same ends; a point is closed at both. *)
Inductive tied_items : item -> item -> Prop :=
| tied_points v w : tied v w -> tied_items (Point v) (Point w)
| tied_point_range v m n : tied_ends (Some v) m -> tied_ends (Some v) n -> tied_items (Point v) (Range m n true true)
| tied_range_point v m n : tied_ends m (Some v) -> tied_ends n (Some v) -> tied_items (Range m n true true) (Point v)
| tied_ranges m n m' n' b c : tied_ends m m' -> tied_ends n n' -> tied_items (Range m n b c) (Range m' n' b c).

Inductive tied_specs : spec -> spec -> Prop :=
| tied_never : tied_specs Never Never
| tied_always : tied_specs Always Always
| tied_one t u v w : same_operator t u -> tied v w -> tied_specs (One t v) (One u w)
| tied_any ss us : Forall2 tied_specs ss us -> tied_specs (AnyOf ss) (AnyOf us)
| tied_all ss us : Forall2 tied_specs ss us -> tied_specs (AllOf ss) (AllOf us).

(** Releases, local segments and tags are compared as those of versions, which
    other theorems describe; the rest is spelled out. *)
Inductive tied_objects : obj -> obj -> Prop :=
| tied_epochs e : tied_objects (OEpoch e) (OEpoch e)
| tied_releases r s : tied (Version 0 r None None None None) (Version 0 s None None None None) -> tied_objects (ORelease r) (ORelease s)
| tied_tags c t : tied_objects (OTag c t) (OTag c t)
| tied_locals l m : tied (Version 0 [0%Z] None None None (Some l)) (Version 0 [0%Z] None None None (Some m)) -> tied_objects (OLocal l) (OLocal m)
| tied_versions v w : tied v w -> tied_objects (OVersion v) (OVersion w)
| tied_operators t u v w : same_operator t u -> tied v w -> tied_objects (OOperator t v) (OOperator u w)
| tied_specifiers s u : tied_specs s u -> tied_objects (OSpec s) (OSpec u)
| tied_empty : tied_objects (OSet Empty) (OSet Empty)
| tied_item s t : tied_items s t -> tied_objects (OSet (Item s)) (OSet (Item t))
| tied_unions xs ys : Forall2 tied_items xs ys -> tied_objects (OSet (Union xs)) (OSet (Union ys)).
