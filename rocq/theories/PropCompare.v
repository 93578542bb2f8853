(** Theorems about comparing any two objects of the library: C93. *)

From Coq Require Import List ZArith NArith String Bool.
From Verif Require Import Py Segments Version VersionSets Operators Specifiers Spec Rich Classes Compare CompareSpec CompareFacts.
Import ListNotations.
Open Scope Z_scope.

(** ** C93 *)

(** [==] and [!=] answer for any two objects, oppositely, and objects are equal
    exactly if they are of one kind with equal parts. *)
Theorem C93_equality x y : (exists b, obj_rich OpEq x y = Ok b /\ obj_rich OpNe x y = Ok (negb b))
  /\ (obj_rich OpEq x y = Ok true <-> tied_objects x y).
Proof. exact (equality x y). Qed.
Print Assumptions C93_equality.

Theorem C93_equivalence x y z : obj_rich OpEq x x = Ok true
  /\ (obj_rich OpEq x y = Ok true -> obj_rich OpEq y x = Ok true)
  /\ (obj_rich OpEq x y = Ok true -> obj_rich OpEq y z = Ok true -> obj_rich OpEq x z = Ok true).
Proof. exact (equivalence x y z). Qed.
Print Assumptions C93_equivalence.

(** Equal objects are of one class, except that a point may equal a range. *)
Theorem C93_classes x y : tied_objects x y -> class_of x = class_of y \/ a_range x /\ a_range y.
Proof. exact (equal_class x y). Qed.
Print Assumptions C93_classes.

(** Comparable objects: all six operators answer, according to one comparison. *)
Theorem C93_comparable x y : comparable x y -> exists c, forall o, obj_rich o x y = Ok (native o c).
Proof. exact (one_comparison x y). Qed.
Print Assumptions C93_comparable.

(** Which is a total order up to equality. *)
Theorem C93_order x y z : comparable x y -> comparable y z ->
  (obj_rich OpLe x y = Ok true <-> obj_rich OpLt x y = Ok true \/ obj_rich OpEq x y = Ok true)
  /\ (obj_rich OpLt x y = Ok true <-> obj_rich OpLe x y = Ok true /\ ~ obj_rich OpLe y x = Ok true)
  /\ (obj_rich OpEq x y = Ok true <-> obj_rich OpLe x y = Ok true /\ obj_rich OpLe y x = Ok true)
  /\ (obj_rich OpLe x y = Ok true \/ obj_rich OpLe y x = Ok true)
  /\ (obj_rich OpLe x y = Ok true -> obj_rich OpLe y z = Ok true -> obj_rich OpLe x z = Ok true)
  /\ (obj_rich OpLt x y = Ok true -> obj_rich OpLe y z = Ok true -> obj_rich OpLt x z = Ok true)
  /\ (obj_rich OpLe x y = Ok true -> obj_rich OpLt y z = Ok true -> obj_rich OpLt x z = Ok true).
Proof. exact (order_laws x y z). Qed.
Print Assumptions C93_order.

(** Other objects have no order: [TypeError], or [AttributeError] if one of them
    is a range or a point. *)
Theorem C93_incomparable o x y : ~ comparable x y -> ordering o ->
  (a_range x \/ a_range y -> obj_rich o x y = Err AttributeError)
  /\ (~ a_range x -> ~ a_range y -> obj_rich o x y = Err TypeError).
Proof. exact (incomparable_raises o x y). Qed.
Print Assumptions C93_incomparable.

(** [x < y] is [y > x] and so on, whichever operand Python asks first, errors
    included. *)
Theorem C93_mirrored o x y : obj_rich (reflected o) y x = obj_rich o x y.
Proof. exact (mirrored o x y). Qed.
Print Assumptions C93_mirrored.

(** 1 == 1.0; the point 1 is the range [1, 1] and above no other range starting
    there; "=1" == "==1.0" as specifiers, but no operator is a specifier. *)
Example C93_case :
  let v := Version 0 [1] None None None None in
  let w := Version 0 [1; 0] None None None None in
  let p := OSet (Item (Point v)) in
  let r := OSet (Item (Range (Some w) (Some w) true true)) in
  let q := OSet (Item (Range (Some w) None true false)) in
  let e := OSpec (AnyOf [One EQUAL v; Never]) in
  let f := OSpec (AnyOf [One DOUBLE_EQUAL w; Never]) in
  obj_rich OpEq p r = Ok true /\ obj_rich OpEq r p = Ok true /\ comparable p q /\ comparable q r
  /\ obj_rich OpLt r q = Ok true /\ obj_rich OpLt p q = Ok true /\ obj_rich OpGe q p = Ok true
  /\ obj_rich OpEq e f = Ok true /\ obj_rich OpEq (OSpec (One EQUAL v)) (OOperator EQUAL v) = Ok false
  /\ ~ comparable e f /\ obj_rich OpLt e f = Err TypeError
  /\ ~ comparable (OVersion v) p /\ obj_rich OpLt (OVersion v) p = Err AttributeError
  /\ obj_rich OpLt (OTag PreTag (Tag (lit "alpha") 1)) (OTag AnyTag (Tag (lit "alpha") 2)) = Err TypeError.
Proof. vm_compute. repeat (split; [auto|]); auto; intros []. Qed.
