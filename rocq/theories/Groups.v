(** The constructors of [SpecifierAny] and [SpecifierAll]
    ([versions/specifiers.py]). *)

From Coq Require Import List ZArith Bool.
From Verif Require Import Py Segments Version Operators Specifiers.
Import ListNotations.

(** specifiers.py:93-98, utils.py:41-42 *)
Definition check_specifiers (ss : list spec) : result unit :=
  match ss with
  | [] => Err TypeError
  | _ => if (Z.of_nat (List.length ss) =? 1)%Z then Err TypeError else Ok tt
  end.

(** specifiers.py:101-113, 147-159: the classes called with a tuple *)
Definition any_new (ss : list spec) : result spec := let* _ := check_specifiers ss in Ok (AnyOf ss).
Definition all_new (ss : list spec) : result spec := let* _ := check_specifiers ss in Ok (AllOf ss).

(** specifiers.py:115-123, 161-169: [of_specifiers] as written, which calls the
    class; [of] and [of_iterable] (specifiers.py:125-131, 171-177) pass a tuple
    of their arguments to it *)
Definition any_of_specifiers (ss : list spec) : result spec :=
  match ss with
  | [] => Ok Never
  | s :: _ => if (Z.of_nat (List.length ss) =? 1)%Z then Ok s else any_new ss
  end.
Definition all_of_specifiers (ss : list spec) : result spec :=
  match ss with
  | [] => Ok Always
  | s :: _ => if (Z.of_nat (List.length ss) =? 1)%Z then Ok s else all_new ss
  end.
