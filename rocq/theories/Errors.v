(** [versions/errors.py] and the exception classes it builds on: which
    [except] clause catches what. *)

From Coq Require Import List NArith Bool.
From Verif Require Import Py.
Import ListNotations.

(** The classes of exceptions raised by the library (errors.py:1-27), those of
    Python they derive from, and [sqlite3.InternalError] (parsers.py:2). *)
Inductive exception :=
| X_Exception
| X_ValueError | X_TypeError | X_AttributeError
| X_LookupError | X_IndexError
| X_RuntimeError | X_RecursionError | X_InternalError
| X_ParseError | X_ParseTagError | X_ParseVersionError | X_ParseSpecificationError
| X_DatabaseError | X_sqlite_InternalError.

(** The class each derives from (errors.py:10-27; Python's documentation;
    [sqlite3.Error], between [DatabaseError] and [Exception], is left out). *)
Definition base (x : exception) : option exception :=
  match x with
  | X_Exception => None
  | X_ValueError | X_TypeError | X_AttributeError | X_LookupError | X_RuntimeError | X_DatabaseError => Some X_Exception
  | X_IndexError => Some X_LookupError
  | X_RecursionError | X_InternalError => Some X_RuntimeError
  | X_ParseError => Some X_ValueError
  | X_ParseTagError | X_ParseVersionError | X_ParseSpecificationError => Some X_ParseError
  | X_sqlite_InternalError => Some X_DatabaseError
  end.

Definition exception_index (x : exception) : N :=
  match x with
  | X_Exception => 0 | X_ValueError => 1 | X_TypeError => 2 | X_AttributeError => 3 | X_LookupError => 4 | X_IndexError => 5
  | X_RuntimeError => 6 | X_RecursionError => 7 | X_InternalError => 8 | X_ParseError => 9 | X_ParseTagError => 10
  | X_ParseVersionError => 11 | X_ParseSpecificationError => 12 | X_DatabaseError => 13 | X_sqlite_InternalError => 14
  end%N.

(** [isinstance]: the chain of base classes is at most four long. *)
Fixpoint derives (n : nat) (x y : exception) : bool :=
  (exception_index x =? exception_index y)%N
  || match n with O => false | S n => match base x with None => false | Some b => derives n b y end end.
Definition is_instance (x y : exception) : bool := derives 4 x y.

(** The exception raised in [parsers.py] ([in_parser]) or elsewhere. *)
Definition raised (in_parser : bool) (e : error) : exception :=
  match e with
  | ValueError => X_ValueError
  | TypeError => X_TypeError
  | IndexError => X_IndexError
  | AttributeError => X_AttributeError
  | RecursionError => X_RecursionError
  | InternalError => if in_parser then X_sqlite_InternalError else X_InternalError
  | ParseTagError => X_ParseTagError
  | ParseVersionError => X_ParseVersionError
  | ParseSpecificationError => X_ParseSpecificationError
  end.

(** [except class:] around a call that raised [e]; [in_parser] only matters for
    [InternalError]. *)
Definition catches (class : exception) (in_parser : bool) (e : error) : bool := is_instance (raised in_parser e) class.
