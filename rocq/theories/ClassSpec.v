(** What the theorems about classes and operators as objects speak of. *)

From Coq Require Import List ZArith NArith String Bool.
From Verif Require Import Py Segments Version VersionSets Operators Specifiers Spec Clauses Classes.
Import ListNotations.

(** Objects that the constructors make out of parts that can be written down;
    wildcards replace nothing but a zero. *)
Definition written_obj (o : obj) : Prop :=
  match o with
  | OEpoch e => (0 <= e)%Z
  | ORelease r => r <> [] /\ Forall (fun x => (0 <= x)%Z) r
  | OTag c t => wf_tag c t
  | OLocal l => l <> [] /\ Forall wf_part l
  | OVersion v => wf v
  | OOperator t v => op_made t v /\ spelled t v
  | OSpec s => spec_made s /\ each_op spelled s
  | OSet a => canonical a /\ Forall wf (bounds a)
  end.

(** The symbol that the name of a class method of [Operator] stands for. *)
Definition SYMBOLS : list (pstr * pstr) :=
  [(lit "tilde_equal", lit "~="); (lit "double_equal", lit "=="); (lit "not_equal", lit "!=");
   (lit "less", lit "<"); (lit "less_or_equal", lit "<="); (lit "greater", lit ">"); (lit "greater_or_equal", lit ">=");
   (lit "caret", lit "^"); (lit "equal", lit "="); (lit "tilde", lit "~");
   (lit "wildcard_double_equal", lit "==*"); (lit "wildcard_equal", lit "=*"); (lit "wildcard_not_equal", lit "!=*")].
