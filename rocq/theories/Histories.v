(** What is claimed about calls that go through the caches. *)

From Coq Require Import List ZArith NArith String Bool.
From Verif Require Import Py Segments Version VersionSets Operators SetStrings Specifiers Parsers Spec Caches.
Import ListNotations.

(** The answer of the functions without caches. *)
Definition answer_alone (c : call) : result answer :=
  match c with
  | ParseVersion s => let* v := parse_version s in Ok (AVersion v)
  | ParseSpecifier s => let* p := parse_specifier s in Ok (ASpec p)
  | ParseVersionSet s => let* a := parse_version_set s in Ok (ASet a)
  | ToVersionSet p => let* a := specifier_to_version_set p in Ok (ASet a)
  | ToSpecifier a => let* p := version_set_to_specifier a in Ok (ASpec p)
  | Simplify p => let* u := simplify p in Ok (ASpec u)
  end.

(** The specifier a call converts. *)
Inductive converts : call -> spec -> Prop :=
| converts_parsed s p : parse_specifier s = Ok p -> converts (ParseVersionSet s) p
| converts_given p : converts (ToVersionSet p) p
| converts_simplified p : converts (Simplify p) p.

(** An operator written in a specifier that one of the calls converts. *)
Definition mentioned (cs : list call) (t : op_type) (v : version) : Prop :=
  exists c p, In c cs /\ converts c p /\ leaf t v p.

(** Equal versions under equal operators are written with equally many parts. *)
Definition spelled_alike (cs : list call) : Prop :=
  forall t v u w, mentioned cs t v -> mentioned cs u w -> op_eqb t u = true -> v_eq v w = true ->
    List.length (v_release v) = List.length (v_release w).

(** The same, but only where the number of parts matters. *)
Definition spelled_enough (cs : list call) : Prop :=
  forall t v u w, mentioned cs t v -> mentioned cs u w -> op_eqb t u = true -> v_eq v w = true -> as_precise t v u w.

(** Arguments the constructors can make. *)
Definition fair (c : call) : Prop :=
  match c with
  | ParseVersion _ | ParseSpecifier _ | ParseVersionSet _ => True
  | ToVersionSet p | Simplify p => spec_made p /\ each_op plain_op p
  | ToSpecifier a => canonical a
  end.

(** Answers that compare equal. *)
Definition agree (r r' : result answer) : Prop :=
  match r, r' with
  | Ok (AVersion v), Ok (AVersion v') => v = v'
  | Ok (ASpec p), Ok (ASpec p') => spec_eqb p p' = true
  | Ok (ASet a), Ok (ASet a') => set_eqb a a' = true
  | Err e, Err e' => e = e'
  | _, _ => False
  end.
