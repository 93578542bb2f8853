(** Strings of specifiers without their parentheses (C40). *)

From Coq Require Import List ZArith NArith String Bool.
From Verif Require Import Py Segments Version Operators Specifiers.
Import ListNotations.

Definition parenthesis (c : N) : bool := existsb (N.eqb c) (lit "()").
Definition unparenthesised (s : pstr) : pstr := filter (fun c => negb (parenthesis c)) s.

(** The long word for release candidates, which parses nowhere. *)
Definition no_candidate (v : version) : Prop := forall u, v_pre v = Some u -> phase u <> lit "candidate".
