(** What C119 says: calls by several threads. *)

From Coq Require Import List ZArith NArith String Bool.
From Verif Require Import Py Segments Version VersionSets Operators SetStrings Specifiers Parsers Spec Caches Histories Threads.
Import ListNotations.

(** A thread got the answer [r] to the call [c]. *)
Definition answered h mix (css : list (list call)) (ns : list nat) (c : call) (r : result answer) : Prop :=
  exists t, In t (threads_after h mix css ns) /\ In (c, r) (answers t).

(** The answers to one call after the other. *)
Fixpoint in_turn (h : op_type -> N) (mix : list N -> N) (cs : list call) (d : caches) : list (call * result answer) :=
  match cs with
  | [] => []
  | c :: cs' => (c, fst (do_call h mix c d)) :: in_turn h mix cs' (snd (do_call h mix c d))
  end.

(** The calls of a thread: those answered, the one it is at, and those to come. *)
Definition calls_of (t : thread) : list call :=
  map fst (answers t) ++ match now t with Some (c, _) => [c] | None => [] end ++ later t.
