(** What the digit limit (Limits.v) is about: the numbers of a version string
    and of a version. *)

From Coq Require Import List ZArith NArith String Bool.
From Verif Require Import Py Segments Version Operators Specifiers Grammar Clauses.
Import ListNotations.
Open Scope Z_scope.

Definition listed {A} (o : option A) : list A := match o with None => [] | Some a => [a] end.

Definition tag_digits (o : option gtag) : list pstr :=
  match o with Some (GTag _ _ (Some (_, d))) => [d] | _ => [] end.
Definition post_digits (o : option gpost) : list pstr :=
  match o with None => [] | Some (Implicit d) => [d] | Some (Explicit t) => tag_digits (Some t) end.

(** The numbers a version string is made of; words of the local part only
    count if they consist of digits. *)
Definition tree_numbers (t : gversion) : list pstr :=
  listed (g_epoch t) ++ g_first t :: g_more t ++ tag_digits (g_pre t) ++ post_digits (g_post t) ++ tag_digits (g_dev t)
  ++ match g_local t with
     | None => []
     | Some l => filter (forallb (fun c => (48 <=? c) && (c <=? 57))%N) (fst l :: map snd (snd l))
     end.
Definition short (k : nat) (t : gversion) : Prop := Forall (fun d => (List.length d <= k)%nat) (tree_numbers t).

(** The numbers of a version. *)
Definition version_numbers (v : version) : list Z :=
  v_epoch v :: v_release v ++ map value (listed (v_pre v) ++ listed (v_post v) ++ listed (v_dev v))
  ++ match v_local v with None => [] | Some l => flat_map (fun p => match p with LInt z => [z] | LStr _ => [] end) l end.
Definition fits (k : nat) (v : version) : Prop := Forall (fun z => z < 10 ^ Z.of_nat k) (version_numbers v).

(** No more than [k] digits in a row. *)
Definition no_long_run (k : nat) (s : pstr) : Prop :=
  forall a d b, s = a ++ d ++ b -> Forall digit d -> (List.length d <= k)%nat.
