(** What Python's documentation says of the built-in operations that Py.v and
    Operators.v model, stated without them. *)

From Coq Require Import List ZArith NArith Bool.
From Verif Require Import Py.
Import ListNotations.
Open Scope Z_scope.

(** Sequences are ordered as dictionaries order words: at the first place where
    they differ, a proper beginning coming first. *)
Definition before {A} (lt : A -> A -> Prop) (xs ys : list A) : Prop :=
  (exists y q, ys = xs ++ y :: q)
  \/ exists p x y q r, xs = p ++ x :: q /\ ys = p ++ y :: r /\ lt x y.

(** The place [k] that the index [i] names in a sequence of [n] elements:
    counted from the start, or from the end if negative. *)
Definition names_place (n : nat) (i : Z) (k : nat) : Prop :=
  (k < n)%nat /\ (i = Z.of_nat k \/ i = Z.of_nat k - Z.of_nat n).

(** The number of elements before the bound [i] of a slice. *)
Definition slice_bound (n : nat) (i : Z) : Z :=
  Z.max 0 (Z.min (Z.of_nat n) (if i <? 0 then Z.of_nat n + i else i)).

(** All characters for which [str.isspace] holds. *)
Definition spaces : list N :=
  [9; 10; 11; 12; 13; 28; 29; 30; 31; 32; 133; 160; 5760; 8192; 8193; 8194; 8195; 8196; 8197; 8198; 8199; 8200; 8201; 8202;
   8232; 8233; 8239; 8287; 12288]%N.
Definition blank (s : pstr) : Prop := forall c, In c s -> In c spaces.

(** Neither the first nor the last character is one of those in [p]. *)
Definition bare_start (p : N -> Prop) (s : pstr) : Prop := forall c r, s = c :: r -> ~ p c.
Definition bare_end (p : N -> Prop) (s : pstr) : Prop := forall c r, s = r ++ [c] -> ~ p c.

(** The words of a string: runs of visible characters with blanks between. *)
Inductive spaced : pstr -> list pstr -> Prop :=
| spaced_end g : blank g -> spaced g []
| spaced_word g w r ws : blank g -> w <> [] -> (forall c, In c w -> ~ In c spaces) ->
    (r = [] \/ exists c r', r = c :: r' /\ In c spaces) -> spaced r ws -> spaced (g ++ w ++ r) (w :: ws).

(** Pairs of [c] are replaced by one [c], from the left: a run of [n] becomes
    one of half as many, rounded up. *)
Inductive halved (c : N) : pstr -> pstr -> Prop :=
| halved_nil : halved c [] []
| halved_run n s t : (forall r, s <> c :: r) -> halved c s t ->
    halved c (repeat c (S n) ++ s) (repeat c (S (Nat.div2 n)) ++ t)
| halved_other x s t : x <> c -> halved c s t -> halved c (x :: s) (x :: t).

(** [d] finds [v] under [k]: the first entry with that key. *)
Definition first_entry {A} (d : list (pstr * A)) (k : pstr) (v : A) : Prop :=
  exists a b, d = a ++ (k, v) :: b /\ ~ In k (map fst a).
