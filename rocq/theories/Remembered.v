(** What the caches remember of earlier conversions: one table of operators. *)

From Coq Require Import List ZArith NArith String Bool.
From Verif Require Import Py Segments Version VersionSets Operators SetStrings Specifiers Parsers Spec Caches.
Import ListNotations.

(** Operators with their versions, in the order in which they were converted. *)
Definition table : Type := list (op_type * version).

(** The same operator with an equal version. *)
Definition same_one (t : op_type) (v : version) (x : op_type * version) : bool := op_is t (fst x) && v_eq v (snd x).

Definition seen (l : table) (t : op_type) (v : version) : option (op_type * version) := find (same_one t v) l.

Definition first_seen (l : table) (t : op_type) (v : version) : op_type * version :=
  match seen l t v with Some x => x | None => (t, v) end.

(** The specifier with every operator replaced by the one that was seen first. *)
Fixpoint as_first (l : table) (p : spec) : spec :=
  match p with
  | Never => Never
  | Always => Always
  | One t v => One (fst (first_seen l t v)) (snd (first_seen l t v))
  | AnyOf ss => AnyOf (map (as_first l) ss)
  | AllOf ss => AllOf (map (as_first l) ss)
  end.

(** Conversion with that table alone: operators that translate are entered when
    they are met for the first time, and members are met from left to right up
    to the first that fails. *)
Section Noting.
  Context (f : vset -> vset -> result vset) (g : spec -> table -> result vset * table).
  Fixpoint note_from (acc : vset) (ss : list spec) (l : table) : result vset * table :=
    match ss with
    | [] => (Ok acc, l)
    | s :: ss' =>
        match g s l with
        | (Ok y, l') => match f acc y with Ok acc' => note_from acc' ss' l' | Err e => (Err e, l') end
        | (Err e, l') => (Err e, l')
        end
    end.
  Definition note_all (ss : list spec) (l : table) : result vset * table :=
    match ss with
    | [] => (Err TypeError, l)
    | s :: ss' => match g s l with (Ok y, l') => note_from y ss' l' | (Err e, l') => (Err e, l') end
    end.
End Noting.

Fixpoint note (p : spec) (l : table) : result vset * table :=
  match p with
  | Never => (Ok Empty, l)
  | Always => (Ok UNIVERSAL_SET, l)
  | One t v =>
      match seen l t v with
      | Some (u, w) => (op_translate u w, l)
      | None => match op_translate t v with Ok a => (Ok a, l ++ [(t, v)]) | Err e => (Err e, l) end
      end
  | AnyOf ss => note_all union note ss l
  | AllOf ss => note_all intersection note ss l
  end.

Definition note_call (l : table) (c : call) : table :=
  match c with
  | ParseVersionSet s => match parse_specifier s with Ok p => snd (note p l) | Err _ => l end
  | ToVersionSet p | Simplify p => snd (note p l)
  | _ => l
  end.

Definition remembered (cs : list call) : table := fold_left note_call cs [].

(** The way back: items, and the sets of everything but one version, in the
    order in which they were converted. *)
Definition shelf : Type := list item * list (list item).

Definition first_like {A} (same : A -> A -> bool) (l : list A) (x : A) : A :=
  match find (same x) l with Some y => y | None => x end.

Definition enter {A} (same : A -> A -> bool) (x : A) (l : list A) : list A :=
  match find (same x) l with Some _ => l | None => l ++ [x] end.

Definition leaves_out (items : list item) : bool :=
  match items with
  | [Range None (Some v) _ false; Range (Some w) None false _] => v_eq v w
  | _ => false
  end.

Definition as_first_set (m : shelf) (a : vset) : vset :=
  match a with
  | Empty => Empty
  | Item i => Item (first_like item_eqb (fst m) i)
  | Union items =>
      if leaves_out items then Union (first_like items_eqb (snd m) items) else Union (map (first_like item_eqb (fst m)) items)
  end.

Definition note_set (a : vset) (m : shelf) : shelf :=
  match a with
  | Empty => m
  | Item i => (enter item_eqb i (fst m), snd m)
  | Union items =>
      if leaves_out items then (fst m, enter items_eqb items (snd m))
      else (fold_left (fun l i => enter item_eqb i l) items (fst m), snd m)
  end.

Definition note_both (m : table * shelf) (c : call) : table * shelf :=
  (note_call (fst m) c,
   match c with
   | ToSpecifier a => note_set a (snd m)
   | Simplify p => match fst (note p (fst m)) with Ok a => note_set a (snd m) | Err _ => snd m end
   | _ => snd m
   end).

Definition shelved (cs : list call) : shelf := snd (fold_left note_both cs ([], ([], []))).

(** Hashes that never collide. *)
Definition no_collisions (h : op_type -> N) (mix : list N -> N) : Prop :=
  (forall t u, h t = h u -> t = u) /\ (forall xs ys, mix xs = mix ys -> xs = ys).

(** The same tree of the same operators with equal versions. *)
Definition same_tree : spec -> spec -> Prop := paired (fun t v t' v' => t = t' /\ v_eq v v' = true).
