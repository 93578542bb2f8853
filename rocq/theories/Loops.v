(** The loops of [versions/version_sets.py] and the helpers of
    [versions/utils.py] and [versions/string.py] as they are written: with
    lists that are appended to and assigned to by index, iterators that are
    advanced, and counters.  The definitions in the other files are recursive;
    C97 states that they compute the same. *)

From Coq Require Import List ZArith NArith String Bool.
From Coq Require Streams.
From Verif Require Import Py Segments Version VersionSets Parsers Rich.
Import ListNotations.
Open Scope Z_scope.

(** ** utils.py *)

(** utils.py:21-34, with [FIRST = 0] and [LAST = ~0] *)
Definition FIRST : Z := 0.
Definition LAST : Z := Z.lnot 0.
Definition first {A} (sequence : list A) : result A := py_get sequence FIRST.
Definition last {A} (sequence : list A) : result A := py_get sequence LAST.
Definition set_last {A} (sequence : list A) (item : A) : result (list A) := py_set sequence LAST item.

(** utils.py:37-38: an iterator is what it has left *)
Definition next_or_none {A} (iterator : list A) : option A * list A :=
  match iterator with [] => (None, []) | x :: rest => (Some x, rest) end.

(** utils.py:41-42 *)
Definition contains_only_item {A} (sized : list A) : bool := len sized =? 1.

(** utils.py:49-50 *)
Fixpoint flatten {A} (nested : list (list A)) : list A :=
  match nested with [] => [] | xs :: rest => xs ++ flatten rest end.

(** utils.py:45-46: [chain], [repeat] and [take] of the [iters] library *)
CoFixpoint repeat_forever (x : Z) : Streams.Stream Z := Streams.Cons x (repeat_forever x).
Definition chain (xs : list Z) (rest : Streams.Stream Z) : Streams.Stream Z := fold_right (@Streams.Cons Z) rest xs.
Fixpoint take (n : nat) (s : Streams.Stream Z) : list Z :=
  match n with O => [] | S n' => Streams.hd s :: take n' (Streams.tl s) end.
Definition fix_to_length (length padding : Z) (iterable : list Z) : list Z :=
  take (Z.to_nat length) (chain iterable (repeat_forever padding)).

(** utils.py:53-62: [for item in iterable: if item: break; count += 1] *)
Fixpoint count_from (count : Z) (iterable : list Z) : Z :=
  match iterable with
  | [] => count
  | item :: rest => if negb (item =? 0) then count else count_from (count + 1) rest
  end.
Definition count_leading_zeros (iterable : list Z) : Z := count_from 0 iterable.

(** ** string.py *)

(** string.py:139-152: [dict.fromkeys(rest, main)], [str.maketrans] and
    [str.translate] *)
Definition translation (main : N) (rest : list N) : list (N * N) := map (fun c => (c, main)) rest.
Fixpoint translated (table : list (N * N)) (c : N) : N :=
  match table with
  | [] => c
  | (a, b) :: table' => if (c =? a)%N then b else translated table' c
  end.
Definition split_multiple (main : N) (rest : list N) (s : pstr) : list pstr :=
  split_on main (map (translated (translation main rest)) s).

(** string.py:157, constants.py:123 *)
Definition split_separators : pstr -> list pstr := split_multiple 46 [45%N; 95%N].

(** ** Segments *)

(** release.py:53-104 *)
Definition release_create (parts : option (list Z)) : result (list Z) :=
  release_new match parts with Some ps => ps | None => DEFAULT_PARTS end.
Definition release_from_iterable (iterable : list Z) : result (list Z) := release_new iterable.
Definition release_from_parts (parts : list Z) : result (list Z) := release_new parts.
Definition release_into_parts (r : list Z) : list Z := r.
Definition release_set_parts (r : list Z) (parts : list Z) : result (list Z) := release_new parts.

(** local.py:48-99 *)
Definition local_create (parts : list local_part) : result (list local_part) := local_new parts.
Definition local_from_iterable (iterable : list local_part) : result (list local_part) := local_new iterable.
Definition local_from_parts (parts : list local_part) : result (list local_part) := local_new parts.
Definition local_into_parts (l : list local_part) : list local_part := l.
Definition local_set_parts (l parts : list local_part) : result (list local_part) := local_new parts.

(** version_sets.py:1032-1038 *)
Definition of_unchecked (items : list item) : result vset := union_new items.
Definition of_iterable_unchecked (items : list item) : result vset := union_new items.

(** ** VersionUnion.merge *)

(** [for x in xs: ...] over a state *)
Fixpoint for_each {S A} (body : S -> A -> result S) (st : S) (xs : list A) : result S :=
  match xs with
  | [] => Ok st
  | x :: xs' => let* st' := body st x in for_each body st' xs'
  end.

(** version_sets.py:1063-1079 *)
Definition merge_body (u : item -> item -> result vset) (merged : list item) (x : item) : result (list item) :=
  match merged with
  | [] => Ok (merged ++ [x])
  | _ =>
      let* last_item := last merged in
      if item_intersects last_item x || is_adjacent last_item x then
        let* r := u last_item x in
        match r with
        | Item i => set_last merged i
        | _ => Err InternalError
        end
      else Ok (merged ++ [x])
  end.

(** version_sets.py:1048-1084; [sorting] is [list.sort] *)
Definition merge_as_written (sorting : list item -> list item) (u : item -> item -> result vset) (sets : list vset) : result vset :=
  let extracted := flatten (map extract sets) in
  match extracted with
  | [] => Ok Empty
  | _ =>
      if existsb item_is_universal extracted then Ok UNIVERSAL_SET
      else
        let* merged := for_each (merge_body u) [] (sorting extracted) in
        if contains_only_item merged then let* i := first merged in Ok (Item i)
        else of_iterable_unchecked merged
  end.

(** ** The loops over two iterators *)

(** [while condition: ...]: go on with a new state, or be done; [None] after
    [fuel] iterations. *)
Inductive turn (S R : Type) := Continue (st : S) | Done (r : R).
Arguments Continue {S R} st.
Arguments Done {S R} r.

Fixpoint while {S R} (fuel : nat) (body : S -> turn S R) (st : S) : option R :=
  match body st with
  | Done r => Some r
  | Continue st' => match fuel with O => None | S fuel' => while fuel' body st' end
  end.

(** [self_item], [self_items], [item] and [items]; for the generator also what
    it has yielded or raised *)
Record pair := Pair {
  self_item : option item; self_items : list item;
  other_item : option item; other_items : list item
}.
Definition next_self (p : pair) : pair :=
  let (x, rest) := next_or_none (self_items p) in Pair x rest (other_item p) (other_items p).
Definition next_other (p : pair) : pair :=
  let (x, rest) := next_or_none (other_items p) in Pair (self_item p) (self_items p) x rest.
Definition start (selfs items : list item) : pair :=
  next_other (next_self (Pair None selfs None items)).

(** version_sets.py:1118-1125 *)
Definition includes_body (p : pair) : turn pair bool :=
  match self_item p, other_item p with
  | Some s, Some i => if item_includes s i then Continue (next_other p) else Continue (next_self p)
  | _, other => Done match other with None => true | Some _ => false end
  end.

(** version_sets.py:1134-1144 *)
Definition intersects_body (p : pair) : turn pair bool :=
  match self_item p, other_item p with
  | Some s, Some i =>
      if item_intersects s i then Done true
      else if is_higher i s then Continue (next_self p) else Continue (next_other p)
  | _, _ => Done false
  end.

(** version_sets.py:1153-1163: the items yielded so far *)
Definition intersection_body (st : pair * list item) : turn (pair * list item) (result (list item)) :=
  let (p, yielded) := st in
  match self_item p, other_item p with
  | Some s, Some i =>
      match item_intersection s i with
      | Err e => Done (Err e)
      | Ok r =>
          let yielded := match r with Item x => yielded ++ [x] | _ => yielded end in
          if is_higher i s then Continue (next_self p, yielded) else Continue (next_other p, yielded)
      end
  | _, _ => Done (Ok yielded)
  end.

(** ** types.py *)

(** types.py:53-54, 94-95: [-x], also for integers *)
Definition negated (x : pyval) : result pyval :=
  match x with
  | VInfinity => Ok VNegInfinity
  | VNegInfinity => Ok VInfinity
  | VInt z => Ok (VInt (- z))
  | _ => Err TypeError
  end.

(** types.py:117-123 *)
Definition is_any_infinity (x : pyval) : bool := is_infinity x || is_negative_infinity x.
