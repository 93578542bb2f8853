(** The caches of [Caches.v] when versions of several classes are used
    ([versions/utils.py:17]: [cache = lru_cache(None)]). *)

From Coq Require Import List ZArith NArith String Bool.
From Verif Require Import Py Segments Version VersionSets Operators SetStrings Specifiers Parsers Caches Typed GenericSets TypedSets.
Import ListNotations.

(** functions.py:28, 42, 56: the arguments of a cached call.  [lru_cache] keeps
    apart calls that pass the same arguments in different ways: with the type or
    without it, by position or by keyword.  [a_how] tells those ways apart. *)
Record arguments := Arguments { a_how : nat; a_type : vtype; a_string : pstr }.
Definition same_arguments (x y : arguments) : bool :=
  Nat.eqb (a_how x) (a_how y) && Nat.eqb (a_type x) (a_type y) && str_eqb (a_string x) (a_string y).

(** One dictionary per cached function, see [caches]: functions.py:28, 42, 56,
    converters.py:58, 94. *)
Record tcaches := TCaches {
  tc_version : list (arguments * typed);
  tc_specifier : list (arguments * tspec);
  tc_set : list (arguments * gset typed);
  tc_convert : list (tspec * gset typed);
  tc_revert : list (gset typed * tspec) }.

Definition no_tcaches : tcaches := TCaches [] [] [] [] [].

Definition tput_version l c := TCaches l (tc_specifier c) (tc_set c) (tc_convert c) (tc_revert c).
Definition tput_specifier l c := TCaches (tc_version c) l (tc_set c) (tc_convert c) (tc_revert c).
Definition tput_set l c := TCaches (tc_version c) (tc_specifier c) l (tc_convert c) (tc_revert c).
Definition tput_convert l c := TCaches (tc_version c) (tc_specifier c) (tc_set c) l (tc_revert c).
Definition tput_revert l c := TCaches (tc_version c) (tc_specifier c) (tc_set c) (tc_convert c) l.

Definition tact (A : Type) : Type := tcaches -> result A * tcaches.
Definition tlift {A} (r : result A) : tact A := fun c => (r, c).
Definition tThen {A B} (m : tact A) (k : A -> tact B) : tact B :=
  fun c => match m c with (Ok a, c') => k a c' | (Err e, c') => (Err e, c') end.

(** utils.py:17: the wrapper made by [lru_cache(None)]; exceptions are not stored. *)
Definition tcached {K V} (same : K -> K -> bool) (get : tcaches -> list (K * V))
    (put : list (K * V) -> tcaches -> tcaches) (k : K) (body : tact V) : tact V :=
  fun c =>
    match lookup same k (get c) with
    | Some v => (Ok v, c)
    | None => tThen body (fun v c' => (Ok v, put ((k, v) :: get c') c')) c
    end.

(** As in [Caches.v].  Classes that override nothing inherit [__hash__]
    (version.py:39-61), so versions of all classes have one hash. *)
Section Hashes.
  Context (h : op_type -> N) (mix : list N -> N).

  (** attrs hashes of the specifier classes (specifiers.py:51-155,
      operators.py:805) *)
  Fixpoint tspec_hash (s : tspec) : N :=
    match s with
    | TNever => mix [0%N]
    | TAlways => mix [1%N]
    | TOne t _ => mix [2%N; h t; version_hash mix]
    | TAnyOf ss => mix [3%N; mix (map tspec_hash ss)]
    | TAllOf ss => mix [4%N; mix (map tspec_hash ss)]
    end.

  Definition tend_hash (o : option typed) : N := match o with None => mix [5%N] | Some _ => version_hash mix end.

  (** version_sets.py:531-532 *)
  Definition gitem_hash (i : gitem typed) : N :=
    mix [tend_hash (g_min i); tend_hash (g_max i); bool_hash (g_include_min i); bool_hash (g_include_max i)].

  (** attrs hashes of VersionEmpty and VersionUnion (version_sets.py:340, 1022) *)
  Definition gset_hash (a : gset typed) : N :=
    match a with
    | GEmpty => mix [6%N]
    | GItem i => gitem_hash i
    | GUnion items => mix [7%N; mix (map gitem_hash items)]
    end.

  Definition same_tspec (s u : tspec) : bool := N.eqb (tspec_hash s) (tspec_hash u) && tspec_eqb s u.
  Definition same_tset (a b : gset typed) : bool := N.eqb (gset_hash a) (gset_hash b) && t_set_eqb a b.

  (** functions.py:28-39 *)
  Definition t_parse_version_c (x : arguments) : tact typed :=
    tcached same_arguments tc_version tput_version x (tlift (t_parse_version (a_type x) (a_string x))).

  (** functions.py:42-53 *)
  Definition t_parse_specifier_c (x : arguments) : tact tspec :=
    tcached same_arguments tc_specifier tput_specifier x (tlift (t_parse_specifier (a_type x) (a_string x))).

  (** [reduce(f, map(g, xs))] where [g] goes through a cache *)
  Section ReduceCached.
    Context {A B : Type} (f : B -> B -> result B) (g : A -> tact B).
    Fixpoint t_reduce_from_c (acc : B) (xs : list A) : tact B :=
      match xs with
      | [] => tlift (Ok acc)
      | x :: xs' => tThen (g x) (fun y => tThen (tlift (f acc y)) (fun acc' => t_reduce_from_c acc' xs'))
      end.
    Definition t_reduce_map_c (xs : list A) : tact B :=
      match xs with
      | [] => tlift (Err TypeError)
      | x :: xs' => tThen (g x) (fun y => t_reduce_from_c y xs')
      end.
  End ReduceCached.

  (** converters.py:58-84 *)
  Fixpoint t_to_version_set_c (s : tspec) : tact (gset typed) :=
    tcached same_tspec tc_convert tput_convert s
      (match s with
       | TOne t x => tlift (t_translate t x)
       | TNever => tlift (Ok GEmpty)
       | TAlways => tlift (Ok g_universal)
       | TAllOf ss => t_reduce_map_c t_intersection t_to_version_set_c ss
       | TAnyOf ss => t_reduce_map_c t_union t_to_version_set_c ss
       end).

  (** parsers.py:269-270, functions.py:56-67: the parsers called here are not
      cached, the conversion is. *)
  Definition t_parse_version_set_c (x : arguments) : tact (gset typed) :=
    tcached same_arguments tc_set tput_set x (tThen (tlift (t_parse_specifier (a_type x) (a_string x))) t_to_version_set_c).

  Section MapCached.
    Context {A B : Type} (f : A -> tact B).
    Fixpoint t_mapM_c (xs : list A) : tact (list B) :=
      match xs with
      | [] => tlift (Ok [])
      | x :: xs' => tThen (f x) (fun y => tThen (t_mapM_c xs') (fun ys => tlift (Ok (y :: ys))))
      end.
  End MapCached.

  (** converters.py:94-117 *)
  Definition t_item_to_specifier_c (i : gitem typed) : tact tspec :=
    tcached same_tset tc_revert tput_revert (GItem i) (tlift (t_item_to_specifier i)).

  (** converters.py:94-124 *)
  Definition t_to_specifier_c (a : gset typed) : tact tspec :=
    tcached same_tset tc_revert tput_revert a
      (match a with
       | GEmpty => tlift (Ok TNever)
       | GItem i => tlift (t_item_to_specifier i)
       | GUnion items =>
           tThen (tlift (t_complement a)) (fun c =>
             match c with
             | GItem (GPoint x) => tlift (Ok (TOne NOT_EQUAL x))
             | _ => tThen (t_mapM_c t_item_to_specifier_c items) (fun ss => tlift (Ok (t_any_of ss)))
             end)
       end).

  (** converters.py:41-52 *)
  Definition t_simplify_c (s : tspec) : tact tspec := tThen (t_to_version_set_c s) t_to_specifier_c.

  (** What a program may call, and what it gets back. *)
  Inductive tcall :=
  | TParseVersion (x : arguments)
  | TParseSpecifier (x : arguments)
  | TParseVersionSet (x : arguments)
  | TToVersionSet (p : tspec)
  | TToSpecifier (a : gset typed)
  | TSimplify (p : tspec).

  Inductive tanswer := TAVersion (x : typed) | TASpec (p : tspec) | TASet (a : gset typed).

  Definition tgive {A} (wrap : A -> tanswer) (m : tact A) : tact tanswer := tThen m (fun a => tlift (Ok (wrap a))).

  Definition t_do_call (c : tcall) : tact tanswer :=
    match c with
    | TParseVersion x => tgive TAVersion (t_parse_version_c x)
    | TParseSpecifier x => tgive TASpec (t_parse_specifier_c x)
    | TParseVersionSet x => tgive TASet (t_parse_version_set_c x)
    | TToVersionSet p => tgive TASet (t_to_version_set_c p)
    | TToSpecifier a => tgive TASpec (t_to_specifier_c a)
    | TSimplify p => tgive TASpec (t_simplify_c p)
    end.

  (** A process starts with empty caches and makes one call after the other. *)
  Fixpoint t_do_calls (cs : list tcall) (d : tcaches) : tcaches :=
    match cs with
    | [] => d
    | c :: cs' => t_do_calls cs' (snd (t_do_call c d))
    end.

  Definition t_answer_after (cs : list tcall) (c : tcall) : result tanswer :=
    fst (t_do_call c (t_do_calls cs no_tcaches)).
End Hashes.
