(** The caches of [versions/functions.py] and [versions/converters.py]
    ([versions/utils.py:17]: [cache = lru_cache(None)]). *)

From Coq Require Import List ZArith NArith String Bool.
From Verif Require Import Py Segments Version VersionSets Operators SetStrings Specifiers Parsers.
Import ListNotations.

(** One dictionary per cached function: functions.py:28 (parse_version),
    functions.py:42 (parse_specifier), functions.py:56 (parse_version_set),
    converters.py:58 (specifier_to_version_set), converters.py:94
    (version_set_to_specifier).  The first entry that matches counts, so pushing
    an entry overwrites an earlier one.  Only calls with the default version
    type are modelled here; then the key is the only argument (TypedCaches.v
    has the version type in the keys). *)
Record caches := Caches {
  c_version : list (pstr * version);
  c_specifier : list (pstr * spec);
  c_set : list (pstr * vset);
  c_convert : list (spec * vset);
  c_revert : list (vset * spec) }.

Definition no_caches : caches := Caches [] [] [] [] [].

Definition put_version l c := Caches l (c_specifier c) (c_set c) (c_convert c) (c_revert c).
Definition put_specifier l c := Caches (c_version c) l (c_set c) (c_convert c) (c_revert c).
Definition put_set l c := Caches (c_version c) (c_specifier c) l (c_convert c) (c_revert c).
Definition put_convert l c := Caches (c_version c) (c_specifier c) (c_set c) l (c_revert c).
Definition put_revert l c := Caches (c_version c) (c_specifier c) (c_set c) (c_convert c) l.

(** Code that reads and writes the caches and may raise; what was cached before
    the exception stays cached. *)
Definition act (A : Type) : Type := caches -> result A * caches.
Definition lift {A} (r : result A) : act A := fun c => (r, c).
Definition andThen {A B} (m : act A) (k : A -> act B) : act B :=
  fun c => match m c with (Ok a, c') => k a c' | (Err e, c') => (Err e, c') end.

Section Dictionary.
  Context {K V : Type} (same : K -> K -> bool).
  Fixpoint lookup (k : K) (d : list (K * V)) : option V :=
    match d with
    | [] => None
    | (k', v) :: d' => if same k k' then Some v else lookup k d'
    end.
End Dictionary.

(** utils.py:17: the wrapper made by [lru_cache(None)]; exceptions are not stored. *)
Definition cached {K V} (same : K -> K -> bool) (get : caches -> list (K * V))
    (put : list (K * V) -> caches -> caches) (k : K) (body : act V) : act V :=
  fun c =>
    match lookup same k (get c) with
    | Some v => (Ok v, c)
    | None => andThen body (fun v c' => (Ok v, put ((k, v) :: get c') c')) c
    end.

(** Dictionaries compare hashes first.  [h] is the hash of a member of
    OperatorType (operators.py:768-769, the hash of its name, which differs from
    process to process) and [mix] that of a tuple; nothing is assumed of them. *)
Section Hashes.
  Context (h : op_type -> N) (mix : list N -> N).

  (** version.py:39-61: no field of a Version takes part in its hash (the
      segments are [eq=False], [compare_key] is [hash=False]), so all versions
      have one hash. *)
  Definition version_hash : N := mix [].

  (** attrs hashes of the specifier classes (specifiers.py:51-155,
      operators.py:805) *)
  Fixpoint spec_hash (s : spec) : N :=
    match s with
    | Never => mix [0%N]
    | Always => mix [1%N]
    | One t _ => mix [2%N; h t; version_hash]
    | AnyOf ss => mix [3%N; mix (map spec_hash ss)]
    | AllOf ss => mix [4%N; mix (map spec_hash ss)]
    end.

  Definition end_hash (o : option version) : N := match o with None => mix [5%N] | Some _ => version_hash end.
  Definition bool_hash (b : bool) : N := if b then 1%N else 0%N.

  (** version_sets.py:531-532 *)
  Definition item_hash (i : item) : N :=
    mix [end_hash (i_min i); end_hash (i_max i); bool_hash (i_include_min i); bool_hash (i_include_max i)].

  (** attrs hashes of VersionEmpty and VersionUnion (version_sets.py:340, 1022) *)
  Definition set_hash (a : vset) : N :=
    match a with
    | Empty => mix [6%N]
    | Item i => item_hash i
    | Union items => mix [7%N; mix (map item_hash items)]
    end.

  Definition same_spec (s u : spec) : bool := N.eqb (spec_hash s) (spec_hash u) && spec_eqb s u.
  Definition same_set (a b : vset) : bool := N.eqb (set_hash a) (set_hash b) && set_eqb a b.

  (** functions.py:28-39 *)
  Definition parse_version_c (s : pstr) : act version :=
    cached str_eqb c_version put_version s (lift (parse_version s)).

  (** functions.py:42-53 *)
  Definition parse_specifier_c (s : pstr) : act spec :=
    cached str_eqb c_specifier put_specifier s (lift (parse_specifier s)).

  (** [reduce(f, map(g, xs))] where [g] goes through a cache *)
  Section ReduceCached.
    Context {A : Type} (f : vset -> vset -> result vset) (g : A -> act vset).
    Fixpoint reduce_from_c (acc : vset) (xs : list A) : act vset :=
      match xs with
      | [] => lift (Ok acc)
      | x :: xs' => andThen (g x) (fun y => andThen (lift (f acc y)) (fun acc' => reduce_from_c acc' xs'))
      end.
    Definition reduce_map_c (xs : list A) : act vset :=
      match xs with
      | [] => lift (Err TypeError)
      | x :: xs' => andThen (g x) (fun y => reduce_from_c y xs')
      end.
  End ReduceCached.

  (** converters.py:58-84 *)
  Fixpoint specifier_to_version_set_c (s : spec) : act vset :=
    cached same_spec c_convert put_convert s
      (match s with
       | One t v => lift (op_translate t v)
       | Never => lift (Ok Empty)
       | Always => lift (Ok UNIVERSAL_SET)
       | AllOf ss => reduce_map_c intersection specifier_to_version_set_c ss
       | AnyOf ss => reduce_map_c union specifier_to_version_set_c ss
       end).

  (** parsers.py:269-270, functions.py:56-67: the parsers called here are not
      cached, the conversion is. *)
  Definition parse_version_set_c (s : pstr) : act vset :=
    cached str_eqb c_set put_set s (andThen (lift (parse_specifier s)) specifier_to_version_set_c).

  Section MapCached.
    Context {A B : Type} (f : A -> act B).
    Fixpoint mapM_c (xs : list A) : act (list B) :=
      match xs with
      | [] => lift (Ok [])
      | x :: xs' => andThen (f x) (fun y => andThen (mapM_c xs') (fun ys => lift (Ok (y :: ys))))
      end.
  End MapCached.

  (** converters.py:94-117 *)
  Definition item_to_specifier_c (i : item) : act spec :=
    cached same_set c_revert put_revert (Item i) (lift (item_to_specifier i)).

  (** converters.py:94-124 *)
  Definition version_set_to_specifier_c (a : vset) : act spec :=
    cached same_set c_revert put_revert a
      (match a with
       | Empty => lift (Ok Never)
       | Item i => lift (item_to_specifier i)
       | Union items =>
           andThen (lift (exclude_version items)) (fun e =>
             match e with
             | Some v => lift (Ok (unpin_version v))
             | None => andThen (mapM_c item_to_specifier_c items) (fun ss => lift (Ok (any_of ss)))
             end)
       end).

  (** converters.py:41-52 *)
  Definition simplify_c (s : spec) : act spec :=
    andThen (specifier_to_version_set_c s) version_set_to_specifier_c.

  (** What a program may call, and what it gets back. *)
  Inductive call :=
  | ParseVersion (s : pstr)
  | ParseSpecifier (s : pstr)
  | ParseVersionSet (s : pstr)
  | ToVersionSet (p : spec)
  | ToSpecifier (a : vset)
  | Simplify (p : spec).

  Inductive answer := AVersion (v : version) | ASpec (p : spec) | ASet (a : vset).

  Definition give {A} (wrap : A -> answer) (m : act A) : act answer := andThen m (fun a => lift (Ok (wrap a))).

  Definition do_call (c : call) : act answer :=
    match c with
    | ParseVersion s => give AVersion (parse_version_c s)
    | ParseSpecifier s => give ASpec (parse_specifier_c s)
    | ParseVersionSet s => give ASet (parse_version_set_c s)
    | ToVersionSet p => give ASet (specifier_to_version_set_c p)
    | ToSpecifier a => give ASpec (version_set_to_specifier_c a)
    | Simplify p => give ASpec (simplify_c p)
    end.

  (** A process starts with empty caches and makes one call after the other. *)
  Fixpoint do_calls (cs : list call) (d : caches) : caches :=
    match cs with
    | [] => d
    | c :: cs' => do_calls cs' (snd (do_call c d))
    end.

  Definition answer_after (cs : list call) (c : call) : result answer :=
    fst (do_call c (do_calls cs no_caches)).
End Hashes.
