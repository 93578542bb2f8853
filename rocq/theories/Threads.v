(** The cached functions of [versions/functions.py] and [versions/converters.py]
    when several threads call them: the same code as in Caches.v, with the
    places shown where another thread can go on. *)

From Coq Require Import List ZArith NArith String Bool.
From Verif Require Import Py Segments Version VersionSets Operators SetStrings Specifiers Parsers Caches.
Import ListNotations.

(** Code that looks into the dictionaries and stores into them.  Other threads
    may run before each of these steps; a single lookup and a single store are
    taken to happen at once (as they do in [lru_cache(None)] for keys whose
    [__eq__] and [__hash__] do not let go of the interpreter lock). *)
Inductive prog (A : Type) : Type :=
| Done (r : result A)
| See (k : caches -> prog A)
| Write (f : caches -> caches) (p : prog A).
Arguments Done {A}. Arguments See {A}. Arguments Write {A}.

Definition pure {A} (r : result A) : prog A := Done r.
Fixpoint andAfter {A B} (m : prog A) (k : A -> prog B) : prog B :=
  match m with
  | Done (Ok a) => k a
  | Done (Err e) => Done (Err e)
  | See g => See (fun c => andAfter (g c) k)
  | Write f p => Write f (andAfter p k)
  end.

(** utils.py:17, the wrapper made by [lru_cache(None)]: look, call, store.  The
    dictionary may have changed in the meantime, also for the same key; the
    value stored last counts. *)
Definition cached_t {K V} (same : K -> K -> bool) (get : caches -> list (K * V))
    (put : list (K * V) -> caches -> caches) (k : K) (body : prog V) : prog V :=
  See (fun c =>
    match lookup same k (get c) with
    | Some v => Done (Ok v)
    | None => andAfter body (fun v => Write (fun c' => put ((k, v) :: get c') c') (Done (Ok v)))
    end).

(** What a thread gets when no other one runs. *)
Fixpoint undisturbed {A} (m : prog A) (c : caches) : result A * caches :=
  match m with
  | Done r => (r, c)
  | See k => undisturbed (k c) c
  | Write f p => undisturbed p (f c)
  end.

Section Hashes.
  Context (h : op_type -> N) (mix : list N -> N).

  (** functions.py:28-39 *)
  Definition parse_version_t (s : pstr) : prog version :=
    cached_t str_eqb c_version put_version s (pure (parse_version s)).

  (** functions.py:42-53 *)
  Definition parse_specifier_t (s : pstr) : prog spec :=
    cached_t str_eqb c_specifier put_specifier s (pure (parse_specifier s)).

  (** [reduce(f, map(g, xs))] where [g] goes through a cache *)
  Section ReduceCached.
    Context {A : Type} (f : vset -> vset -> result vset) (g : A -> prog vset).
    Fixpoint reduce_from_t (acc : vset) (xs : list A) : prog vset :=
      match xs with
      | [] => pure (Ok acc)
      | x :: xs' => andAfter (g x) (fun y => andAfter (pure (f acc y)) (fun acc' => reduce_from_t acc' xs'))
      end.
    Definition reduce_map_t (xs : list A) : prog vset :=
      match xs with
      | [] => pure (Err TypeError)
      | x :: xs' => andAfter (g x) (fun y => reduce_from_t y xs')
      end.
  End ReduceCached.

  (** converters.py:58-84 *)
  Fixpoint specifier_to_version_set_t (s : spec) : prog vset :=
    cached_t (same_spec h mix) c_convert put_convert s
      (match s with
       | One t v => pure (op_translate t v)
       | Never => pure (Ok Empty)
       | Always => pure (Ok UNIVERSAL_SET)
       | AllOf ss => reduce_map_t intersection specifier_to_version_set_t ss
       | AnyOf ss => reduce_map_t union specifier_to_version_set_t ss
       end).

  (** parsers.py:269-270, functions.py:56-67 *)
  Definition parse_version_set_t (s : pstr) : prog vset :=
    cached_t str_eqb c_set put_set s (andAfter (pure (parse_specifier s)) specifier_to_version_set_t).

  Section MapCached.
    Context {A B : Type} (f : A -> prog B).
    Fixpoint mapM_t (xs : list A) : prog (list B) :=
      match xs with
      | [] => pure (Ok [])
      | x :: xs' => andAfter (f x) (fun y => andAfter (mapM_t xs') (fun ys => pure (Ok (y :: ys))))
      end.
  End MapCached.

  (** converters.py:94-117 *)
  Definition item_to_specifier_t (i : item) : prog spec :=
    cached_t (same_set mix) c_revert put_revert (Item i) (pure (item_to_specifier i)).

  (** converters.py:94-124 *)
  Definition version_set_to_specifier_t (a : vset) : prog spec :=
    cached_t (same_set mix) c_revert put_revert a
      (match a with
       | Empty => pure (Ok Never)
       | Item i => pure (item_to_specifier i)
       | Union items =>
           andAfter (pure (exclude_version items)) (fun e =>
             match e with
             | Some v => pure (Ok (unpin_version v))
             | None => andAfter (mapM_t item_to_specifier_t items) (fun ss => pure (Ok (any_of ss)))
             end)
       end).

  (** converters.py:41-52 *)
  Definition simplify_t (s : spec) : prog spec :=
    andAfter (specifier_to_version_set_t s) version_set_to_specifier_t.

  Definition give_t {A} (wrap : A -> answer) (m : prog A) : prog answer := andAfter m (fun a => pure (Ok (wrap a))).

  Definition do_call_t (c : call) : prog answer :=
    match c with
    | ParseVersion s => give_t AVersion (parse_version_t s)
    | ParseSpecifier s => give_t ASpec (parse_specifier_t s)
    | ParseVersionSet s => give_t ASet (parse_version_set_t s)
    | ToVersionSet p => give_t ASet (specifier_to_version_set_t p)
    | ToSpecifier a => give_t ASpec (version_set_to_specifier_t a)
    | Simplify p => give_t ASpec (simplify_t p)
    end.

  (** A thread makes one call after the other. *)
  Record thread := Thread {
    now : option (call * prog answer);
    later : list call;
    answers : list (call * result answer) }.

  Definition fresh (cs : list call) : thread := Thread None cs [].

  (** One step of a thread. *)
  Definition step (d : caches) (t : thread) : caches * thread :=
    match now t with
    | None => match later t with
              | [] => (d, t)
              | c :: cs => (d, Thread (Some (c, do_call_t c)) cs (answers t))
              end
    | Some (c, Done r) => (d, Thread None (later t) (answers t ++ [(c, r)]))
    | Some (c, See k) => (d, Thread (Some (c, k d)) (later t) (answers t))
    | Some (c, Write f p) => (f d, Thread (Some (c, p)) (later t) (answers t))
    end.

  (** A step of the thread with number [n], if there is one. *)
  Fixpoint step_at (n : nat) (d : caches) (ts : list thread) : caches * list thread :=
    match ts, n with
    | [], _ => (d, [])
    | t :: ts', O => let (d', t') := step d t in (d', t' :: ts')
    | t :: ts', S n' => let (d', ts'') := step_at n' d ts' in (d', t :: ts'')
    end.

  (** The scheduler says which thread goes on. *)
  Fixpoint schedule (ns : list nat) (d : caches) (ts : list thread) : caches * list thread :=
    match ns with
    | [] => (d, ts)
    | n :: ns' => let (d', ts') := step_at n d ts in schedule ns' d' ts'
    end.

  (** The threads of a process after some steps; [css] has the calls of each. *)
  Definition threads_after (css : list (list call)) (ns : list nat) : list thread :=
    snd (schedule ns no_caches (map fresh css)).

  Definition finished (t : thread) : Prop := now t = None /\ later t = [].
End Hashes.
