(** [hash()] of the objects of [Rich.v].  The hashes of specifiers and version
    sets are in [Caches.v]. *)

From Coq Require Import List ZArith NArith String Bool.
From Verif Require Import Py Segments Version Rich.
Import ListNotations.

(** attrs puts a number that depends on the class into the hash. *)
Definition class_code (c : class) : N :=
  match c with
  | CEpoch => 0 | CRelease => 1 | CTag AnyTag => 2 | CTag PreTag => 3 | CTag PostTag => 4
  | CTag DevTag => 5 | CLocal => 6 | CVersion => 7
  end%N.

(** Whether the compared fields are hashed: yes for epochs (epoch.py:13-17) and
    tags (tags.py:40-51); [hash=False] for [compare_parts] of releases
    (release.py:35) and locals (local.py:30-32) and for [compare_key] of versions
    (version.py:61).  The other fields of these are [eq=False], hence not hashed
    (release.py:32, local.py:27, version.py:43-58). *)
Definition fields_hashed (c : class) : bool :=
  match c with CEpoch | CTag _ => true | CRelease | CLocal | CVersion => false end.

(** [hz], [hs] and [mix] are the hashes of integers, strings and tuples; nothing
    is assumed of them. *)
Section Hash.
  Context (hz : Z -> N) (hs : pstr -> N) (mix : list N -> N).

  (** The infinities define [__eq__] and no [__hash__] (types.py:29-92), so
      hashing them is a TypeError. *)
  Fixpoint py_hash (x : pyval) : result N :=
    let fix hashes (xs : list pyval) : result (list N) :=
      match xs with
      | [] => Ok []
      | x :: xs' => let* a := py_hash x in let* l := hashes xs' in Ok (a :: l)
      end in
    match x with
    | VInt z => Ok (hz z)
    | VStr s => Ok (hs s)
    | VTuple xs => let* l := hashes xs in Ok (mix l)
    | VInfinity | VNegInfinity => Err TypeError
    | VObject c fs =>
        let* l := if fields_hashed c then hashes fs else Ok [] in
        Ok (mix (class_code c :: l))
    end.
End Hash.
