(** [versions/versioned.py] for items of any kind. *)

From Coq Require Import List ZArith NArith String Bool.
From Verif Require Import Py Segments Version Parsers VersionSets Operators Specifiers Typed GenericSets TypedSets TypedCaches.
Import ListNotations.

(** What looking up [__version__] finds.  [Text] is an instance of [str],
    [Bytes] one of [bytes], [Object] anything else, and [hashable] says whether
    the cache can use it as a key.  Simplification: lookups that raise something
    other than [AttributeError] and objects that claim to equal a string are
    left out. *)
Inductive attribute := Text (s : pstr) | Bytes (s : list N) | Object (hashable : bool).

(** An item, by its [__version__] if it has one. *)
Definition anything := option attribute.

(** versioned.py:20-26, 29-40: [isinstance] with a [runtime_checkable] protocol
    of one attribute looks for the attribute and not at its type. *)
Definition is_versioned (x : anything) : bool := match x with Some _ => true | None => false end.

(** versioned.py:43 *)
Definition has_version := is_versioned.

(** functions.py:28 (utils.py): the cache hashes its arguments. *)
Definition hashable (a : attribute) : bool := match a with Object b => b | _ => true end.

(** parsers.py:130-131: [VERSION.fullmatch] takes strings only. *)
Definition matched_text (a : attribute) : result pstr :=
  match a with Text s => Ok s | _ => Err TypeError end.

(** The way [get_version] passes arguments, see [arguments]: by position, with
    the type. *)
Definition BY_POSITION : nat := 1.

(** versioned.py:50-71, with the caches *)
Definition get_version_c (x : anything) (T : vtype) : tact typed :=
  match x with
  | None => tlift (Err AttributeError)
  | Some a =>
      if hashable a then
        match matched_text a with
        | Ok s => t_parse_version_c (Arguments BY_POSITION T s)
        | Err e => tlift (Err e)
        end
      else tlift (Err TypeError)
  end.

(** [get_version] in a program that has made the calls [cs]. *)
Definition get_version_after (h : op_type -> N) (mix : list N -> N) (cs : list tcall) (x : anything) (T : vtype) : result typed :=
  fst (get_version_c x T (t_do_calls h mix cs no_tcaches)).
