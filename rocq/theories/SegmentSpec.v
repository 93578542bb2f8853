(** Specification vocabulary for the segments on their own and for Python's
    version. *)

From Coq Require Import List ZArith NArith String Bool.
From Verif Require Import Py Segments Version Spec Grammar.
Import ListNotations.
Open Scope Z_scope.

(** The words each class of tags can be created from. *)
Definition tag_words (c : tag_class) : list pstr :=
  let pre := pre_words ++ [lit "candidate"] in
  match c with
  | AnyTag => pre ++ post_words ++ dev_words
  | PreTag => pre
  | PostTag => post_words
  | DevTag => dev_words
  end.

(** [s] is a word of letters followed by nothing, or by an optional separator
    and digits. *)
Definition spelled_tag (s w : pstr) (n : Z) : Prop :=
  w <> [] /\ Forall letter w
  /\ (s = w /\ n = 0
      \/ exists o d, opt separator o /\ digits d /\ s = w ++ one o ++ d /\ n = number d).

(** The release levels of [sys.version_info], in order. *)
Definition LEVELS : list pstr := map lit ["alpha"; "beta"; "candidate"; "final"]%string.

(** What CPython puts in [sys.version_info]: final releases have serial 0. *)
Definition python_tuple (mj mn mc : Z) (ph : pstr) (x : Z) : Prop :=
  0 <= mj /\ 0 <= mn /\ 0 <= mc /\ 0 <= x /\ In ph LEVELS /\ (ph = lit "final" -> x = 0).

(** The tuple with its level as a number. *)
Definition numbered (mj mn mc : Z) (ph : pstr) (x : Z) : list Z := [mj; mn; mc; position ph LEVELS; x].
