(** [Release.next_at] with all its arguments ([versions/segments/release.py]). *)

From Coq Require Import List ZArith.
From Verif Require Import Py Segments.
Open Scope Z_scope.

(** release.py:302-317 *)
Definition rel_next_at_with (r : release) (i default padding : Z) : result release :=
  let* x := rel_get_at r i default in
  let* updated := rel_set_at r i (x + 1) in
  let* s := rel_slice updated (i + 1) in
  rel_pad_to s (rel_precision updated) padding.
