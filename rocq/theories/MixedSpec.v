(** What is said of sets of versions of two classes, and of sets whose versions
    are replaced by others in the same order. *)

From Coq Require Import List ZArith NArith String Bool.
From Verif Require Import Py Segments Version VersionSets.
Import ListNotations.

(** Neither of the two sets that mention no version. *)
Definition proper (a : vset) : Prop := a <> Empty /\ a <> UNIVERSAL_SET.

(** The lowest of the points and ranges of a set. *)
Definition leads (i : item) (a : vset) : Prop :=
  match a with
  | Empty => False
  | Item j => i = j
  | Union items => exists rest, items = i :: rest
  end.

(** Two ranges going on forever in the same direction. *)
Definition same_way (s o : item) : Prop :=
  i_min s = None /\ i_min o = None \/ i_max s = None /\ i_max o = None.

(** It can be told without comparing versions that [s] does not include [o]. *)
Definition misses (s o : item) : Prop :=
  (exists v, s = Point v) \/ i_min o = None /\ i_min s <> None \/ i_min s = None /\ i_max o = None.

(** Every version of a set replaced. *)
Definition rename_item (f : version -> version) (i : item) : item :=
  match i with
  | Point v => Point (f v)
  | Range min max imin imax => Range (option_map f min) (option_map f max) imin imax
  end.
Definition renamed (f : version -> version) (a : vset) : vset :=
  match a with
  | Empty => Empty
  | Item i => Item (rename_item f i)
  | Union items => Union (map (rename_item f) items)
  end.
Definition in_order (f : version -> version) : Prop := forall v w, v_cmp (f v) (f w) = v_cmp v w.

(** Every epoch raised. *)
Definition moved (k : Z) (v : version) : version :=
  Version (v_epoch v + k) (v_release v) (v_pre v) (v_post v) (v_dev v) (v_local v).
