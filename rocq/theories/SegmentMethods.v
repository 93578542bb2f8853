(** The methods of segments that [Segments.v] and [Version.v] write only inside
    versions ([versions/segments/release.py], [versions/segments/epoch.py],
    [versions/segments/local.py], [versions/segments/tags.py]), and the methods
    of versions that call them, as written. *)

From Coq Require Import List ZArith.
From Verif Require Import Py Segments Version Padding.
Import ListNotations.
Open Scope Z_scope.

(** segments/constants.py:30 *)
Definition PATCH : Z := MICRO.

(** release.py:192-236 *)
Definition rel_set_major (r : release) (x : Z) : result release := rel_set_at r MAJOR x.
Definition rel_set_minor (r : release) (x : Z) : result release := rel_set_at r MINOR x.
Definition rel_set_micro (r : release) (x : Z) : result release := rel_set_at r MICRO x.
Definition rel_set_patch (r : release) (x : Z) : result release := rel_set_at r PATCH x.

(** release.py:292-300 *)
Definition rel_next_patch (r : release) : result release := rel_next_at r PATCH.

(** release.py:65-106: from_iterable and from_parts; set_parts calls the
    constructor again *)
Definition rel_from_parts (parts : list Z) : result release := release_new parts.
Definition rel_set_parts (r : release) (parts : list Z) : result release := release_new parts.

(** local.py:48-101 *)
Definition local_from_parts (parts : list local_part) : result (list local_part) := local_new parts.
Definition local_set_parts (l parts : list local_part) : result (list local_part) := local_new parts.

(** epoch.py:22-32, 54-71: [evolve] calls the constructor again *)
Definition epoch_create (value : Z) : Z := value.
Definition epoch_set_value (e value : Z) : Z := epoch_create value.
Definition epoch_next_value (e : Z) : Z := epoch_set_value e (e + 1).

(** tags.py:142-150, with its argument *)
Definition tag_next_phase_with (c : tag_class) (t : tag) (value : Z) : result (option tag) :=
  match dict_get PHASE_TO_NEXT (phase t) with
  | None => Ok None
  | Some p =>
      let* u := tag_set_phase c t p in
      let* w := tag_set_value c u value in
      Ok (Some w)
  end.

(** version.py:308-309, 320-364, 393-394 *)
Definition v_set_epoch_value (v : version) (value : Z) : version := set_epoch v (epoch_set_value (v_epoch v) value).
Definition v_next_epoch (v : version) : version := set_epoch v (epoch_next_value (v_epoch v)).
Definition v_set_major (v : version) (x : Z) : result version := rmap (set_release v) (rel_set_major (v_release v) x).
Definition v_set_minor (v : version) (x : Z) : result version := rmap (set_release v) (rel_set_minor (v_release v) x).
Definition v_set_micro (v : version) (x : Z) : result version := rmap (set_release v) (rel_set_micro (v_release v) x).
Definition v_set_patch (v : version) (x : Z) : result version := rmap (set_release v) (rel_set_patch (v_release v) x).

(** version.py:396-452 *)
Definition v_next_with (next : release -> result release) (v : version) : result version :=
  let* r := (if is_stable v then next (v_release v) else Ok (v_release v)) in
  Ok (set_release (without_tags_and_local v) r).
Definition v_next_major := v_next_with rel_next_major.
Definition v_next_minor := v_next_with rel_next_minor.
Definition v_next_micro := v_next_with rel_next_micro.
Definition v_next_patch := v_next_with rel_next_patch.
