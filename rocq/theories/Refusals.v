(** The messages of the exceptions raised by the constructors and by
    [ItemsDifference]: once more the functions of [VersionSets.v], [Groups.v]
    and [Stepper.v], with the text each [raise] gives.  [C112_same] says that
    without the texts they are those functions.  The constructors of releases,
    local segments, tags and operators are in [Messages.v]. *)

From Coq Require Import List ZArith NArith String Bool.
From Verif Require Import Py Segments Version VersionSets Operators Specifiers Groups Stepper Messages.
Import ListNotations.
Open Scope Z_scope.

(** version_sets.py:380, 381, 383 *)
Definition MIN_MAX_CONSTRAINT : pstr := lit "version ranges expect `min <= max`, got `min > max`".
Definition RANGE_NOT_POINT : pstr := lit "version range is not a point".
Definition CAN_NOT_INCLUDE_INFINITY : pstr := lit "ranges can not contain infinities".
(** version_sets.py:1005, 1006 *)
Definition NO_ITEMS : pstr := lit "expected at least 2 items, 0 found".
Definition ONE_ITEM : pstr := lit "expected at least 2 items, 1 found; consider using it directly".
(** specifiers.py:89, 90 *)
Definition NO_SPECIFIERS : pstr := lit "expected at least 2 specifiers, 0 found".
Definition ONE_SPECIFIER : pstr := lit "expected at least 2 specifiers, 1 found; consider using it directly".
(** version_sets.py:1199, 1200 *)
Definition ALREADY_PREPARED : pstr := lit "`prepare` must be called exactly once".
Definition NOT_PREPARED : pstr := lit "`prepare` must be called before computing".

(** version_sets.py:399-407 *)
Definition told_range_new (min max : option version) (imin imax : bool) : told item :=
  if (match min with None => imin | _ => false end) then Told ValueError (Some CAN_NOT_INCLUDE_INFINITY)
  else if (match max with None => imax | _ => false end) then Told ValueError (Some CAN_NOT_INCLUDE_INFINITY)
  else if is_gt (b_cmp (lower_bound min) (upper_bound max)) then Told ValueError (Some MIN_MAX_CONSTRAINT)
  else Fine (Range min max imin imax).

(** version_sets.py:594-608, and the field of VersionPoint (930) *)
Definition told_item_version (i : item) : told version :=
  match i with
  | Point v => Fine v
  | Range min max _ _ =>
      if item_is_point i then
        match min with
        | Some v => Fine v
        | None => match max with Some v => Fine v | None => Told ValueError (Some RANGE_NOT_POINT) end
        end
      else Told ValueError (Some RANGE_NOT_POINT)
  end.

(** version_sets.py:1009-1014, 1028-1030 *)
Definition told_union_new (items : list item) : told vset :=
  match items with
  | [] => Told ValueError (Some NO_ITEMS)
  | [_] => Told ValueError (Some ONE_ITEM)
  | _ => Fine (Union items)
  end.

(** specifiers.py:93-98 *)
Definition told_check_specifiers (ss : list spec) : told unit :=
  match ss with
  | [] => Told TypeError (Some NO_SPECIFIERS)
  | _ => if (Z.of_nat (List.length ss) =? 1) then Told TypeError (Some ONE_SPECIFIER) else Fine tt
  end.

(** specifiers.py:101-113, 147-159 *)
Definition told_any_new (ss : list spec) : told spec := let! _ := told_check_specifiers ss in Fine (AnyOf ss).
Definition told_all_new (ss : list spec) : told spec := let! _ := told_check_specifiers ss in Fine (AllOf ss).

(** version_sets.py:1221-1227 *)
Definition told_check_prepared (s : stepper) : told unit :=
  if is_not_prepared s then Told ValueError (Some NOT_PREPARED) else Fine tt.
Definition told_check_not_prepared (s : stepper) : told unit :=
  if is_prepared s then Told ValueError (Some ALREADY_PREPARED) else Fine tt.

(** version_sets.py:1263-1269 *)
Definition told_prepare (s : stepper) : told stepper :=
  let! _ := told_check_not_prepared s in untold (st_prepare s).

(** version_sets.py:1271-1310; what the operations on items raise is not told *)
Definition told_step (s : stepper) : told (stepper * bool) :=
  let! _ := told_check_prepared s in untold (st_step s).

(** version_sets.py:1321-1326 *)
Definition told_compute (s : stepper) : told (stepper * list item) :=
  let! p := told_prepare s in
  untold (let* q := st_loop (st_fuel s) p in Ok (q, st_result q)).
