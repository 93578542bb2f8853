(** [versions/version_sets.py] once more, counting how often two bounds of sets
    (versions or infinities) are compared: every [<], [>] or [==] between two of
    them that is evaluated counts once, those of [__attrs_post_init__]
    (version_sets.py:399-407) included.  Comparisons of flags, of items with [None]
    and of lengths are not counted.  What [list.sort] compares itself is counted
    by a function [w]: at most [w n] calls of [<] for [n] items, each of which
    compares at most four times (version_sets.py:552-581). *)

From Coq Require Import List ZArith Bool.
From Verif Require Import Py Segments Version VersionSets.
Import ListNotations.

Definition counted (A : Type) : Type := (A * nat)%type.
Definition free {A} (a : A) : counted A := (a, 0%nat).
Definition once {A} (a : A) : counted A := (a, 1%nat).
Definition next {A B} (m : counted A) (f : A -> counted B) : counted B :=
  (fst (f (fst m)), (snd m + snd (f (fst m)))%nat).
Definition attempt {A B} (m : counted (result A)) (f : A -> counted (result B)) : counted (result B) :=
  next m (fun r => match r with Ok a => f a | Err e => free (Err e) end).

Declare Scope counted_scope.
Notation "'let+' x := m 'in' k" := (next m (fun x => k)) (at level 200, x pattern, m at level 100, k at level 200) : counted_scope.
Notation "'let!' x := m 'in' k" := (attempt m (fun x => k)) (at level 200, x pattern, m at level 100, k at level 200) : counted_scope.
Open Scope counted_scope.

(** [not], [and] and [or] *)
Definition not_c (m : counted bool) : counted bool := let+ b := m in free (negb b).
Definition and_c (m n : counted bool) : counted bool := let+ b := m in if b then n else free false.
Definition or_c (m n : counted bool) : counted bool := let+ b := m in if b then free true else n.

(** One comparison each. *)
Definition lt_c (x y : ext version) : counted bool := once (is_lt (b_cmp x y)).
Definition gt_c (x y : ext version) : counted bool := once (is_gt (b_cmp x y)).
Definition eq_c (x y : ext version) : counted bool := once (is_eq (b_cmp x y)).
Definition same_c (x y : option version) : counted bool := once (o_eq x y).

(** version_sets.py:399-407 *)
Definition range_new_c (min max : option version) (imin imax : bool) : counted (result item) :=
  if (match min with None => imin | _ => false end) then free (Err ValueError)
  else if (match max with None => imax | _ => false end) then free (Err ValueError)
  else
    let+ b := gt_c (lower_bound min) (upper_bound max) in
    if b then free (Err ValueError) else free (Ok (Range min max imin imax)).

(** version_sets.py:399-407 again, inherited by points: a version is not above itself. *)
Definition point_new_c (v : version) : counted item := once (Point v).

(** version_sets.py:471-472 *)
Definition is_empty_or_point_c (i : item) : counted bool := eq_c (comparable_min i) (comparable_max i).

(** version_sets.py:474-484 *)
Definition is_lower_c (s o : item) : counted bool :=
  let+ b := lt_c (comparable_min s) (comparable_min o) in
  if b then free true
  else
    let+ b := gt_c (comparable_min s) (comparable_min o) in
    if b then free false else free (i_include_min s && i_exclude_min o).

(** version_sets.py:486-496 *)
Definition is_higher_c (s o : item) : counted bool :=
  let+ b := lt_c (comparable_max s) (comparable_max o) in
  if b then free false
  else
    let+ b := gt_c (comparable_max s) (comparable_max o) in
    if b then free true else free (i_include_max s && i_exclude_max o).

(** version_sets.py:498-508 *)
Definition is_strictly_lower_c (s o : item) : counted bool :=
  let+ b := lt_c (comparable_max s) (comparable_min o) in
  if b then free true
  else
    let+ b := gt_c (comparable_max s) (comparable_min o) in
    if b then free false else free (i_exclude_max s || i_exclude_min o).

(** version_sets.py:510-520 *)
Definition is_strictly_higher_c (s o : item) : counted bool :=
  let+ b := gt_c (comparable_min s) (comparable_max o) in
  if b then free true
  else
    let+ b := lt_c (comparable_min s) (comparable_max o) in
    if b then free false else free (i_exclude_min s || i_exclude_max o).

(** version_sets.py:522-529 *)
Definition is_left_adjacent_c (s o : item) : counted bool :=
  and_c (same_c (i_max s) (i_min o)) (free (Bool.eqb (i_include_max s) (i_exclude_min o))).
Definition is_right_adjacent_c (s o : item) : counted bool :=
  and_c (same_c (i_min s) (i_max o)) (free (Bool.eqb (i_include_min s) (i_exclude_max o))).
Definition is_adjacent_c (s o : item) : counted bool := or_c (is_left_adjacent_c s o) (is_right_adjacent_c s o).

(** version_sets.py:552-581; only its count is new, see [sort_c]. *)
Definition item_compare_c (s o : item) : counted comparison :=
  let+ b := gt_c (comparable_min s) (comparable_min o) in
  if b then free Gt
  else
    let+ b := lt_c (comparable_min s) (comparable_min o) in
    if b then free Lt
    else if Bool.eqb (i_include_min s) (i_exclude_min o) then free (if i_include_min s then Lt else Gt)
    else
      let+ b := gt_c (comparable_max s) (comparable_max o) in
      if b then free Gt
      else
        let+ b := lt_c (comparable_max s) (comparable_max o) in
        if b then free Lt
        else if Bool.eqb (i_include_max s) (i_exclude_max o) then free (if i_include_max s then Gt else Lt)
        else free Eq.

(** version_sets.py:411-413, 534-535: tuples are compared from the left, up to the
    first difference. *)
Definition item_eqb_c (s o : item) : counted bool :=
  and_c (and_c (and_c (same_c (i_min s) (i_min o)) (same_c (i_max s) (i_max o)))
               (free (Bool.eqb (i_include_min s) (i_include_min o))))
        (free (Bool.eqb (i_include_max s) (i_include_max o))).

Fixpoint items_eqb_c (xs ys : list item) : counted bool :=
  match xs, ys with
  | [], [] => free true
  | x :: xs', y :: ys' => and_c (item_eqb_c x y) (items_eqb_c xs' ys')
  | _, _ => free false
  end.

(** version_sets.py:340, 534-535, 1022 *)
Definition set_eqb_c (a b : vset) : counted bool :=
  match a, b with
  | Empty, Empty => free true
  | Item s, Item o => item_eqb_c s o
  | Union xs, Union ys => items_eqb_c xs ys
  | _, _ => free false
  end.

(** version_sets.py:344-348, 585-592, 948-955, 1100-1104 *)
Definition item_is_empty_c (i : item) : counted bool :=
  match i with Point _ => free false | _ => and_c (is_empty_or_point_c i) (free (negb (is_closed i))) end.
Definition item_is_point_c (i : item) : counted bool :=
  match i with Point _ => free true | _ => and_c (is_empty_or_point_c i) (free (is_closed i)) end.
Definition is_empty_c (a : vset) : counted bool :=
  match a with Empty => free true | Item i => item_is_empty_c i | Union _ => free false end.

(** version_sets.py:594-608, and the field of VersionPoint (930) *)
Definition item_version_c (i : item) : counted (result version) :=
  match i with
  | Point v => free (Ok v)
  | Range min max _ _ =>
      let+ b := item_is_point_c i in
      free (if b then
              match min with
              | Some v => Ok v
              | None => match max with Some v => Ok v | None => Err ValueError end
              end
            else Err ValueError)
  end.

(** version_sets.py:610-626 (ranges), 957-959 (points) *)
Definition item_contains_c (i : item) (v : version) : counted bool :=
  match i with
  | Point w => once (v_eq w v)
  | _ =>
      let+ b := lt_c (Fin v) (comparable_min i) in
      if b then free false else
      let+ b := and_c (free (i_exclude_min i)) (eq_c (Fin v) (comparable_min i)) in
      if b then free false else
      let+ b := gt_c (Fin v) (comparable_max i) in
      if b then free false else
      let+ b := and_c (free (i_exclude_max i)) (eq_c (Fin v) (comparable_max i)) in
      if b then free false else free true
  end.

(** [any] and [all] *)
Fixpoint any_c (f : item -> counted bool) (xs : list item) : counted bool :=
  match xs with [] => free false | x :: xs' => or_c (f x) (any_c f xs') end.
Fixpoint all_c (f : item -> counted bool) (xs : list item) : counted bool :=
  match xs with [] => free true | x :: xs' => and_c (f x) (all_c f xs') end.

(** version_sets.py:356-357, 1106-1107 *)
Definition contains_c (a : vset) (v : version) : counted bool :=
  match a with
  | Empty => free false
  | Item i => item_contains_c i v
  | Union items => any_c (fun i => item_contains_c i v) items
  end.

(** version_sets.py:637-638, 963-966: item against item *)
Definition item_includes_c (s o : item) : counted bool :=
  match s with
  | Point v =>
      or_c (item_is_empty_c o) (match o with Point w => once (v_eq v w) | _ => free false end)
  | _ =>
      match o with
      | Point w => item_contains_c s w
      | _ => and_c (not_c (is_lower_c o s)) (not_c (is_higher_c o s))
      end
  end.

(** version_sets.py:1118-1125 *)
Fixpoint includes_loop_c (selfs : list item) : list item -> counted bool :=
  match selfs with
  | [] => fun items => free (match items with [] => true | _ => false end)
  | s :: selfs' =>
      fix inner items :=
        match items with
        | [] => free true
        | i :: items' => let+ b := item_includes_c s i in if b then inner items' else includes_loop_c selfs' items
        end
  end.

(** version_sets.py:350-351, 630-643, 963-966, 1111-1125 *)
Definition includes_c (a b : vset) : counted bool :=
  match a with
  | Empty => is_empty_c b
  | Item (Point v) =>
      or_c (is_empty_c b) (match b with Item (Point w) => once (v_eq v w) | _ => free false end)
  | Item s =>
      match b with
      | Empty => free true
      | Item o => item_includes_c s o
      | Union items => all_c (item_includes_c s) items
      end
  | Union selfs => includes_loop_c selfs (extract b)
  end.

(** version_sets.py:660-661 *)
Definition intersects_range_c (s o : item) : counted bool :=
  and_c (not_c (is_strictly_lower_c o s)) (not_c (is_strictly_higher_c o s)).

(** version_sets.py:645-653, 968-969: item against item *)
Definition item_intersects_c (s o : item) : counted bool :=
  match s with
  | Point v => item_contains_c o v
  | _ => match o with Point w => item_contains_c s w | _ => intersects_range_c s o end
  end.

(** version_sets.py:1134-1144 *)
Fixpoint intersects_loop_c (selfs : list item) : list item -> counted bool :=
  match selfs with
  | [] => fun _ => free false
  | s :: selfs' =>
      fix inner items :=
        match items with
        | [] => free false
        | i :: items' =>
            let+ b := item_intersects_c s i in
            if b then free true
            else let+ h := is_higher_c i s in if h then intersects_loop_c selfs' items else inner items'
        end
  end.

(** version_sets.py:353-354, 645-658, 968-969, 1127-1144 *)
Definition intersects_c (a b : vset) : counted bool :=
  match a with
  | Empty => free false
  | Item (Point v) => contains_c b v
  | Item s =>
      match b with
      | Empty => free false
      | Item o => item_intersects_c s o
      | Union items => any_c (item_intersects_c s) items
      end
  | Union selfs => intersects_loop_c selfs (extract b)
  end.

Section Counts.

(** How often [list.sort] calls [<] on a list of so many items, at most. *)
Variable w : nat -> nat.

(** [list.sort()] (version_sets.py:1058) *)
Definition sort_c (xs : list item) : counted (list item) := (sort xs, 4 * w (List.length xs))%nat.

(** version_sets.py:1060-1079 *)
Fixpoint merge_loop_c (u : item -> item -> counted (result vset)) (cur : item) (rest : list item)
  : counted (result (list item)) :=
  match rest with
  | [] => free (Ok [cur])
  | x :: rest' =>
      let+ b := or_c (item_intersects_c cur x) (is_adjacent_c cur x) in
      if b then
        let! r := u cur x in
        match r with
        | Item i => merge_loop_c u i rest'
        | _ => free (Err InternalError)
        end
      else
        let! out := merge_loop_c u x rest' in
        free (Ok (cur :: out))
  end.

(** version_sets.py:1048-1084 *)
Definition merge_with_c (u : item -> item -> counted (result vset)) (sets : list vset) : counted (result vset) :=
  let extracted := flat_map extract sets in
  match extracted with
  | [] => free (Ok Empty)
  | _ =>
      if existsb item_is_universal extracted then free (Ok UNIVERSAL_SET)
      else
        let+ sorted := sort_c extracted in
        match sorted with
        | [] => free (Ok Empty)
        | x :: rest =>
            let! merged := merge_loop_c u x rest in
            match merged with
            | [i] => free (Ok (Item i))
            | _ => free (union_new merged)
            end
        end
  end.

(** version_sets.py:711-759 and 974-990 for two items *)
Fixpoint item_union_c (fuel : nat) (s o : item) : counted (result vset) :=
  match fuel with
  | O => free (Err RecursionError)
  | S fuel' =>
      let of sets := merge_with_c (item_union_c fuel') sets in
      match s with
      | Point v =>
          match o with
          | Point x => let+ b := once (v_eq v x) in if b then free (Ok (Item s)) else of [Item s; Item o]
          | _ => let+ b := item_contains_c o v in if b then free (Ok (Item o)) else of [Item s; Item o]
          end
      | Range smin smax simin simax =>
          match o with
          | Point x =>
              let+ b := item_contains_c s x in
              if b then free (Ok (Item s)) else
              let+ b := same_c (Some x) smin in
              if b then let! r := range_new_c smin smax true simax in free (Ok (Item r)) else
              let+ b := same_c (Some x) smax in
              if b then let! r := range_new_c smin smax simin true in free (Ok (Item r)) else
              of [Item s; Item o]
          | Range omin omax oimin oimax =>
              let+ b := and_c (not_c (is_adjacent_c s o)) (not_c (item_intersects_c s o)) in
              if b then of [Item s; Item o]
              else
                let+ l := is_lower_c s o in
                let '(umin, uimin) := if l then (smin, simin) else (omin, oimin) in
                let+ h := is_higher_c s o in
                let '(umax, uimax) := if h then (smax, simax) else (omax, oimax) in
                let! r := range_new_c umin umax uimin uimax in
                free (Ok (Item r))
          end
      end
  end.

(** version_sets.py:1048-1092 *)
Definition merge_c (sets : list vset) : counted (result vset) := merge_with_c (item_union_c depth) sets.

(** version_sets.py:362-363, 711-759, 974-990, 1168-1169 *)
Definition union_c (a b : vset) : counted (result vset) :=
  match a with
  | Empty => free (Ok b)
  | Item s =>
      match b with
      | Empty => free (Ok a)
      | Item o => item_union_c depth s o
      | Union _ =>
          match s with
          | Point v => let+ c := contains_c b v in if c then free (Ok b) else merge_c [a; b]
          | _ => merge_c [b; a]
          end
      end
  | Union _ => merge_c [a; b]
  end.

(** version_sets.py:663-704, 971-972 for two items *)
Definition item_intersection_c (s o : item) : counted (result vset) :=
  match s with
  | Point v => let+ b := item_contains_c o v in free (Ok (if b then Item s else Empty))
  | Range smin smax simin simax =>
      match o with
      | Point x => let+ b := item_contains_c s x in free (Ok (if b then Item o else Empty))
      | Range omin omax oimin oimax =>
          let+ l := is_lower_c s o in
          let+ apart := (if l then is_strictly_lower_c s o else is_strictly_higher_c s o) in
          if apart then free (Ok Empty)
          else
            let '(imin, iimin) := if l then (omin, oimin) else (smin, simin) in
            let+ h := is_higher_c s o in
            let '(imax, iimax) := if h then (omax, oimax) else (smax, simax) in
            let! r := range_new_c imin imax iimin iimax in
            let+ p := item_is_point_c r in
            if p then
              let! v := item_version_c r in
              let+ i := point_new_c v in free (Ok (Item i))
            else free (Ok (Item r))
      end
  end.

(** version_sets.py:1146-1163 *)
Fixpoint intersection_loop_c (selfs : list item) : list item -> counted (result (list item)) :=
  match selfs with
  | [] => fun _ => free (Ok [])
  | s :: selfs' =>
      fix inner items :=
        match items with
        | [] => free (Ok [])
        | i :: items' =>
            let! r := item_intersection_c s i in
            let! rest := (let+ h := is_higher_c i s in if h then intersection_loop_c selfs' items else inner items') in
            free (Ok (match r with Item x => x :: rest | _ => rest end))
        end
  end.

(** version_sets.py:1165-1166 *)
Definition union_intersection_c (selfs : list item) (b : vset) : counted (result vset) :=
  let! items := intersection_loop_c selfs (extract b) in
  merge_c (map Item items).

(** version_sets.py:359-360, 663-709, 971-972, 1165-1166 *)
Definition intersection_c (a b : vset) : counted (result vset) :=
  match a with
  | Empty => free (Ok Empty)
  | Item (Point v) => let+ c := contains_c b v in free (Ok (if c then a else Empty))
  | Item s =>
      match b with
      | Empty => free (Ok Empty)
      | Item o => item_intersection_c s o
      | Union items => union_intersection_c items a
      end
  | Union selfs => union_intersection_c selfs b
  end.

(** version_sets.py:761-826, 992-993 for two items *)
Definition item_difference_c (s o : item) : counted (result vset) :=
  match s with
  | Point v => let+ b := item_contains_c o v in free (Ok (if b then Empty else Item s))
  | Range smin smax simin simax =>
      match o with
      | Point x =>
          let+ b := not_c (item_contains_c s x) in
          if b then free (Ok (Item s)) else
          let+ b := same_c (Some x) smin in
          if b then
            if negb simin then free (Ok (Item s))
            else let! r := range_new_c smin smax false simax in free (Ok (Item r))
          else
          let+ b := same_c (Some x) smax in
          if b then
            if negb simax then free (Ok (Item s))
            else let! r := range_new_c smin smax simin false in free (Ok (Item r))
          else
            let! l := range_new_c smin (Some x) simin false in
            let! r := range_new_c (Some x) smax false simax in
            merge_c [Item l; Item r]
      | Range omin omax oimin oimax =>
          let+ b := not_c (item_intersects_c s o) in
          if b then free (Ok (Item s))
          else
            let! before :=
              (let+ l := is_lower_c s o in
               if negb l then free (Ok None)
               else
                 let+ b := same_c smin omin in
                 if b then
                   match smin with
                   | Some v => let+ p := point_new_c v in free (Ok (Some p))
                   | None => free (Err ValueError)
                   end
                 else let! r := range_new_c smin omin simin (negb oimin) in free (Ok (Some r))) in
            let! after :=
              (let+ h := is_higher_c s o in
               if negb h then free (Ok None)
               else
                 let+ b := same_c smax omax in
                 if b then
                   match smax with
                   | Some v => let+ p := point_new_c v in free (Ok (Some p))
                   | None => free (Err ValueError)
                   end
                 else let! r := range_new_c omax smax (negb oimax) simax in free (Ok (Some r))) in
            match before, after with
            | None, None => free (Ok Empty)
            | None, Some a => free (Ok (Item a))
            | Some b, None => free (Ok (Item b))
            | Some b, Some a => merge_c [Item b; Item a]
            end
      end
  end.

(** version_sets.py:833-853 *)
Fixpoint difference_iterator_c (current : item) (items : list item) : counted (result (list item)) :=
  match items with
  | [] => free (Ok [current])
  | i :: items' =>
      let+ b := is_strictly_lower_c i current in
      if b then difference_iterator_c current items'
      else
        let+ b := is_strictly_higher_c i current in
        if b then free (Ok [current])
        else
          let! d := item_difference_c current i in
          match d with
          | Union [l; r] => let! rest := difference_iterator_c r items' in free (Ok (l :: rest))
          | Union _ => free (Err ValueError)
          | Item c => difference_iterator_c c items'
          | Empty => difference_iterator_c current items'
          end
  end.

(** version_sets.py:1271-1310 *)
Definition d_step_c (st : dstate) : counted (result (dstate * bool)) :=
  match d_current st, d_other st with
  | Some cur, Some other =>
      let+ b := is_strictly_lower_c other cur in
      if b then free (Ok (next_other_current st))
      else
        let+ b := is_strictly_higher_c other cur in
        if b then free (Ok (next_current true st))
        else
          let! d := item_difference_c cur other in
          match d with
          | Union [l; r] => free (Ok (next_other_current (d_set_current (d_append st l) r)))
          | Union _ => free (Err ValueError)
          | Empty => free (Ok (next_current false st))
          | Item i =>
              let st' := d_set_current st i in
              let+ h := is_higher_c i other in
              if h then free (Ok (next_other_current st'))
              else free (Ok (next_current true st'))
          end
  | _, _ => free (Ok (st, false))
  end.

(** version_sets.py:1312-1319 *)
Fixpoint d_loop_c (fuel : nat) (st : dstate) : counted (result dstate) :=
  match fuel with
  | O => free (Err RecursionError)
  | S fuel' =>
      let! p := d_step_c st in
      if snd p then d_loop_c fuel' (fst p) else free (Ok (fst p))
  end.

(** version_sets.py:1263-1269, 1321-1326 *)
Definition items_difference_c (items others : list item) : counted (result (list item)) :=
  let '(cur, items') := next_or_none items in
  let '(other, others') := next_or_none others in
  let! st := d_loop_c (S (List.length items + List.length others)) (DState items' others' cur other []) in
  free (Ok (d_result st)).

(** version_sets.py:365-366, 761-831, 992-993, 1171-1173 *)
Definition difference_c (a b : vset) : counted (result vset) :=
  match a with
  | Empty => free (Ok Empty)
  | Item (Point v) => let+ c := contains_c b v in free (Ok (if c then Empty else a))
  | Item s =>
      match b with
      | Empty => free (Ok a)
      | Item o => item_difference_c s o
      | Union items =>
          let! ds := difference_iterator_c s items in
          merge_c (map Item ds)
      end
  | Union selfs =>
      let! ds := items_difference_c selfs (extract b) in
      merge_c (map Item ds)
  end.

(** version_sets.py:371-372, 855-856, 995-996, 1175-1176 *)
Definition complement_c (a : vset) : counted (result vset) :=
  match a with
  | Empty => free (Ok UNIVERSAL_SET)
  | _ => difference_c UNIVERSAL_SET a
  end.

(** version_sets.py:153-162, 368-369 *)
Definition symmetric_difference_c (a b : vset) : counted (result vset) :=
  match a with
  | Empty => free (Ok b)
  | Item _ =>
      let! u := union_c a b in
      let! i := intersection_c a b in
      difference_c u i
  | Union _ => free (Err AttributeError)
  end.

End Counts.
