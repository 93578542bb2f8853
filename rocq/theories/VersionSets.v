(** [versions/version_sets.py]: empty sets, points, ranges, unions and the
    operations on them.  Rendering is in [SetStrings.v]. *)

From Coq Require Import List ZArith NArith String Bool.
From Verif Require Import Py Segments Version.
Import ListNotations.
Open Scope Z_scope.

(** VersionPoint and VersionRange (version_sets.py:390-397, 926-946). *)
Inductive item :=
| Point (v : version)
| Range (min max : option version) (include_min include_max : bool).

(** version_sets.py:1329: [VersionSet] *)
Inductive vset :=
| Empty
| Item (i : item)
| Union (items : list item).

(** A point is the range [[v, v]] (version_sets.py:934-946). *)
Definition i_min (i : item) : option version :=
  match i with Point v => Some v | Range m _ _ _ => m end.
Definition i_max (i : item) : option version :=
  match i with Point v => Some v | Range _ m _ _ => m end.
Definition i_include_min (i : item) : bool :=
  match i with Point _ => true | Range _ _ b _ => b end.
Definition i_include_max (i : item) : bool :=
  match i with Point _ => true | Range _ _ _ b => b end.

(** version_sets.py:415-421 *)
Definition i_exclude_min i := negb (i_include_min i).
Definition i_exclude_max i := negb (i_include_max i).

(** version_sets.py:423-433 *)
Definition lower_bound (m : option version) : ext version :=
  match m with None => NegInf | Some v => Fin v end.
Definition upper_bound (m : option version) : ext version :=
  match m with None => PosInf | Some v => Fin v end.
Definition comparable_min (i : item) : ext version := lower_bound (i_min i).
Definition comparable_max (i : item) : ext version := upper_bound (i_max i).

(** Comparison of versions and infinities. *)
Definition b_cmp (x y : ext version) : comparison := ext_cmp v_cmp x y.

(** Equality of optional versions ([==] on [Optional[Version]]). *)
Definition o_eq (x y : option version) : bool :=
  match x, y with
  | None, None => true
  | Some v, Some w => v_eq v w
  | _, _ => false
  end.

(** The constructor of VersionRange (version_sets.py:399-407), also reached
    through [evolve]. *)
Definition range_new (min max : option version) (imin imax : bool) : result item :=
  if (match min with None => imin | _ => false end) then Err ValueError
  else if (match max with None => imax | _ => false end) then Err ValueError
  else if is_gt (b_cmp (lower_bound min) (upper_bound max)) then Err ValueError
  else Ok (Range min max imin imax).

(** version_sets.py:435-442 *)
Definition is_left_closed i := i_include_min i.
Definition is_right_closed i := i_include_max i.
Definition is_closed i := is_left_closed i && is_right_closed i.

(** version_sets.py:444-451 *)
Definition is_left_open i := i_exclude_min i.
Definition is_right_open i := i_exclude_max i.
Definition is_open i := is_left_open i && is_right_open i.

(** version_sets.py:453-460 *)
Definition is_left_unbounded (i : item) : bool := match i_min i with None => true | Some _ => false end.
Definition is_right_unbounded (i : item) : bool := match i_max i with None => true | Some _ => false end.
Definition is_unbounded (i : item) : bool := is_left_unbounded i && is_right_unbounded i.

(** version_sets.py:462-469 *)
Definition is_left_bounded (i : item) : bool := match i_min i with None => false | Some _ => true end.
Definition is_right_bounded (i : item) : bool := match i_max i with None => false | Some _ => true end.
Definition is_bounded (i : item) : bool := is_left_bounded i && is_right_bounded i.

(** version_sets.py:471-472 *)
Definition is_empty_or_point i := is_eq (b_cmp (comparable_min i) (comparable_max i)).

(** version_sets.py:474-484 *)
Definition is_lower (s o : item) : bool :=
  match b_cmp (comparable_min s) (comparable_min o) with
  | Lt => true
  | Gt => false
  | Eq => i_include_min s && i_exclude_min o
  end.

(** version_sets.py:486-496 *)
Definition is_higher (s o : item) : bool :=
  match b_cmp (comparable_max s) (comparable_max o) with
  | Lt => false
  | Gt => true
  | Eq => i_include_max s && i_exclude_max o
  end.

(** version_sets.py:498-508 *)
Definition is_strictly_lower (s o : item) : bool :=
  match b_cmp (comparable_max s) (comparable_min o) with
  | Lt => true
  | Gt => false
  | Eq => i_exclude_max s || i_exclude_min o
  end.

(** version_sets.py:510-520 *)
Definition is_strictly_higher (s o : item) : bool :=
  match b_cmp (comparable_min s) (comparable_max o) with
  | Gt => true
  | Lt => false
  | Eq => i_exclude_min s || i_exclude_max o
  end.

(** version_sets.py:522-529 *)
Definition is_left_adjacent (s o : item) : bool :=
  o_eq (i_max s) (i_min o) && Bool.eqb (i_include_max s) (i_exclude_min o).
Definition is_right_adjacent (s o : item) : bool :=
  o_eq (i_min s) (i_max o) && Bool.eqb (i_include_min s) (i_exclude_max o).
Definition is_adjacent s o := is_left_adjacent s o || is_right_adjacent s o.

(** version_sets.py:411-413, 534-535: equality of the parameters; points and ranges are
    comparable with each other since VersionPoint is a VersionRange. *)
Definition item_eqb (s o : item) : bool :=
  o_eq (i_min s) (i_min o) && o_eq (i_max s) (i_max o)
  && Bool.eqb (i_include_min s) (i_include_min o)
  && Bool.eqb (i_include_max s) (i_include_max o).

Fixpoint items_eqb (xs ys : list item) : bool :=
  match xs, ys with
  | [], [] => true
  | x :: xs', y :: ys' => item_eqb x y && items_eqb xs' ys'
  | _, _ => false
  end.

(** attrs equality of VersionEmpty (version_sets.py:340) and of VersionUnion
    by items (version_sets.py:1022); sets of different classes are unequal. *)
Definition set_eqb (a b : vset) : bool :=
  match a, b with
  | Empty, Empty => true
  | Item s, Item o => item_eqb s o
  | Union xs, Union ys => items_eqb xs ys
  | _, _ => false
  end.

(** version_sets.py:552-581 *)
Definition item_compare (s o : item) : comparison :=
  match b_cmp (comparable_min s) (comparable_min o) with
  | Gt => Gt
  | Lt => Lt
  | Eq =>
      if Bool.eqb (i_include_min s) (i_exclude_min o) then
        if i_include_min s then Lt else Gt
      else
        match b_cmp (comparable_max s) (comparable_max o) with
        | Gt => Gt
        | Lt => Lt
        | Eq =>
            if Bool.eqb (i_include_max s) (i_exclude_max o) then
              if i_include_max s then Gt else Lt
            else Eq
        end
  end.

(** version_sets.py:540-550 *)
Definition item_lt s o := is_lt (item_compare s o).
Definition item_le s o := negb (is_gt (item_compare s o)).
Definition item_gt s o := is_gt (item_compare s o).
Definition item_ge s o := negb (is_lt (item_compare s o)).

(** version_sets.py:344-348, 585-592, 948-955, 1100-1104 *)
Definition item_is_empty (i : item) : bool :=
  match i with Point _ => false | _ => is_empty_or_point i && negb (is_closed i) end.
Definition item_is_point (i : item) : bool :=
  match i with Point _ => true | _ => is_empty_or_point i && is_closed i end.
Definition item_is_universal (i : item) : bool :=
  match i with Point _ => false | _ => is_unbounded i end.
Definition is_empty (a : vset) : bool :=
  match a with Empty => true | Item i => item_is_empty i | Union _ => false end.
Definition is_universal (a : vset) : bool :=
  match a with Empty => false | Item i => item_is_universal i | Union _ => false end.

(** version_sets.py:594-608, and the field of VersionPoint (930) *)
Definition item_version (i : item) : result version :=
  match i with
  | Point v => Ok v
  | Range min max _ _ =>
      if item_is_point i then
        match min with
        | Some v => Ok v
        | None => match max with Some v => Ok v | None => Err ValueError end
        end
      else Err ValueError
  end.

(** version_sets.py:610-626 (ranges), 957-959 (points) *)
Definition item_contains (i : item) (v : version) : bool :=
  match i with
  | Point w => v_eq w v
  | _ =>
      if is_lt (b_cmp (Fin v) (comparable_min i)) then false
      else if i_exclude_min i && is_eq (b_cmp (Fin v) (comparable_min i)) then false
      else if is_gt (b_cmp (Fin v) (comparable_max i)) then false
      else if i_exclude_max i && is_eq (b_cmp (Fin v) (comparable_max i)) then false
      else true
  end.

(** version_sets.py:356-357, 1106-1107 *)
Definition contains (a : vset) (v : version) : bool :=
  match a with
  | Empty => false
  | Item i => item_contains i v
  | Union items => existsb (fun i => item_contains i v) items
  end.

(** version_sets.py:923 *)
Definition UNIVERSAL : item := Range None None false false.
Definition UNIVERSAL_SET : vset := Item UNIVERSAL.

(** version_sets.py:1009-1014, 1028-1030: the constructor of VersionUnion *)
Definition union_new (items : list item) : result vset :=
  match items with
  | [] => Err ValueError
  | [_] => Err ValueError
  | _ => Ok (Union items)
  end.

(** version_sets.py:1040-1046 *)
Definition extract (a : vset) : list item :=
  match a with Empty => [] | Item i => [i] | Union items => items end.

(** *** includes *)

(** version_sets.py:637-638, 963-966: item against item *)
Definition item_includes (s o : item) : bool :=
  match s with
  | Point v =>
      item_is_empty o || match o with Point w => v_eq v w | _ => false end
  | _ =>
      match o with
      | Point w => item_contains s w
      | _ => negb (is_lower o s) && negb (is_higher o s)
      end
  end.

(** version_sets.py:1118-1125: the loop of VersionUnion.includes *)
Fixpoint includes_loop (selfs : list item) : list item -> bool :=
  match selfs with
  | [] => fun items => match items with [] => true | _ => false end
  | s :: selfs' =>
      fix inner items :=
        match items with
        | [] => true
        | i :: items' => if item_includes s i then inner items' else includes_loop selfs' items
        end
  end.

(** version_sets.py:350-351, 630-643, 963-966, 1111-1125 *)
Definition includes (a b : vset) : bool :=
  match a with
  | Empty => is_empty b
  | Item (Point v) =>
      is_empty b || match b with Item (Point w) => v_eq v w | _ => false end
  | Item s =>
      match b with
      | Empty => true
      | Item o => item_includes s o
      | Union items => forallb (item_includes s) items
      end
  | Union selfs => includes_loop selfs (extract b)
  end.

(** *** intersects *)

(** version_sets.py:660-661 *)
Definition intersects_range (s o : item) : bool :=
  negb (is_strictly_lower o s) && negb (is_strictly_higher o s).

(** version_sets.py:645-653, 968-969: item against item *)
Definition item_intersects (s o : item) : bool :=
  match s with
  | Point v => item_contains o v
  | _ => match o with Point w => item_contains s w | _ => intersects_range s o end
  end.

(** version_sets.py:1134-1144 *)
Fixpoint intersects_loop (selfs : list item) : list item -> bool :=
  match selfs with
  | [] => fun _ => false
  | s :: selfs' =>
      fix inner items :=
        match items with
        | [] => false
        | i :: items' =>
            if item_intersects s i then true
            else if is_higher i s then intersects_loop selfs' items
            else inner items'
        end
  end.

(** version_sets.py:353-354, 645-658, 968-969, 1127-1144 *)
Definition intersects (a b : vset) : bool :=
  match a with
  | Empty => false
  | Item (Point v) => contains b v
  | Item s =>
      match b with
      | Empty => false
      | Item o => item_intersects s o
      | Union items => existsb (item_intersects s) items
      end
  | Union selfs => intersects_loop selfs (extract b)
  end.

(** *** merge and union *)

(** [list.sort()] using [__lt__] (version_sets.py:1058): a stable sort, here
    by insertion. *)
Fixpoint insert (x : item) (ys : list item) : list item :=
  match ys with
  | [] => [x]
  | y :: ys' => if item_lt y x then y :: insert x ys' else x :: ys
  end.
Definition sort (xs : list item) : list item := fold_right insert [] xs.

(** version_sets.py:1060-1079: the merging loop.  [cur] is [last(merged)], the
    rest of [merged] is emitted; [u] is the item-level union. *)
Fixpoint merge_loop (u : item -> item -> result vset) (cur : item) (rest : list item)
  : result (list item) :=
  match rest with
  | [] => Ok [cur]
  | x :: rest' =>
      if item_intersects cur x || is_adjacent cur x then
        let* r := u cur x in
        match r with
        | Item i => merge_loop u i rest'
        | _ => Err InternalError
        end
      else
        let* out := merge_loop u x rest' in
        Ok (cur :: out)
  end.

(** version_sets.py:1048-1084 *)
Definition merge_with (u : item -> item -> result vset) (sets : list vset) : result vset :=
  let extracted := flat_map extract sets in
  match extracted with
  | [] => Ok Empty
  | _ =>
      if existsb item_is_universal extracted then Ok UNIVERSAL_SET
      else
        match sort extracted with
        | [] => Ok Empty          (* unreachable: extracted is not empty *)
        | x :: rest =>
            let* merged := merge_loop u x rest in
            match merged with
            | [i] => Ok (Item i)
            | _ => union_new merged
            end
        end
  end.

(** version_sets.py:711-759 and 974-990 for two items.  [union] calls
    [VersionUnion.of], which may call [union] again; [fuel] counts the nested
    calls and running out of it is RecursionError. *)
Fixpoint item_union (fuel : nat) (s o : item) : result vset :=
  match fuel with
  | O => Err RecursionError
  | S fuel' =>
      let of sets := merge_with (item_union fuel') sets in
      match s with
      | Point v =>
          match o with
          | Point w => if v_eq v w then Ok (Item s) else of [Item s; Item o]
          | _ => if item_contains o v then Ok (Item o) else of [Item s; Item o]
          end
      | Range smin smax simin simax =>
          match o with
          | Point w =>
              if item_contains s w then Ok (Item s)
              else if o_eq (Some w) smin then
                let* r := range_new smin smax true simax in Ok (Item r)
              else if o_eq (Some w) smax then
                let* r := range_new smin smax simin true in Ok (Item r)
              else of [Item s; Item o]
          | Range omin omax oimin oimax =>
              if negb (is_adjacent s o) && negb (item_intersects s o) then of [Item s; Item o]
              else
                let '(umin, uimin) := if is_lower s o then (smin, simin) else (omin, oimin) in
                let '(umax, uimax) := if is_higher s o then (smax, simax) else (omax, oimax) in
                let* r := range_new umin umax uimin uimax in
                Ok (Item r)
          end
      end
  end.

(** The depth of nested [union]/[merge] calls allowed; the theorems show that
    the results do not depend on it (from 2 on). *)
Definition depth : nat := 300.

(** version_sets.py:1048-1092: [VersionUnion.merge], [of], [of_iterable] *)
Definition merge (sets : list vset) : result vset := merge_with (item_union depth) sets.

(** version_sets.py:362-363, 711-759, 974-990, 1168-1169 *)
Definition union (a b : vset) : result vset :=
  match a with
  | Empty => Ok b
  | Item s =>
      match b with
      | Empty => Ok a
      | Item o => item_union depth s o
      | Union _ =>
          match s with
          | Point v => if contains b v then Ok b else merge [a; b]
          | _ => merge [b; a]
          end
      end
  | Union _ => merge [a; b]
  end.

(** *** intersection *)

(** version_sets.py:663-704, 971-972 for two items *)
Definition item_intersection (s o : item) : result vset :=
  match s with
  | Point v => Ok (if item_contains o v then Item s else Empty)
  | Range smin smax simin simax =>
      match o with
      | Point w => Ok (if item_contains s w then Item o else Empty)
      | Range omin omax oimin oimax =>
          if is_lower s o && is_strictly_lower s o then Ok Empty
          else if negb (is_lower s o) && is_strictly_higher s o then Ok Empty
          else
            let '(imin, iimin) := if is_lower s o then (omin, oimin) else (smin, simin) in
            let '(imax, iimax) := if is_higher s o then (omax, oimax) else (smax, simax) in
            let* r := range_new imin imax iimin iimax in
            if item_is_point r then
              let* v := item_version r in Ok (Item (Point v))
            else Ok (Item r)
      end
  end.

(** version_sets.py:1146-1163 *)
Fixpoint intersection_loop (selfs : list item) : list item -> result (list item) :=
  match selfs with
  | [] => fun _ => Ok []
  | s :: selfs' =>
      fix inner items :=
        match items with
        | [] => Ok []
        | i :: items' =>
            let* r := item_intersection s i in
            let* rest := (if is_higher i s then intersection_loop selfs' items
                          else inner items') in
            Ok (match r with Item x => x :: rest | _ => rest end)
        end
  end.

(** version_sets.py:1165-1166 *)
Definition union_intersection (selfs : list item) (b : vset) : result vset :=
  let* items := intersection_loop selfs (extract b) in
  merge (map Item items).

(** version_sets.py:359-360, 663-709, 971-972, 1165-1166 *)
Definition intersection (a b : vset) : result vset :=
  match a with
  | Empty => Ok Empty
  | Item (Point v) => Ok (if contains b v then a else Empty)
  | Item s =>
      match b with
      | Empty => Ok Empty
      | Item o => item_intersection s o
      | Union items => union_intersection items a
      end
  | Union selfs => union_intersection selfs b
  end.

(** *** difference *)

(** version_sets.py:761-826, 992-993 for two items *)
Definition item_difference (s o : item) : result vset :=
  match s with
  | Point v => Ok (if item_contains o v then Empty else Item s)
  | Range smin smax simin simax =>
      match o with
      | Point w =>
          if negb (item_contains s w) then Ok (Item s)
          else if o_eq (Some w) smin then
            if negb simin then Ok (Item s)
            else let* r := range_new smin smax false simax in Ok (Item r)
          else if o_eq (Some w) smax then
            if negb simax then Ok (Item s)
            else let* r := range_new smin smax simin false in Ok (Item r)
          else
            let* l := range_new smin (Some w) simin false in
            let* r := range_new (Some w) smax false simax in
            merge [Item l; Item r]
      | Range omin omax oimin oimax =>
          if negb (item_intersects s o) then Ok (Item s)
          else
            let* before :=
              (if negb (is_lower s o) then Ok None
               else if o_eq smin omin then
                 (* VersionPoint(self.min): equal mins, one included, so both are versions; VersionPoint(None) raises ValueError *)
                 match smin with Some v => Ok (Some (Point v)) | None => Err ValueError end
               else let* r := range_new smin omin simin (negb oimin) in Ok (Some r)) in
            let* after :=
              (if negb (is_higher s o) then Ok None
               else if o_eq smax omax then
                 match smax with Some v => Ok (Some (Point v)) | None => Err ValueError end
               else let* r := range_new omax smax (negb oimax) simax in Ok (Some r)) in
            match before, after with
            | None, None => Ok Empty
            | None, Some a => Ok (Item a)
            | Some b, None => Ok (Item b)
            | Some b, Some a => merge [Item b; Item a]
            end
      end
  end.

(** version_sets.py:833-853: difference_iterator *)
Fixpoint difference_iterator (current : item) (items : list item) : result (list item) :=
  match items with
  | [] => Ok [current]
  | i :: items' =>
      if is_strictly_lower i current then difference_iterator current items'
      else if is_strictly_higher i current then Ok [current]
      else
        let* d := item_difference current i in
        match d with
        | Union [l; r] => let* rest := difference_iterator r items' in Ok (l :: rest)
        | Union _ => Err ValueError
        | Item c => difference_iterator c items'
        | Empty => difference_iterator current items'
        end
  end.

(** version_sets.py:1203-1213: the state of ItemsDifference after [prepare] *)
Record dstate := DState {
  d_items : list item;
  d_others : list item;
  d_current : option item;
  d_other : option item;
  d_result : list item
}.

(** utils.py:37-38 and the iterator left behind *)
Definition next_or_none (xs : list item) : option item * list item :=
  match xs with [] => (None, []) | x :: xs' => (Some x, xs') end.

(** version_sets.py:1229-1246 *)
Definition next_other_current (st : dstate) : dstate * bool :=
  let '(other, others) := next_or_none (d_others st) in
  match other with
  | Some _ => (DState (d_items st) others (d_current st) other (d_result st), true)
  | None =>
      let res := d_result st ++ match d_current st with Some c => [c] | None => [] end in
      (DState [] others (d_current st) None (res ++ d_items st), false)
  end.

(** version_sets.py:1248-1261 *)
Definition next_current (include_current : bool) (st : dstate) : dstate * bool :=
  let res := if include_current
             then d_result st ++ match d_current st with Some c => [c] | None => [] end
             else d_result st in
  let '(cur, items) := next_or_none (d_items st) in
  match cur with
  | None => (DState items (d_others st) (d_current st) (d_other st) res, false)
  | Some _ => (DState items (d_others st) cur (d_other st) res, true)
  end.

Definition d_set_current (st : dstate) (c : item) : dstate :=
  DState (d_items st) (d_others st) (Some c) (d_other st) (d_result st).
Definition d_append (st : dstate) (i : item) : dstate :=
  DState (d_items st) (d_others st) (d_current st) (d_other st) (d_result st ++ [i]).

(** version_sets.py:1271-1310 *)
Definition d_step (st : dstate) : result (dstate * bool) :=
  match d_current st, d_other st with
  | Some cur, Some other =>
      if is_strictly_lower other cur then Ok (next_other_current st)
      else if is_strictly_higher other cur then Ok (next_current true st)
      else
        let* d := item_difference cur other in
        match d with
        | Union [l; r] => Ok (next_other_current (d_set_current (d_append st l) r))
        | Union _ => Err ValueError
        | Empty => Ok (next_current false st)
        | Item i =>
            let st' := d_set_current st i in
            if is_higher i other then Ok (next_other_current st')
            else Ok (next_current true st')
        end
  | _, _ => Ok (st, false)
  end.

(** version_sets.py:1312-1319; [fuel] bounds the number of iterations. *)
Fixpoint d_loop (fuel : nat) (st : dstate) : result dstate :=
  match fuel with
  | O => Err RecursionError
  | S fuel' =>
      let* p := d_step st in
      let (st', go) := p : dstate * bool in
      if go then d_loop fuel' st' else Ok st'
  end.

(** version_sets.py:1263-1269, 1321-1326.  Every iteration that continues
    consumes an item or another item, so the given fuel is never exhausted
    (proved). *)
Definition items_difference (items others : list item) : result (list item) :=
  let '(cur, items') := next_or_none items in
  let '(other, others') := next_or_none others in
  let* st := d_loop (S (List.length items + List.length others))
                    (DState items' others' cur other []) in
  Ok (d_result st).

(** version_sets.py:365-366, 761-831, 992-993, 1171-1173 *)
Definition difference (a b : vset) : result vset :=
  match a with
  | Empty => Ok Empty
  | Item (Point v) => Ok (if contains b v then Empty else a)
  | Item s =>
      match b with
      | Empty => Ok a
      | Item o => item_difference s o
      | Union items =>
          let* ds := difference_iterator s items in
          merge (map Item ds)
      end
  | Union selfs =>
      let* ds := items_difference selfs (extract b) in
      merge (map Item ds)
  end.

(** version_sets.py:371-372, 855-856, 995-996, 1175-1176 *)
Definition complement (a : vset) : result vset :=
  match a with
  | Empty => Ok UNIVERSAL_SET
  | _ => difference UNIVERSAL_SET a
  end.

(** version_sets.py:153-162, 368-369; VersionUnion does not inherit
    VersionSetProtocol (version_sets.py:1023) and has no such method. *)
Definition symmetric_difference (a b : vset) : result vset :=
  match a with
  | Empty => Ok b
  | Item _ =>
      let* u := union a b in
      let* i := intersection a b in
      difference u i
  | Union _ => Err AttributeError
  end.

(** version_sets.py:1094-1098 *)
Definition exclude_version (items : list item) : result (option version) :=
  let* c := complement (Union items) in
  match c with
  | Item (Point v) => Ok (Some v)
  | _ => Ok None
  end.
