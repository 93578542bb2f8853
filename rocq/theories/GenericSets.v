(** [versions/version_sets.py] once more, for any class of versions: the
    versions are only compared, and comparing may raise.  [VersionSets.v] is
    the same code for [Version] itself, where no comparison raises; the order in
    which comparisons are made matters here and is that of the code. *)

From Coq Require Import List ZArith NArith String Bool.
From Verif Require Import Py Segments Version VersionSets Specifiers.
Import ListNotations.

(** VersionPoint and VersionRange (version_sets.py:390-397, 926-946). *)
Inductive gitem (X : Type) :=
| GPoint (x : X)
| GRange (min max : option X) (include_min include_max : bool).
Arguments GPoint {X}.
Arguments GRange {X}.

(** version_sets.py:1329: [VersionSet] *)
Inductive gset (X : Type) :=
| GEmpty
| GItem (i : gitem X)
| GUnion (items : list (gitem X)).
Arguments GEmpty {X}.
Arguments GItem {X}.
Arguments GUnion {X}.

(** Python's [and] and [or]: the second operand is only evaluated if needed. *)
Definition and_r (a b : result bool) : result bool := let* x := a in if x : bool then b else Ok false.
Definition or_r (a b : result bool) : result bool := let* x := a in if x : bool then Ok true else b.
Definition not_r (a : result bool) : result bool := rmap negb a.

(** version_sets.py:423-433 *)
Definition g_lower {X} (m : option X) : ext X := match m with None => NegInf | Some x => Fin x end.
Definition g_upper {X} (m : option X) : ext X := match m with None => PosInf | Some x => Fin x end.

(** version_sets.py:934-946, 415-421 *)
Definition g_min {X} (i : gitem X) : option X := match i with GPoint x => Some x | GRange m _ _ _ => m end.
Definition g_max {X} (i : gitem X) : option X := match i with GPoint x => Some x | GRange _ m _ _ => m end.
Definition g_include_min {X} (i : gitem X) : bool := match i with GPoint _ => true | GRange _ _ b _ => b end.
Definition g_include_max {X} (i : gitem X) : bool := match i with GPoint _ => true | GRange _ _ _ b => b end.
Definition g_exclude_min {X} (i : gitem X) : bool := negb (g_include_min i).
Definition g_exclude_max {X} (i : gitem X) : bool := negb (g_include_max i).

(** version_sets.py:1040-1046 *)
Definition g_extract {X} (a : gset X) : list (gitem X) :=
  match a with GEmpty => [] | GItem i => [i] | GUnion items => items end.

(** version_sets.py:923 *)
Definition g_universal {X} : gset X := GItem (GRange None None false false).

(** version_sets.py:435-442, 453-460 *)
Definition g_is_closed {X} (i : gitem X) : bool := g_include_min i && g_include_max i.
Definition g_is_unbounded {X} (i : gitem X) : bool :=
  match g_min i, g_max i with None, None => true | _, _ => false end.

(** version_sets.py:591-592, 954-955 *)
Definition g_item_is_universal {X} (i : gitem X) : bool :=
  match i with GPoint _ => false | _ => g_is_unbounded i end.

(** version_sets.py:1009-1014, 1028-1030 *)
Definition g_union_new {X} (items : list (gitem X)) : result (gset X) :=
  match items with
  | [] => Err ValueError
  | [_] => Err ValueError
  | _ => Ok (GUnion items)
  end.

Section Generic.
  Context {X : Type}.
  (** [<] and [>] (which raise together, see [Typed.v]) and [==] *)
  Context (cmp : X -> X -> result comparison) (same : X -> X -> bool).

  (** The same with infinities (types.py:35-51, 76-92), which answer for
      anything. *)
  Definition g_cmp (x y : ext X) : result comparison :=
    match x, y with
    | Fin a, Fin b => cmp a b
    | _, _ => Ok (ext_cmp (fun _ _ => Eq) x y)
    end.
  Definition g_eq (x y : ext X) : bool :=
    match x, y with
    | Fin a, Fin b => same a b
    | _, _ => is_eq (ext_cmp (fun _ _ => Eq) x y)
    end.
  Definition g_oeq (x y : option X) : bool :=
    match x, y with
    | None, None => true
    | Some a, Some b => same a b
    | _, _ => false
    end.

  (** version_sets.py:399-407 *)
  Definition g_range_new (min max : option X) (imin imax : bool) : result (gitem X) :=
    if (match min with None => imin | _ => false end) then Err ValueError
    else if (match max with None => imax | _ => false end) then Err ValueError
    else let* c := g_cmp (g_lower min) (g_upper max) in
         if is_gt c then Err ValueError else Ok (GRange min max imin imax).

  (** version_sets.py:471-472 *)
  Definition g_is_empty_or_point (i : gitem X) : bool := g_eq (g_lower (g_min i)) (g_upper (g_max i)).

  (** version_sets.py:474-484 *)
  Definition g_is_lower (s o : gitem X) : result bool :=
    let* c := g_cmp (g_lower (g_min s)) (g_lower (g_min o)) in
    Ok match c with Lt => true | Gt => false | Eq => g_include_min s && g_exclude_min o end.

  (** version_sets.py:486-496 *)
  Definition g_is_higher (s o : gitem X) : result bool :=
    let* c := g_cmp (g_upper (g_max s)) (g_upper (g_max o)) in
    Ok match c with Lt => false | Gt => true | Eq => g_include_max s && g_exclude_max o end.

  (** version_sets.py:498-508 *)
  Definition g_is_strictly_lower (s o : gitem X) : result bool :=
    let* c := g_cmp (g_upper (g_max s)) (g_lower (g_min o)) in
    Ok match c with Lt => true | Gt => false | Eq => g_exclude_max s || g_exclude_min o end.

  (** version_sets.py:510-520 *)
  Definition g_is_strictly_higher (s o : gitem X) : result bool :=
    let* c := g_cmp (g_lower (g_min s)) (g_upper (g_max o)) in
    Ok match c with Gt => true | Lt => false | Eq => g_exclude_min s || g_exclude_max o end.

  (** version_sets.py:522-529 *)
  Definition g_is_adjacent (s o : gitem X) : bool :=
    (g_oeq (g_max s) (g_min o) && Bool.eqb (g_include_max s) (g_exclude_min o))
    || (g_oeq (g_min s) (g_max o) && Bool.eqb (g_include_min s) (g_exclude_max o)).

  (** version_sets.py:534-535 *)
  Definition g_item_eqb (s o : gitem X) : bool :=
    g_oeq (g_min s) (g_min o) && g_oeq (g_max s) (g_max o)
    && Bool.eqb (g_include_min s) (g_include_min o) && Bool.eqb (g_include_max s) (g_include_max o).
  Fixpoint g_items_eqb (xs ys : list (gitem X)) : bool :=
    match xs, ys with
    | [], [] => true
    | x :: xs', y :: ys' => g_item_eqb x y && g_items_eqb xs' ys'
    | _, _ => false
    end.

  (** attrs equality of VersionEmpty (version_sets.py:340) and of VersionUnion
      by items (version_sets.py:1022) *)
  Definition g_set_eqb (a b : gset X) : bool :=
    match a, b with
    | GEmpty, GEmpty => true
    | GItem s, GItem o => g_item_eqb s o
    | GUnion xs, GUnion ys => g_items_eqb xs ys
    | _, _ => false
    end.

  (** version_sets.py:552-581 *)
  Definition g_item_compare (s o : gitem X) : result comparison :=
    let* c := g_cmp (g_lower (g_min s)) (g_lower (g_min o)) in
    match c with
    | Gt => Ok Gt
    | Lt => Ok Lt
    | Eq =>
        if Bool.eqb (g_include_min s) (g_exclude_min o) then Ok (if g_include_min s then Lt else Gt)
        else
          let* d := g_cmp (g_upper (g_max s)) (g_upper (g_max o)) in
          Ok match d with
             | Gt => Gt
             | Lt => Lt
             | Eq => if Bool.eqb (g_include_max s) (g_exclude_max o) then (if g_include_max s then Gt else Lt) else Eq
             end
    end.
  Definition g_item_lt (s o : gitem X) : result bool := rmap is_lt (g_item_compare s o).

  (** version_sets.py:344-348, 585-589, 948-955, 1100-1104 *)
  Definition g_item_is_empty (i : gitem X) : bool :=
    match i with GPoint _ => false | _ => g_is_empty_or_point i && negb (g_is_closed i) end.
  Definition g_item_is_point (i : gitem X) : bool :=
    match i with GPoint _ => true | _ => g_is_empty_or_point i && g_is_closed i end.
  Definition g_is_empty (a : gset X) : bool :=
    match a with GEmpty => true | GItem i => g_item_is_empty i | GUnion _ => false end.

  (** version_sets.py:594-608, 930 *)
  Definition g_item_version (i : gitem X) : result X :=
    match i with
    | GPoint x => Ok x
    | GRange min max _ _ =>
        if g_item_is_point i then
          match min with
          | Some x => Ok x
          | None => match max with Some x => Ok x | None => Err ValueError end
          end
        else Err ValueError
    end.

  (** version_sets.py:610-626, 957-959 *)
  Definition g_item_contains (i : gitem X) (x : X) : result bool :=
    match i with
    | GPoint y => Ok (same y x)
    | GRange min max imin imax =>
        let* c := g_cmp (Fin x) (g_lower min) in
        if is_lt c then Ok false
        else if negb imin && g_eq (Fin x) (g_lower min) then Ok false
        else
          let* d := g_cmp (Fin x) (g_upper max) in
          if is_gt d then Ok false
          else if negb imax && g_eq (Fin x) (g_upper max) then Ok false
          else Ok true
    end.

  (** version_sets.py:356-357, 1106-1107 *)
  Definition g_contains (a : gset X) (x : X) : result bool :=
    match a with
    | GEmpty => Ok false
    | GItem i => g_item_contains i x
    | GUnion items => any_r (fun i => g_item_contains i x) items
    end.

  (** version_sets.py:637-638, 963-966 *)
  Definition g_item_includes (s o : gitem X) : result bool :=
    match s with
    | GPoint x => Ok (g_item_is_empty o || match o with GPoint y => same x y | _ => false end)
    | _ =>
        match o with
        | GPoint y => g_item_contains s y
        | _ => and_r (not_r (g_is_lower o s)) (not_r (g_is_higher o s))
        end
    end.

  (** version_sets.py:1118-1125 *)
  Fixpoint g_includes_loop (selfs : list (gitem X)) : list (gitem X) -> result bool :=
    match selfs with
    | [] => fun items => Ok match items with [] => true | _ => false end
    | s :: selfs' =>
        fix inner items :=
          match items with
          | [] => Ok true
          | i :: items' =>
              let* b := g_item_includes s i in
              if b : bool then inner items' else g_includes_loop selfs' items
          end
    end.

  (** version_sets.py:350-351, 630-643, 963-966, 1111-1125 *)
  Definition g_includes (a b : gset X) : result bool :=
    match a with
    | GEmpty => Ok (g_is_empty b)
    | GItem (GPoint x) =>
        Ok (g_is_empty b || match b with GItem (GPoint y) => same x y | _ => false end)
    | GItem s =>
        match b with
        | GEmpty => Ok true
        | GItem o => g_item_includes s o
        | GUnion items => all_r (g_item_includes s) items
        end
    | GUnion selfs => g_includes_loop selfs (g_extract b)
    end.

  (** version_sets.py:660-661 *)
  Definition g_intersects_range (s o : gitem X) : result bool :=
    and_r (not_r (g_is_strictly_lower o s)) (not_r (g_is_strictly_higher o s)).

  (** version_sets.py:645-653, 968-969 *)
  Definition g_item_intersects (s o : gitem X) : result bool :=
    match s with
    | GPoint x => g_item_contains o x
    | _ => match o with GPoint y => g_item_contains s y | _ => g_intersects_range s o end
    end.

  (** version_sets.py:1134-1144 *)
  Fixpoint g_intersects_loop (selfs : list (gitem X)) : list (gitem X) -> result bool :=
    match selfs with
    | [] => fun _ => Ok false
    | s :: selfs' =>
        fix inner items :=
          match items with
          | [] => Ok false
          | i :: items' =>
              let* b := g_item_intersects s i in
              if b : bool then Ok true
              else
                let* h := g_is_higher i s in
                if h : bool then g_intersects_loop selfs' items else inner items'
          end
    end.

  (** version_sets.py:353-354, 645-658, 968-969, 1127-1144 *)
  Definition g_intersects (a b : gset X) : result bool :=
    match a with
    | GEmpty => Ok false
    | GItem (GPoint x) => g_contains b x
    | GItem s =>
        match b with
        | GEmpty => Ok false
        | GItem o => g_item_intersects s o
        | GUnion items => any_r (g_item_intersects s) items
        end
    | GUnion selfs => g_intersects_loop selfs (g_extract b)
    end.

  (** [list.sort()] (version_sets.py:1058), by insertion.  Simplified: another
      stable algorithm makes other comparisons, but where one of them raises
      another may only put it off until the loop below, which raises the same. *)
  Fixpoint g_insert (x : gitem X) (ys : list (gitem X)) : result (list (gitem X)) :=
    match ys with
    | [] => Ok [x]
    | y :: ys' =>
        let* b := g_item_lt y x in
        if b : bool then let* zs := g_insert x ys' in Ok (y :: zs) else Ok (x :: ys)
    end.
  Fixpoint g_sort (xs : list (gitem X)) : result (list (gitem X)) :=
    match xs with
    | [] => Ok []
    | x :: xs' => let* ys := g_sort xs' in g_insert x ys
    end.

  (** version_sets.py:1060-1079 *)
  Fixpoint g_merge_loop (u : gitem X -> gitem X -> result (gset X)) (cur : gitem X) (rest : list (gitem X))
    : result (list (gitem X)) :=
    match rest with
    | [] => Ok [cur]
    | x :: rest' =>
        let* b := or_r (g_item_intersects cur x) (Ok (g_is_adjacent cur x)) in
        if b : bool then
          let* r := u cur x in
          match r with
          | GItem i => g_merge_loop u i rest'
          | _ => Err InternalError
          end
        else
          let* out := g_merge_loop u x rest' in
          Ok (cur :: out)
    end.

  (** version_sets.py:1048-1084 *)
  Definition g_merge_with (u : gitem X -> gitem X -> result (gset X)) (sets : list (gset X)) : result (gset X) :=
    let extracted := flat_map g_extract sets in
    match extracted with
    | [] => Ok GEmpty
    | _ =>
        if existsb g_item_is_universal extracted then Ok g_universal
        else
          let* sorted := g_sort extracted in
          match sorted with
          | [] => Ok GEmpty
          | x :: rest =>
              let* merged := g_merge_loop u x rest in
              match merged with
              | [i] => Ok (GItem i)
              | _ => g_union_new merged
              end
          end
    end.

  (** version_sets.py:711-759, 974-990; [fuel] as in [VersionSets.v] *)
  Fixpoint g_item_union (fuel : nat) (s o : gitem X) : result (gset X) :=
    match fuel with
    | O => Err RecursionError
    | S fuel' =>
        let of sets := g_merge_with (g_item_union fuel') sets in
        match s with
        | GPoint x =>
            match o with
            | GPoint y => if same x y then Ok (GItem s) else of [GItem s; GItem o]
            | _ => let* b := g_item_contains o x in
                   if b : bool then Ok (GItem o) else of [GItem s; GItem o]
            end
        | GRange smin smax simin simax =>
            match o with
            | GPoint y =>
                let* b := g_item_contains s y in
                if b : bool then Ok (GItem s)
                else if g_oeq (Some y) smin then
                  let* r := g_range_new smin smax true simax in Ok (GItem r)
                else if g_oeq (Some y) smax then
                  let* r := g_range_new smin smax simin true in Ok (GItem r)
                else of [GItem s; GItem o]
            | GRange omin omax oimin oimax =>
                let* apart := and_r (Ok (negb (g_is_adjacent s o))) (not_r (g_item_intersects s o)) in
                if apart : bool then of [GItem s; GItem o]
                else
                  let* l := g_is_lower s o in
                  let* h := g_is_higher s o in
                  let '(umin, uimin) := if l : bool then (smin, simin) else (omin, oimin) in
                  let '(umax, uimax) := if h : bool then (smax, simax) else (omax, oimax) in
                  let* r := g_range_new umin umax uimin uimax in
                  Ok (GItem r)
            end
        end
    end.

  (** version_sets.py:1048-1092 *)
  Definition g_merge (sets : list (gset X)) : result (gset X) := g_merge_with (g_item_union depth) sets.

  (** version_sets.py:362-363, 711-759, 974-990, 1168-1169 *)
  Definition g_union (a b : gset X) : result (gset X) :=
    match a with
    | GEmpty => Ok b
    | GItem s =>
        match b with
        | GEmpty => Ok a
        | GItem o => g_item_union depth s o
        | GUnion _ =>
            match s with
            | GPoint x => let* c := g_contains b x in if c : bool then Ok b else g_merge [a; b]
            | _ => g_merge [b; a]
            end
        end
    | GUnion _ => g_merge [a; b]
    end.

  (** version_sets.py:663-704, 971-972 *)
  Definition g_item_intersection (s o : gitem X) : result (gset X) :=
    match s with
    | GPoint x => let* b := g_item_contains o x in Ok (if b : bool then GItem s else GEmpty)
    | GRange smin smax simin simax =>
        match o with
        | GPoint y => let* b := g_item_contains s y in Ok (if b : bool then GItem o else GEmpty)
        | GRange omin omax oimin oimax =>
            let* l := g_is_lower s o in
            let* apart := (if l : bool then g_is_strictly_lower s o else g_is_strictly_higher s o) in
            if apart : bool then Ok GEmpty
            else
              let* h := g_is_higher s o in
              let '(imin, iimin) := if l : bool then (omin, oimin) else (smin, simin) in
              let '(imax, iimax) := if h : bool then (omax, oimax) else (smax, simax) in
              let* r := g_range_new imin imax iimin iimax in
              if g_item_is_point r then let* v := g_item_version r in Ok (GItem (GPoint v))
              else Ok (GItem r)
        end
    end.

  (** version_sets.py:1146-1163 *)
  Fixpoint g_intersection_loop (selfs : list (gitem X)) : list (gitem X) -> result (list (gitem X)) :=
    match selfs with
    | [] => fun _ => Ok []
    | s :: selfs' =>
        fix inner items :=
          match items with
          | [] => Ok []
          | i :: items' =>
              let* r := g_item_intersection s i in
              let* h := g_is_higher i s in
              let* rest := (if h : bool then g_intersection_loop selfs' items else inner items') in
              Ok (match r with GItem x => x :: rest | _ => rest end)
          end
    end.

  (** version_sets.py:1165-1166 *)
  Definition g_union_intersection (selfs : list (gitem X)) (b : gset X) : result (gset X) :=
    let* items := g_intersection_loop selfs (g_extract b) in
    g_merge (map GItem items).

  (** version_sets.py:359-360, 663-709, 971-972, 1165-1166 *)
  Definition g_intersection (a b : gset X) : result (gset X) :=
    match a with
    | GEmpty => Ok GEmpty
    | GItem (GPoint x) => let* c := g_contains b x in Ok (if c : bool then a else GEmpty)
    | GItem s =>
        match b with
        | GEmpty => Ok GEmpty
        | GItem o => g_item_intersection s o
        | GUnion items => g_union_intersection items a
        end
    | GUnion selfs => g_union_intersection selfs b
    end.

  (** version_sets.py:761-826, 992-993 *)
  Definition g_item_difference (s o : gitem X) : result (gset X) :=
    match s with
    | GPoint x => let* b := g_item_contains o x in Ok (if b : bool then GEmpty else GItem s)
    | GRange smin smax simin simax =>
        match o with
        | GPoint y =>
            let* b := g_item_contains s y in
            if negb b then Ok (GItem s)
            else if g_oeq (Some y) smin then
              if negb simin then Ok (GItem s)
              else let* r := g_range_new smin smax false simax in Ok (GItem r)
            else if g_oeq (Some y) smax then
              if negb simax then Ok (GItem s)
              else let* r := g_range_new smin smax simin false in Ok (GItem r)
            else
              let* l := g_range_new smin (Some y) simin false in
              let* r := g_range_new (Some y) smax false simax in
              g_merge [GItem l; GItem r]
        | GRange omin omax oimin oimax =>
            let* b := g_item_intersects s o in
            if negb b then Ok (GItem s)
            else
              let* l := g_is_lower s o in
              let* before :=
                (if negb l then Ok None
                 else if g_oeq smin omin then
                   match smin with Some x => Ok (Some (GPoint x)) | None => Err ValueError end
                 else let* r := g_range_new smin omin simin (negb oimin) in Ok (Some r)) in
              let* h := g_is_higher s o in
              let* after :=
                (if negb h then Ok None
                 else if g_oeq smax omax then
                   match smax with Some x => Ok (Some (GPoint x)) | None => Err ValueError end
                 else let* r := g_range_new omax smax (negb oimax) simax in Ok (Some r)) in
              match before, after with
              | None, None => Ok GEmpty
              | None, Some a => Ok (GItem a)
              | Some b, None => Ok (GItem b)
              | Some b, Some a => g_merge [GItem b; GItem a]
              end
        end
    end.

  (** version_sets.py:833-853 *)
  Fixpoint g_difference_iterator (current : gitem X) (items : list (gitem X)) : result (list (gitem X)) :=
    match items with
    | [] => Ok [current]
    | i :: items' =>
        let* l := g_is_strictly_lower i current in
        if l : bool then g_difference_iterator current items'
        else
          let* h := g_is_strictly_higher i current in
          if h : bool then Ok [current]
          else
            let* d := g_item_difference current i in
            match d with
            | GUnion [l; r] => let* rest := g_difference_iterator r items' in Ok (l :: rest)
            | GUnion _ => Err ValueError
            | GItem c => g_difference_iterator c items'
            | GEmpty => g_difference_iterator current items'
            end
    end.

  (** version_sets.py:1203-1213 *)
  Record gstate := GState {
    gd_items : list (gitem X);
    gd_others : list (gitem X);
    gd_current : option (gitem X);
    gd_other : option (gitem X);
    gd_result : list (gitem X)
  }.

  (** utils.py:37-38 *)
  Definition g_next_or_none (xs : list (gitem X)) : option (gitem X) * list (gitem X) :=
    match xs with [] => (None, []) | x :: xs' => (Some x, xs') end.

  (** version_sets.py:1229-1246 *)
  Definition g_next_other_current (st : gstate) : gstate * bool :=
    let '(other, others) := g_next_or_none (gd_others st) in
    match other with
    | Some _ => (GState (gd_items st) others (gd_current st) other (gd_result st), true)
    | None =>
        let res := gd_result st ++ match gd_current st with Some c => [c] | None => [] end in
        (GState [] others (gd_current st) None (res ++ gd_items st), false)
    end.

  (** version_sets.py:1248-1261 *)
  Definition g_next_current (include_current : bool) (st : gstate) : gstate * bool :=
    let res := if include_current
               then gd_result st ++ match gd_current st with Some c => [c] | None => [] end
               else gd_result st in
    let '(cur, items) := g_next_or_none (gd_items st) in
    match cur with
    | None => (GState items (gd_others st) (gd_current st) (gd_other st) res, false)
    | Some _ => (GState items (gd_others st) cur (gd_other st) res, true)
    end.

  (** version_sets.py:1271-1310 *)
  Definition g_set_current (st : gstate) (c : gitem X) : gstate :=
    GState (gd_items st) (gd_others st) (Some c) (gd_other st) (gd_result st).
  Definition g_append (st : gstate) (i : gitem X) : gstate :=
    GState (gd_items st) (gd_others st) (gd_current st) (gd_other st) (gd_result st ++ [i]).
  Definition g_step (st : gstate) : result (gstate * bool) :=
    match gd_current st, gd_other st with
    | Some cur, Some other =>
        let* l := g_is_strictly_lower other cur in
        if l : bool then Ok (g_next_other_current st)
        else
          let* h := g_is_strictly_higher other cur in
          if h : bool then Ok (g_next_current true st)
          else
            let* d := g_item_difference cur other in
            match d with
            | GUnion [l; r] => Ok (g_next_other_current (g_set_current (g_append st l) r))
            | GUnion _ => Err ValueError
            | GEmpty => Ok (g_next_current false st)
            | GItem i =>
                let st' := g_set_current st i in
                let* k := g_is_higher i other in
                if k : bool then Ok (g_next_other_current st') else Ok (g_next_current true st')
            end
    | _, _ => Ok (st, false)
    end.

  (** version_sets.py:1312-1319 *)
  Fixpoint g_loop (fuel : nat) (st : gstate) : result gstate :=
    match fuel with
    | O => Err RecursionError
    | S fuel' =>
        let* p := g_step st in
        let (st', go) := p : gstate * bool in
        if go then g_loop fuel' st' else Ok st'
    end.

  (** version_sets.py:1263-1269, 1321-1326 *)
  Definition g_items_difference (items others : list (gitem X)) : result (list (gitem X)) :=
    let '(cur, items') := g_next_or_none items in
    let '(other, others') := g_next_or_none others in
    let* st := g_loop (S (List.length items + List.length others)) (GState items' others' cur other []) in
    Ok (gd_result st).

  (** version_sets.py:365-366, 761-831, 992-993, 1171-1173 *)
  Definition g_difference (a b : gset X) : result (gset X) :=
    match a with
    | GEmpty => Ok GEmpty
    | GItem (GPoint x) => let* c := g_contains b x in Ok (if c : bool then GEmpty else a)
    | GItem s =>
        match b with
        | GEmpty => Ok a
        | GItem o => g_item_difference s o
        | GUnion items =>
            let* ds := g_difference_iterator s items in
            g_merge (map GItem ds)
        end
    | GUnion selfs =>
        let* ds := g_items_difference selfs (g_extract b) in
        g_merge (map GItem ds)
    end.

  (** version_sets.py:371-372, 855-856, 995-996, 1175-1176 *)
  Definition g_complement (a : gset X) : result (gset X) :=
    match a with
    | GEmpty => Ok g_universal
    | _ => g_difference g_universal a
    end.

  (** version_sets.py:153-162, 368-369, 1023 *)
  Definition g_symmetric_difference (a b : gset X) : result (gset X) :=
    match a with
    | GEmpty => Ok b
    | GItem _ =>
        let* u := g_union a b in
        let* i := g_intersection a b in
        g_difference u i
    | GUnion _ => Err AttributeError
    end.
End Generic.
Arguments gstate : clear implicits.

(** The sets of [VersionSets.v], with every version replaced. *)
Section Carry.
  Context {X : Type} (f : version -> X).
  Definition carry_item (i : item) : gitem X :=
    match i with
    | Point v => GPoint (f v)
    | Range min max imin imax => GRange (option_map f min) (option_map f max) imin imax
    end.
  Definition carry_set (a : vset) : gset X :=
    match a with
    | Empty => GEmpty
    | Item i => GItem (carry_item i)
    | Union items => GUnion (map carry_item items)
    end.
End Carry.
