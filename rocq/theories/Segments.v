(** The segments of a version: phases, tags, release and local
    ([versions/phases.py], [versions/segments/*.py]).  An epoch is just an
    [int] (epoch.py:14-17), a release is the tuple of its parts, a local
    segment the tuple of its parts. *)

From Coq Require Import List ZArith NArith String Bool.
From Verif Require Import Py.
Import ListNotations.
Open Scope Z_scope.

(** constants.py:66-91, phases.py:52-74 *)
Definition ALPHA := lit "alpha".
Definition A_LITERAL := lit "a".
Definition BETA := lit "beta".
Definition B_LITERAL := lit "b".
Definition CANDIDATE := lit "candidate".
Definition C_LITERAL := lit "c".
Definition RC := lit "rc".
Definition PREVIEW := lit "preview".
Definition PRE := lit "pre".
Definition POST := lit "post".
Definition REV := lit "rev".
Definition R_LITERAL := lit "r".
Definition DEV := lit "dev".

(** constants.py:94-96 *)
Definition PRE_PHASES := [ALPHA; BETA; A_LITERAL; B_LITERAL; C_LITERAL; RC; PREVIEW; PRE].
Definition POST_PHASES := [POST; REV; R_LITERAL].
Definition DEV_PHASES := [DEV].

(** phases.py:78-109 *)
Definition PHASE_PRE_SET :=
  [ALPHA; A_LITERAL; BETA; B_LITERAL; CANDIDATE; C_LITERAL; RC; RC; PREVIEW; PRE].
Definition PHASE_POST_SET := [POST; POST; REV; R_LITERAL].
Definition PHASE_DEV_SET := [DEV; DEV].
Definition PHASE_ALL_SET := PHASE_PRE_SET ++ PHASE_POST_SET ++ PHASE_DEV_SET.

(** phases.py:111-120 *)
Definition PHASE_TO_SHORT :=
  [(ALPHA, A_LITERAL); (BETA, B_LITERAL); (CANDIDATE, C_LITERAL); (RC, RC);
   (PREVIEW, PRE); (POST, POST); (REV, R_LITERAL); (DEV, DEV)].

(** phases.py:122 *)
Definition SHORT_TO_PHASE := map (fun p => (snd p, fst p)) PHASE_TO_SHORT.

(** phases.py:124-129 *)
Definition PHASE_TO_NEXT :=
  [(ALPHA, BETA); (A_LITERAL, B_LITERAL); (BETA, RC); (B_LITERAL, RC)].

(** phases.py:131-138 *)
Definition PHASE_TO_NORMAL :=
  [(CANDIDATE, RC); (C_LITERAL, RC); (PREVIEW, RC); (PRE, RC); (REV, POST); (R_LITERAL, POST)].

(** ** Tags *)

(** The classes Tag, PreTag, PostTag and DevTag (tags.py:41, 183, 192, 201);
    the class of a stored tag is determined by the field holding it. *)
Inductive tag_class := AnyTag | PreTag | PostTag | DevTag.

Record tag := Tag { phase : pstr; value : Z }.

(** tags.py:44, 186, 195, 204; phases.py:76, 91, 100, 107 *)
Definition default_phase (c : tag_class) : pstr :=
  match c with AnyTag => ALPHA | PreTag => ALPHA | PostTag => POST | DevTag => DEV end.

(** tags.py:45, 187, 196, 205 *)
Definition phase_set (c : tag_class) : list pstr :=
  match c with
  | AnyTag => PHASE_ALL_SET
  | PreTag => PHASE_PRE_SET
  | PostTag => PHASE_POST_SET
  | DevTag => PHASE_DEV_SET
  end.

(** tags.py:36-37 *)
Definition convert_phase (p : pstr) : pstr :=
  match dict_get SHORT_TO_PHASE p with Some q => q | None => p end.

(** The constructor: converter then validator (tags.py:47-60).  [evolve] from
    attrs calls the constructor again, so all updates below go through it. *)
Definition tag_new (c : tag_class) (p : pstr) (v : Z) : result tag :=
  let p := convert_phase p in
  if str_in p (phase_set c) then Ok (Tag p v) else Err ValueError.

(** [PreTag()], [PostTag()], [DevTag()] (tags.py:50-55) *)
Definition tag_default (c : tag_class) : result tag := tag_new c (default_phase c) 0.

(** tags.py:62-76 *)
Definition tag_create (c : tag_class) (p : option pstr) (v : Z) : result tag :=
  match p with
  | None => tag_new c (default_phase c) v
  | Some p => tag_new c p v
  end.

(** tags.py:78-88 *)
Definition default_phase_with_value (c : tag_class) (v : Z) : result tag :=
  tag_new c (default_phase c) v.

(** tags.py:90-95 *)
Definition tag_short (t : tag) : pstr :=
  match dict_get PHASE_TO_SHORT (phase t) with Some s => s | None => phase t end.

(** tags.py:97-102 *)
Definition tag_normal (t : tag) : pstr :=
  match dict_get PHASE_TO_NORMAL (phase t) with Some s => s | None => phase t end.

(** tags.py:112-121 *)
Definition tag_set_phase (c : tag_class) (t : tag) (p : pstr) : result tag :=
  tag_new c p (value t).

(** tags.py:123-132 *)
Definition tag_set_value (c : tag_class) (t : tag) (v : Z) : result tag :=
  tag_new c (phase t) v.

(** tags.py:104-110 *)
Definition tag_normalize (c : tag_class) (t : tag) : result tag :=
  tag_set_phase c t (tag_normal t).

(** tags.py:134-140 *)
Definition tag_next (c : tag_class) (t : tag) : result tag :=
  tag_set_value c t (value t + 1).

(** tags.py:142-150, with the default [value=0] *)
Definition tag_next_phase (c : tag_class) (t : tag) : result (option tag) :=
  match dict_get PHASE_TO_NEXT (phase t) with
  | None => Ok None
  | Some p =>
      let* u := tag_set_phase c t p in
      let* w := tag_set_value c u 0 in
      Ok (Some w)
  end.

(** tags.py:164-170 *)
Definition tag_to_string (t : tag) : pstr := join (lit ".") [phase t; str_int (value t)].

(** tags.py:172-178 *)
Definition tag_to_short_string (t : tag) : pstr := tag_short t ++ str_int (value t).

(** attrs [order=True] compares (phase, value) (tags.py:40) *)
Definition tag_cmp (t u : tag) : comparison :=
  then_cmp (str_cmp (phase t) (phase u)) (Z.compare (value t) (value u)).

(** ** Release *)

Notation release := (list Z) (only parsing).

(** segments/constants.py:12-31 *)
Definition MAJOR : Z := 0.
Definition MINOR : Z := 1.
Definition MICRO : Z := 2.
Definition TOTAL : Z := 3.
Definition DEFAULT_PARTS : release := [0; 0; 0].

(** release.py:37-40: the constructor rejects empty releases. *)
Definition release_new (parts : release) : result release :=
  match parts with [] => Err ValueError | _ => Ok parts end.

(** release.py:108-111 *)
Definition rel_precision (r : release) : Z := len r.

(** release.py:113-117 *)
Definition rel_last_index (r : release) : Z := rel_precision r - 1.

(** utils.py:53-62 *)
Fixpoint count_leading_zeros (xs : list Z) : Z :=
  match xs with
  | [] => 0
  | x :: xs' => if x =? 0 then 1 + count_leading_zeros xs' else 0
  end.

(** release.py:410-411 *)
Definition rel_slice_parts (r : release) (i : Z) : release := py_upto r i.

(** release.py:42-51 *)
Definition rel_compare_parts (r : release) : release :=
  let index := count_leading_zeros (rev r) in
  let index := if index =? rel_precision r then index - 1 else index in
  if index =? 0 then r else rel_slice_parts r (- index).

(** release.py:361-367 *)
Definition rel_has_at (r : release) (i : Z) : bool := i <? rel_precision r.

(** release.py:319-359 *)
Definition rel_has_major r := rel_has_at r MAJOR.
Definition rel_has_minor r := rel_has_at r MINOR.
Definition rel_has_micro r := rel_has_at r MICRO.
Definition rel_has_extra r := rel_has_at r TOTAL.

(** release.py:159-171 *)
Definition rel_get_at_unchecked (r : release) (i : Z) : result Z := py_get r i.

(** release.py:147-157 *)
Definition rel_get_at (r : release) (i : Z) (default : Z) : result Z :=
  if rel_has_at r i then rel_get_at_unchecked r i else Ok default.

(** utils.py:45-46; only called with [length > len(iterable)] *)
Definition fix_to_length (length padding : Z) (xs : list Z) : list Z :=
  firstn (Z.to_nat length) (xs ++ repeat padding (Z.to_nat length)).

(** release.py:369-382 *)
Definition rel_pad_to (r : release) (length padding : Z) : result release :=
  if rel_precision r <? length then release_new (fix_to_length length padding r) else Ok r.

(** release.py:384-394 *)
Definition rel_pad_to_index (r : release) (i padding : Z) : result release :=
  rel_pad_to r (i + 1) padding.

(** release.py:396-405 *)
Definition rel_pad_to_next (r : release) (padding : Z) : result release :=
  rel_pad_to r (rel_precision r + 1) padding.

(** release.py:407-408 *)
Definition rel_slice (r : release) (i : Z) : result release :=
  release_new (rel_slice_parts r i).

(** release.py:250-266 *)
Definition rel_set_at_unchecked (r : release) (i v : Z) : result release :=
  let* m := py_set r i v in release_new m.

(** release.py:238-248 *)
Definition rel_set_at (r : release) (i v : Z) : result release :=
  let* p := rel_pad_to_index r i 0 in rel_set_at_unchecked p i v.

(** release.py:302-317, with the defaults [default=0], [padding=0]; [Padding.v]
    has the other arguments *)
Definition rel_next_at (r : release) (i : Z) : result release :=
  let* x := rel_get_at r i 0 in
  let* updated := rel_set_at r i (x + 1) in
  let* s := rel_slice updated (i + 1) in
  rel_pad_to s (rel_precision updated) 0.

(** release.py:268-300 *)
Definition rel_next_major r := rel_next_at r MAJOR.
Definition rel_next_minor r := rel_next_at r MINOR.
Definition rel_next_micro r := rel_next_at r MICRO.

(** release.py:119-140 *)
Definition rel_major r := rel_get_at r MAJOR 0.
Definition rel_minor r := rel_get_at r MINOR 0.
Definition rel_micro r := rel_get_at r MICRO 0.

(** release.py:142-145 *)
Definition rel_extra (r : release) : list Z := py_from r TOTAL.

(** release.py:173-179 *)
Definition rel_is_semantic (r : release) : bool := rel_precision r =? TOTAL.

(** release.py:181-190 *)
Definition rel_to_semantic (r : release) : result release :=
  if rel_has_extra r then let* n := rel_next_micro r in rel_slice n TOTAL
  else if rel_is_semantic r then Ok r else rel_pad_to r TOTAL 0.

(** release.py:413-423 *)
Definition rel_from_string (s : pstr) : result release :=
  let* parts := mapM py_int (split_on 46 s) in release_new parts.

(** release.py:425-431 *)
Definition rel_to_string (r : release) : pstr := join (lit ".") (map str_int r).

(** attrs [order=True] compares [compare_parts] (release.py:28, 35) *)
Definition rel_cmp (r s : release) : comparison :=
  lex Z.compare (rel_compare_parts r) (rel_compare_parts s).

(** ** Local *)

(** segments/typing.py:27: [LocalPart = Union[int, str]] *)
Inductive local_part := LInt (z : Z) | LStr (s : pstr).

Notation local := (list local_part) (only parsing).

(** local.py:34-37 *)
Definition local_new (parts : local) : result local :=
  match parts with [] => Err ValueError | _ => Ok parts end.

(** local.py:19-20 *)
Definition local_part_of (s : pstr) : result local_part :=
  if check_int s then let* z := py_int s in Ok (LInt z) else Ok (LStr s).

(** string.py:145-157: [split_separators] splits on [.], [-] and [_] by first
    translating the last two to the first. *)
Definition split_separators (s : pstr) : list pstr :=
  split_on 46 (map (fun c => if (c =? 45)%N || (c =? 95)%N then 46%N else c) s).

(** local.py:103-113 *)
Definition local_from_string (s : pstr) : result local :=
  let* parts := mapM local_part_of (split_separators s) in local_new parts.

Definition local_part_str (p : local_part) : pstr :=
  match p with LInt z => str_int z | LStr s => s end.

(** local.py:115-121 *)
Definition local_to_string (l : local) : pstr := join (lit ".") (map local_part_str l).
