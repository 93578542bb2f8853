(** [versions/version.py]: versions, their comparison key, rendering and
    updates. *)

From Coq Require Import List ZArith NArith String Bool.
From Verif Require Import Py Segments.
Import ListNotations.
Open Scope Z_scope.

(** version.py:40-59.  The stored segments; [compare_key] is a function of
    them and is computed by [key] below. *)
Record version := Version {
  v_epoch : Z;
  v_release : list Z;
  v_pre : option tag;
  v_post : option tag;
  v_dev : option tag;
  v_local : option (list local_part)
}.

(** ** Comparison *)

(** types.py: [Infinity] and [NegativeInfinity] compare above and below
    everything but themselves; they are the only values mixed with others. *)
Inductive ext (A : Type) := NegInf | Fin (a : A) | PosInf.
Arguments NegInf {A}.
Arguments Fin {A} _.
Arguments PosInf {A}.

(** types.py:35-51, 76-92 *)
Definition ext_cmp {A} (c : A -> A -> comparison) (x y : ext A) : comparison :=
  match x, y with
  | NegInf, NegInf => Eq
  | NegInf, _ => Lt
  | _, NegInf => Gt
  | Fin a, Fin b => c a b
  | Fin _, PosInf => Lt
  | PosInf, Fin _ => Gt
  | PosInf, PosInf => Eq
  end.

(** local.py:39-46: [(part, "")] for integers, [(-infinity, part)] for strings *)
Definition local_part_key (p : local_part) : ext Z * pstr :=
  match p with LInt z => (Fin z, []) | LStr s => (NegInf, s) end.

Definition local_part_key_cmp (x y : ext Z * pstr) : comparison :=
  then_cmp (ext_cmp Z.compare (fst x) (fst y)) (str_cmp (snd x) (snd y)).

(** version.py:29-36, with [Epoch], [Release], [Local] replaced by the fields
    attrs compares: the value, [compare_parts] and [compare_parts]. *)
Record vkey := VKey {
  k_epoch : Z;
  k_release : list Z;
  k_pre : ext tag;
  k_post : ext tag;
  k_dev : ext tag;
  k_local : ext (list (ext Z * pstr))
}.

(** version.py:83-104 *)
Definition compute_compare_tags (pre post dev : option tag) : ext tag * ext tag * ext tag :=
  let compare_pre :=
    match pre with
    | None =>
        match post, dev with
        | None, Some _ => NegInf
        | _, _ => PosInf
        end
    | Some t => Fin t
    end in
  let compare_post := match post with None => NegInf | Some t => Fin t end in
  let compare_dev := match dev with None => PosInf | Some t => Fin t end in
  (compare_pre, compare_post, compare_dev).

(** version.py:106-108 *)
Definition compute_compare_local (l : option (list local_part)) : ext (list (ext Z * pstr)) :=
  match l with None => NegInf | Some l => Fin (map local_part_key l) end.

(** version.py:63-81 *)
Definition key (v : version) : vkey :=
  let '(pre, post, dev) := compute_compare_tags (v_pre v) (v_post v) (v_dev v) in
  VKey (v_epoch v) (rel_compare_parts (v_release v)) pre post dev
       (compute_compare_local (v_local v)).

(** Tuple comparison of compare keys. *)
Definition key_cmp (x y : vkey) : comparison :=
  then_cmp (Z.compare (k_epoch x) (k_epoch y))
  (then_cmp (lex Z.compare (k_release x) (k_release y))
  (then_cmp (ext_cmp tag_cmp (k_pre x) (k_pre y))
  (then_cmp (ext_cmp tag_cmp (k_post x) (k_post y))
  (then_cmp (ext_cmp tag_cmp (k_dev x) (k_dev y))
            (ext_cmp (lex local_part_key_cmp) (k_local x) (k_local y)))))).

(** attrs [eq=True, order=True] on the single compared field [compare_key]
    (version.py:39, 61). *)
Definition v_cmp (v w : version) : comparison := key_cmp (key v) (key w).
Definition v_eq (v w : version) : bool := is_eq (v_cmp v w).
Definition v_ne (v w : version) : bool := negb (is_eq (v_cmp v w)).
Definition v_lt (v w : version) : bool := is_lt (v_cmp v w).
Definition v_le (v w : version) : bool := negb (is_gt (v_cmp v w)).
Definition v_gt (v w : version) : bool := is_gt (v_cmp v w).
Definition v_ge (v w : version) : bool := negb (is_lt (v_cmp v w)).

(** ** Rendering *)

(** version.py:122-153, 187-193; [if epoch] is epoch.py:19-20 *)
Definition to_string (v : version) : pstr :=
  (if v_epoch v =? 0 then [] else str_int (v_epoch v) ++ lit "!")
  ++ rel_to_string (v_release v)
  ++ match v_pre v with None => [] | Some t => lit "-" ++ tag_to_string t end
  ++ match v_post v with None => [] | Some t => lit "-" ++ tag_to_string t end
  ++ match v_dev v with None => [] | Some t => lit "-" ++ tag_to_string t end
  ++ match v_local v with None => [] | Some l => lit "+" ++ local_to_string l end.

(** version.py:155-185, 195-201; epoch, release and local inherit
    [to_short_string] = [to_string] (string.py:77-78) *)
Definition to_short_string (v : version) : pstr :=
  (if v_epoch v =? 0 then [] else str_int (v_epoch v) ++ lit "!")
  ++ rel_to_string (v_release v)
  ++ match v_pre v with None => [] | Some t => tag_to_short_string t end
  ++ match v_post v with None => [] | Some t => lit "." ++ tag_to_short_string t end
  ++ match v_dev v with None => [] | Some t => lit "." ++ tag_to_short_string t end
  ++ match v_local v with None => [] | Some l => lit "+" ++ local_to_string l end.

(** ** Updates.  [evolve] rebuilds the version from its segments; the segment
    values are already constructed, so it cannot fail. *)

(** version.py:305-306, 311-312, 675-709 *)
Definition set_epoch (v : version) (e : Z) : version :=
  Version e (v_release v) (v_pre v) (v_post v) (v_dev v) (v_local v).
Definition set_release (v : version) (r : list Z) : version :=
  Version (v_epoch v) r (v_pre v) (v_post v) (v_dev v) (v_local v).
Definition set_pre (v : version) (t : option tag) : version :=
  Version (v_epoch v) (v_release v) t (v_post v) (v_dev v) (v_local v).
Definition set_post (v : version) (t : option tag) : version :=
  Version (v_epoch v) (v_release v) (v_pre v) t (v_dev v) (v_local v).
Definition set_dev (v : version) (t : option tag) : version :=
  Version (v_epoch v) (v_release v) (v_pre v) (v_post v) t (v_local v).
Definition set_tags (v : version) (pre post dev : option tag) : version :=
  Version (v_epoch v) (v_release v) pre post dev (v_local v).
Definition set_local (v : version) (l : option (list local_part)) : version :=
  Version (v_epoch v) (v_release v) (v_pre v) (v_post v) (v_dev v) l.
Definition set_dev_and_local (v : version) (dev : option tag) l : version :=
  Version (v_epoch v) (v_release v) (v_pre v) (v_post v) dev l.
Definition set_tags_and_local (v : version) (pre post dev : option tag) l : version :=
  Version (v_epoch v) (v_release v) pre post dev l.

(** version.py:308-309 *)
Definition set_epoch_value (v : version) (e : Z) : version := set_epoch v e.

(** version.py:314-315 *)
Definition set_release_parts (v : version) (parts : list Z) : result version :=
  let* r := release_new parts in Ok (set_release v r).

(** version.py:692-697 *)
Definition set_local_parts (v : version) (parts : list local_part) : result version :=
  let* l := local_new parts in Ok (set_local v (Some l)).

(** version.py:711-762 *)
Definition with_pre v (t : tag) := set_pre v (Some t).
Definition with_post v (t : tag) := set_post v (Some t).
Definition with_dev v (t : tag) := set_dev v (Some t).
Definition with_tags v (pre post dev : tag) := set_tags v (Some pre) (Some post) (Some dev).
Definition with_local v (l : list local_part) := set_local v (Some l).
Definition with_dev_and_local v (dev : tag) (l : list local_part) :=
  set_dev_and_local v (Some dev) (Some l).
Definition with_tags_and_local v (pre post dev : tag) (l : list local_part) :=
  set_tags_and_local v (Some pre) (Some post) (Some dev) (Some l).

(** version.py:764-803 *)
Definition without_pre v := set_pre v None.
Definition without_post v := set_post v None.
Definition without_dev v := set_dev v None.
Definition without_tags v := set_tags v None None None.
Definition without_local v := set_local v None.
Definition without_dev_and_local v := set_dev_and_local v None None.
Definition without_tags_and_local v := set_tags_and_local v None None None None.

(** version.py:222-271, 287-294 *)
Definition precision (v : version) : Z := rel_precision (v_release v).
Definition last_index (v : version) : Z := rel_last_index (v_release v).
Definition major v := rel_major (v_release v).
Definition minor v := rel_minor (v_release v).
Definition micro v := rel_micro (v_release v).
Definition extra v := rel_extra (v_release v).
Definition get_at (v : version) (i default : Z) : result Z := rel_get_at (v_release v) i default.
Definition get_at_unchecked (v : version) (i : Z) : result Z := rel_get_at_unchecked (v_release v) i.
Definition is_semantic v := rel_is_semantic (v_release v).

(** version.py:471-519 *)
Definition has_major v := rel_has_major (v_release v).
Definition has_minor v := rel_has_minor (v_release v).
Definition has_micro v := rel_has_micro (v_release v).
Definition has_extra v := rel_has_extra (v_release v).
Definition has_at v (i : Z) := rel_has_at (v_release v) i.

(** version.py:296-303 *)
Definition to_semantic (v : version) : result version :=
  let* r := rel_to_semantic (v_release v) in Ok (set_release v r).

(** version.py:317-318 *)
Definition slice (v : version) (i : Z) : result version :=
  let* r := rel_slice (v_release v) i in Ok (set_release v r).

(** version.py:366-391; set_major, set_minor, set_micro and set_patch
    (version.py:320-364, release.py:192-236) are the instances 0, 1, 2, 2 *)
Definition set_at (v : version) (i x : Z) : result version :=
  let* r := rel_set_at (v_release v) i x in Ok (set_release v r).
Definition set_at_unchecked (v : version) (i x : Z) : result version :=
  let* r := rel_set_at_unchecked (v_release v) i x in Ok (set_release v r).
Definition set_major v x := set_at v MAJOR x.
Definition set_minor v x := set_at v MINOR x.
Definition set_micro v x := set_at v MICRO x.

(** version.py:521-554 *)
Definition pad_to (v : version) (length padding : Z) : result version :=
  let* r := rel_pad_to (v_release v) length padding in Ok (set_release v r).
Definition pad_to_index (v : version) (i padding : Z) : result version :=
  let* r := rel_pad_to_index (v_release v) i padding in Ok (set_release v r).
Definition pad_to_next (v : version) (padding : Z) : result version :=
  let* r := rel_pad_to_next (v_release v) padding in Ok (set_release v r).

(** version.py:556-602 *)
Definition is_pre_release (v : version) : bool := match v_pre v with None => false | _ => true end.
Definition is_post_release (v : version) : bool := match v_post v with None => false | _ => true end.
Definition is_dev_release (v : version) : bool := match v_dev v with None => false | _ => true end.
Definition is_local (v : version) : bool := match v_local v with None => false | _ => true end.
Definition is_unstable v := is_pre_release v || is_dev_release v.
Definition is_stable v := negb (is_unstable v).

(** version.py:393-394, epoch.py:65-71 *)
Definition next_epoch (v : version) : version := set_epoch v (v_epoch v + 1).

(** version.py:454-469 *)
Definition next_at (v : version) (i : Z) : result version :=
  let* r := (if is_stable v then rel_next_at (v_release v) i else Ok (v_release v)) in
  Ok (set_release (without_tags_and_local v) r).

(** version.py:396-452: the same body with release.next_major, next_minor,
    next_micro/next_patch (release.py:268-300), which are next_at 0, 1, 2 *)
Definition next_major v := next_at v MAJOR.
Definition next_minor v := next_at v MINOR.
Definition next_micro v := next_at v MICRO.

(** version.py:604-619 *)
Definition next_pre (v : version) : result version :=
  let* t := match v_pre v with None => tag_default PreTag | Some t => tag_next PreTag t end in
  Ok (with_pre (without_tags_and_local v) t).

(** version.py:621-639 *)
Definition next_pre_phase (v : version) : result (option version) :=
  let* o := match v_pre v with
            | None => let* t := tag_default PreTag in Ok (Some t)
            | Some t => tag_next_phase PreTag t
            end in
  match o with
  | None => Ok None
  | Some t => Ok (Some (with_pre (without_tags_and_local v) t))
  end.

(** version.py:641-656 *)
Definition next_post (v : version) : result version :=
  let* t := match v_post v with None => tag_default PostTag | Some t => tag_next PostTag t end in
  Ok (without_dev_and_local (with_post v t)).

(** version.py:658-673 *)
Definition next_dev (v : version) : result version :=
  let* t := match v_dev v with None => tag_default DevTag | Some t => tag_next DevTag t end in
  Ok (without_local (with_dev v t)).

(** version.py:805-820 *)
Definition weaken (self other : version) : version :=
  let other := if negb (is_local self) && is_local other then without_local other else other in
  if negb (is_post_release self) && is_post_release other then without_post other else other.

(** version.py:822-836 *)
Definition to_stable_unchecked v := without_tags_and_local v.
Definition to_stable v := if is_stable v then v else to_stable_unchecked v.

(** version.py:838-869 *)
Definition next_breaking (v : version) : result version :=
  let* mj := major v in
  if mj =? 0 then
    let* mn := minor v in
    if negb (mn =? 0) then next_minor v
    else if has_micro v then next_micro v
    else if has_minor v then next_minor v
    else next_major v
  else next_major (to_stable v).

(** version.py:871-892 *)
Definition normalize (v : version) : result version :=
  let* pre := mapO (tag_normalize PreTag) (v_pre v) in
  let* post := mapO (tag_normalize PostTag) (v_post v) in
  let* dev := mapO (tag_normalize DevTag) (v_dev v) in
  Ok (set_tags v pre post dev).

(** version.py:203-220 *)
Definition to_pep440_string (v : version) : result pstr :=
  let* n := normalize v in Ok (to_short_string n).

(** version.py:894-925 *)
Definition create (e : option Z) (r : option (list Z)) pre post dev l : version :=
  Version (match e with None => 0 | Some e => e end)
          (match r with None => DEFAULT_PARTS | Some r => r end) pre post dev l.

(** version.py:927-953 *)
Definition from_parts (parts : list Z) (e : option Z) pre post dev l : result version :=
  let* r := release_new parts in Ok (create e (Some r) pre post dev l).

(** ** What the constructors enforce *)

Definition valid_tag (c : tag_class) (t : tag) : bool :=
  str_in (phase t) (phase_set c) && str_eqb (convert_phase (phase t)) (phase t).

Definition valid_otag (c : tag_class) (o : option tag) : bool :=
  match o with None => true | Some t => valid_tag c t end.

(** A value of class Version: non-empty release (release.py:37-40), tags with
    a converted phase of their class (tags.py:47-60), non-empty local
    (local.py:34-37). *)
Definition valid_version (v : version) : bool :=
  match v_release v with [] => false | _ => true end
  && valid_otag PreTag (v_pre v) && valid_otag PostTag (v_post v)
  && valid_otag DevTag (v_dev v)
  && match v_local v with Some [] => false | _ => true end.
