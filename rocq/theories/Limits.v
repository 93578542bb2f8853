(** Parsing and rendering under CPython's limit on the digits of integers
    ([sys.set_int_max_str_digits], since 3.11 and 3.10.7): [int(s)] raises
    [ValueError] when [s] has more digits than the limit, leading zeros
    included, and so does [str(n)] when it would write more.  The limit is
    [None] if switched off, 4300 by default, and at least 640.  The functions
    below are those of [Segments.v], [Version.v], [Parsers.v] and
    [Specifiers.v], with [int] and [str] replaced. *)

From Coq Require Import List ZArith NArith String Bool.
From Verif Require Import Py Segments Version VersionSets Operators SetStrings Specifiers Regex Patterns Parsers.
Import ListNotations.
Open Scope Z_scope.

Definition within (k : option nat) (s : pstr) : bool :=
  match k with None => true | Some k => (List.length s <=? k)%nat end.

(** [int(s)] for strings of ASCII digits *)
Definition int_within (k : option nat) (s : pstr) : result Z :=
  if within k s then py_int s else Err ValueError.

(** [str(z)]; the sign does not count *)
Definition str_within (k : option nat) (z : Z) : result pstr :=
  if within k (str_int (Z.abs z)) then Ok (str_int z) else Err ValueError.

(** ** Parsing *)

Section Parsing.
Variable k : option nat.

(** parsers.py:71-95 *)
Definition parse_tag_within (c : tag_class) (s : pstr) : result tag :=
  match fullmatch TAG s with
  | None => Err ParseTagError
  | Some m =>
      match get_group G_PHASE m with
      | None => Err InternalError
      | Some p =>
          match get_group G_VALUE m with
          | None => tag_new c p 0
          | Some vs => let* v := int_within k vs in tag_new c p v
          end
      end
  end.

(** release.py:413-423 *)
Definition release_within (s : pstr) : result (list Z) :=
  let* parts := mapM (int_within k) (split_on 46 s) in release_new parts.

(** local.py:19-20, 103-113 *)
Definition local_part_within (s : pstr) : result local_part :=
  if check_int s then let* z := int_within k s in Ok (LInt z) else Ok (LStr s).
Definition local_within (s : pstr) : result (list local_part) :=
  let* parts := mapM local_part_within (split_separators s) in local_new parts.

(** parsers.py:102-148 *)
Definition parse_version_within (s : pstr) : result version :=
  match fullmatch VERSION s with
  | None => Err ParseVersionError
  | Some m =>
      let* e := (match get_group G_EPOCH m with None => Ok 0 | Some x => int_within k x end) in
      let* r := (match get_group G_RELEASE m with None => Ok DEFAULT_PARTS | Some x => release_within x end) in
      let* pre := mapO (parse_tag_within PreTag) (get_group G_PRE m) in
      let* imp := mapO (fun x => let* v := int_within k x in default_phase_with_value PostTag v) (get_group G_POST_IMPLICIT m) in
      let* post := (match imp with
                    | Some t => Ok (Some t)
                    | None => mapO (parse_tag_within PostTag) (get_group G_POST m)
                    end) in
      let* dev := mapO (parse_tag_within DevTag) (get_group G_DEV m) in
      let* l := mapO local_within (get_group G_LOCAL m) in
      Ok (Version e r pre post dev l)
  end.

(** ** Rendering *)

(** tags.py:164-178 *)
Definition tag_string_within (t : tag) : result pstr :=
  let* n := str_within k (value t) in Ok (join (lit ".") [phase t; n]).
Definition tag_short_string_within (t : tag) : result pstr :=
  let* n := str_within k (value t) in Ok (tag_short t ++ n).

(** release.py:425-431 *)
Definition release_string_within (r : list Z) : result pstr :=
  let* ns := mapM (str_within k) r in Ok (join (lit ".") ns).

(** local.py:115-121 *)
Definition local_string_within (l : list local_part) : result pstr :=
  let* ns := mapM (fun p => match p with LInt z => str_within k z | LStr s => Ok s end) l in Ok (join (lit ".") ns).

Definition prefixed {A} (p : pstr) (f : A -> result pstr) (o : option A) : result pstr :=
  match o with None => Ok [] | Some a => let* s := f a in Ok (p ++ s) end.

(** version.py:122-201; [tag] renders tags, with [s1] before the pre-release
    and [s2] before the others *)
Definition render_within (tag : tag -> result pstr) (s1 s2 : pstr) (v : version) : result pstr :=
  let* e := (if v_epoch v =? 0 then Ok [] else let* n := str_within k (v_epoch v) in Ok (n ++ lit "!")) in
  let* r := release_string_within (v_release v) in
  let* pre := prefixed s1 tag (v_pre v) in
  let* post := prefixed s2 tag (v_post v) in
  let* dev := prefixed s2 tag (v_dev v) in
  let* l := prefixed (lit "+") local_string_within (v_local v) in
  Ok (e ++ r ++ pre ++ post ++ dev ++ l).
Definition to_string_within : version -> result pstr := render_within tag_string_within (lit "-") (lit "-").
Definition to_short_string_within : version -> result pstr := render_within tag_short_string_within [] (lit ".").

(** operators.py:954-982 *)
Definition op_string_within (t : op_type) (v : version) : result pstr :=
  let* s := to_string_within v in
  let s := if op_is_wildcard t then wildcard_string s else s in
  Ok (if op_is_unary t then op_string t ++ s else op_string t ++ lit " " ++ s).

(** specifiers.py:58-59, 72-73, 136-139, 182-185 *)
Fixpoint spec_string_within (s : spec) : result pstr :=
  let strings := fix strings ss :=
    match ss with
    | [] => Ok []
    | s :: ss' => let* x := spec_string_within s in let* xs := strings ss' in Ok (x :: xs)
    end in
  match s with
  | Never => Ok EMPTY_VERSION
  | Always => Ok UNIVERSE_VERSION
  | One t v => op_string_within t v
  | AnyOf ss => let* xs := strings ss in Ok (wrap (join (lit " || ") xs))
  | AllOf ss => let* xs := strings ss in Ok (wrap (join (lit ", ") xs))
  end.

End Parsing.

(** ** Specifications, for any parser of versions *)

Section Specifications.
Variable pv : pstr -> result version.

(** parsers.py:194-214 *)
Definition try_with_by (pattern : re) (s : pstr) : result (option spec) :=
  match fullmatch pattern s with
  | None => Ok None
  | Some m =>
      match get_group G_OPERATOR m with
      | None => Err InternalError
      | Some o =>
          let* t := op_of_value o in
          match get_group G_VERSION m with
          | None => Err InternalError
          | Some vs =>
              let* v := pv vs in
              let* s := one_new t v in Ok (Some s)
          end
      end
  end.

(** parsers.py:216-237 *)
Definition try_equal_by (s : pstr) : result (option spec) :=
  match fullmatch EQUAL_SPECIFICATION s with
  | None => Ok None
  | Some m =>
      let* t := (match get_group G_OPERATOR m with
                 | None => Ok EQUAL
                 | Some o => op_of_value o
                 end) in
      match get_group G_VERSION m with
      | None => Err InternalError
      | Some vs =>
          let* v := pv vs in
          let* s := one_new t v in Ok (Some s)
      end
  end.

(** parsers.py:239-262 *)
Definition try_wildcard_by (s : pstr) : result (option spec) :=
  match fullmatch WILDCARD_SPECIFICATION s with
  | None => Ok None
  | Some m =>
      let* t := (match get_group G_OPERATOR m with
                 | None => Ok WILDCARD_EQUAL
                 | Some o => op_of_value (o ++ lit "*")
                 end) in
      match get_group G_VERSION m with
      | None => Err InternalError
      | Some vs =>
          let* v := pv (replace_char 42 48 (replace_char 120 42 vs)) in
          let* s := one_new t v in Ok (Some s)
      end
  end.

(** parsers.py:161-192 *)
Definition parse_single_by : pstr -> result spec :=
  first_parser [try_wildcard_by; try_with_by ORDER_SPECIFICATION; try_equal_by;
                try_with_by CARET_SPECIFICATION; try_with_by TILDE_SPECIFICATION].
Definition parse_all_by (s : pstr) : result spec :=
  let* ss := mapM parse_single_by (split_on 44 s) in Ok (all_of ss).
Definition parse_any_by (s : pstr) : result spec :=
  let* ss := mapM parse_all_by (split_pipes s) in Ok (any_of ss).
Definition parse_specifier_by (s : pstr) : result spec := parse_any_by (clear_whitespace s).

End Specifications.

(** functions.py:42-67 *)
Definition parse_specifier_within (k : option nat) : pstr -> result spec := parse_specifier_by (parse_version_within k).
Definition parse_version_set_within (k : option nat) (s : pstr) : result vset :=
  let* p := parse_specifier_within k s in specifier_to_version_set p.
