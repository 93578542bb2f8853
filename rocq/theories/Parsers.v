(** [versions/parsers.py] and [versions/functions.py] (without the caches). *)

From Coq Require Import List ZArith NArith String Bool.
From Verif Require Import Py Segments Version VersionSets Operators Specifiers Regex Patterns.
Import ListNotations.
Open Scope Z_scope.

(** parsers.py:71-95, tags.py:152-162 *)
Definition parse_tag (c : tag_class) (s : pstr) : result tag :=
  match fullmatch TAG s with
  | None => Err ParseTagError
  | Some m =>
      match get_group G_PHASE m with
      | None => Err InternalError
      | Some p =>
          match get_group G_VALUE m with
          | None => tag_new c p 0
          | Some vs => let* v := py_int vs in tag_new c p v
          end
      end
  end.

(** parsers.py:102-128 *)
Definition parse_epoch_optional (o : option pstr) : result Z :=
  match o with None => Ok 0 | Some s => py_int s end.
Definition parse_release_optional (o : option pstr) : result (list Z) :=
  match o with None => Ok DEFAULT_PARTS | Some s => rel_from_string s end.
Definition parse_tag_optional (c : tag_class) (o : option pstr) : result (option tag) :=
  mapO (parse_tag c) o.
Definition parse_post_implicit_optional (o : option pstr) : result (option tag) :=
  mapO (fun s => let* v := py_int s in default_phase_with_value PostTag v) o.
Definition parse_local_optional (o : option pstr) : result (option (list local_part)) :=
  mapO local_from_string o.

(** parsers.py:130-148, version.py:110-120, with [version_type = Version] *)
Definition parse_version (s : pstr) : result version :=
  match fullmatch VERSION s with
  | None => Err ParseVersionError
  | Some m =>
      let* e := parse_epoch_optional (get_group G_EPOCH m) in
      let* r := parse_release_optional (get_group G_RELEASE m) in
      let* pre := parse_tag_optional PreTag (get_group G_PRE m) in
      let* imp := parse_post_implicit_optional (get_group G_POST_IMPLICIT m) in
      let* post := (match imp with
                    | Some t => Ok (Some t)
                    | None => parse_tag_optional PostTag (get_group G_POST m)
                    end) in
      let* dev := parse_tag_optional DevTag (get_group G_DEV m) in
      let* l := parse_local_optional (get_group G_LOCAL m) in
      Ok (Version e r pre post dev l)
  end.

(** parsers.py:194-214 *)
Definition try_parse_with (pattern : re) (s : pstr) : result (option spec) :=
  match fullmatch pattern s with
  | None => Ok None
  | Some m =>
      match get_group G_OPERATOR m with
      | None => Err InternalError
      | Some o =>
          let* t := op_of_value o in
          match get_group G_VERSION m with
          | None => Err InternalError
          | Some vs =>
              let* v := parse_version vs in
              let* s := one_new t v in Ok (Some s)
          end
      end
  end.

(** parsers.py:185-192 *)
Definition try_parse_caret := try_parse_with CARET_SPECIFICATION.
Definition try_parse_tilde := try_parse_with TILDE_SPECIFICATION.
Definition try_parse_order := try_parse_with ORDER_SPECIFICATION.

(** parsers.py:216-237 *)
Definition try_parse_equal (s : pstr) : result (option spec) :=
  match fullmatch EQUAL_SPECIFICATION s with
  | None => Ok None
  | Some m =>
      let* t := (match get_group G_OPERATOR m with
                 | None => Ok EQUAL
                 | Some o => op_of_value o
                 end) in
      match get_group G_VERSION m with
      | None => Err InternalError
      | Some vs =>
          let* v := parse_version vs in
          let* s := one_new t v in Ok (Some s)
      end
  end.

(** [s.replace(a, b)] for single characters *)
Definition replace_char (a b : N) (s : pstr) : pstr :=
  map (fun c => if (c =? a)%N then b else c) s.

(** parsers.py:239-262 *)
Definition try_parse_wildcard (s : pstr) : result (option spec) :=
  match fullmatch WILDCARD_SPECIFICATION s with
  | None => Ok None
  | Some m =>
      let* t := (match get_group G_OPERATOR m with
                 | None => Ok WILDCARD_EQUAL
                 | Some o => op_of_value (o ++ lit "*")
                 end) in
      match get_group G_VERSION m with
      | None => Err InternalError
      | Some vs =>
          let* v := parse_version (replace_char 42 48 (replace_char 120 42 vs)) in
          let* s := one_new t v in Ok (Some s)
      end
  end.

(** parsers.py:170-183: the first parser that succeeds *)
Fixpoint first_parser (ps : list (pstr -> result (option spec))) (s : pstr) : result spec :=
  match ps with
  | [] => Err ParseSpecificationError
  | p :: ps' =>
      let* o := p s in
      match o with Some x => Ok x | None => first_parser ps' s end
  end.

Definition parse_single : pstr -> result spec :=
  first_parser [try_parse_wildcard; try_parse_order; try_parse_equal; try_parse_caret;
                try_parse_tilde].

(** string.py:160-161; parsers.py:167-168 *)
Definition parse_all (s : pstr) : result spec :=
  let* ss := mapM parse_single (split_on 44 s) in Ok (all_of ss).

(** string.py:168-170 *)
Definition split_pipes (s : pstr) : list pstr := split_on 124 (replace_double 124 s).

(** parsers.py:164-165 *)
Definition parse_any (s : pstr) : result spec :=
  let* ss := mapM parse_all (split_pipes s) in Ok (any_of ss).

(** string.py:122-123 *)
Definition clear_whitespace (s : pstr) : pstr := List.concat (split_ws (strip s)).

(** parsers.py:161-162, functions.py:42-53 *)
Definition parse_specifier (s : pstr) : result spec := parse_any (clear_whitespace s).

(** parsers.py:269-270, functions.py:56-67 *)
Definition parse_version_set (s : pstr) : result vset :=
  let* p := parse_specifier s in specifier_to_version_set p.
