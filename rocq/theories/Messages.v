(** The messages of the exceptions raised while parsing: [versions/parsers.py]
    once more, with the text each [raise] formats.  [C110_same] says that
    without the texts these are the functions of [Parsers.v]. *)

From Coq Require Import List ZArith NArith String Bool.
From Verif Require Import Py Segments Version VersionSets Operators Specifiers Regex Patterns Parsers.
Import ListNotations.
Open Scope Z_scope.

(** A result, or an exception with its message; [None] for messages written by
    Python itself and for those of conversions, which are not modelled. *)
Inductive told (A : Type) : Type := Fine (a : A) | Told (e : error) (message : option pstr).
Arguments Fine {A} a.
Arguments Told {A} e message.

Definition tell {A B} (r : told A) (f : A -> told B) : told B :=
  match r with Fine a => f a | Told e m => Told e m end.
Notation "'let!' x := r 'in' b" := (tell r (fun x => b)) (at level 200, x pattern, r at level 100, b at level 200).

(** What is raised, without the message. *)
Definition silent {A} (r : told A) : result A := match r with Fine a => Ok a | Told e _ => Err e end.

(** Calls whose messages are not modelled. *)
Definition untold {A} (r : result A) : told A := match r with Ok a => Fine a | Err e => Told e None end.

(** [str.format] with two fields *)
Definition format (before between after : pstr) (a b : pstr) : pstr := before ++ a ++ between ++ b ++ after.

(** parsers.py:58 *)
Definition CAN_NOT_PARSE : pstr -> pstr -> pstr := format (lit "can not parse `") (lit "` to `") (lit "`").
(** tags.py:32 *)
Definition PHASE_NOT_ALLOWED : pstr -> pstr -> pstr := format (lit "phase `") (lit "` is not allowed in `") (lit "`").
(** release.py:25 *)
Definition EMPTY_RELEASE : pstr := lit "releases can not be empty".
(** local.py:16 *)
Definition EMPTY_LOCAL : pstr := lit "local can not be empty".
(** operators.py:108 *)
Definition CAN_NOT_USE_TILDE_EQUAL : pstr := lit "`~=` can not be used with with a single version segment".
(** parsers.py:68, 151, 153, 154 *)
Definition PHASE_IS_NONE : pstr := lit "the tag was matched but the `phase` is `None`".
Definition SPECIFICATION : pstr := lit "specification".
Definition OPERATOR_IS_NONE : pstr := lit "specification was matched but `operator` is `None`".
Definition VERSION_IS_NONE : pstr := lit "specification was matched but `version` is `None`".

(** [get_name] of the classes of tags (tags.py:41, 183, 192, 201) *)
Definition tag_name (c : tag_class) : pstr :=
  match c with AnyTag => lit "Tag" | PreTag => lit "PreTag" | PostTag => lit "PostTag" | DevTag => lit "DevTag" end.

Fixpoint tell_each {A B} (f : A -> told B) (xs : list A) : told (list B) :=
  match xs with
  | [] => Fine []
  | x :: xs' => let! y := f x in let! ys := tell_each f xs' in Fine (y :: ys)
  end.

Definition tell_optional {A B} (f : A -> told B) (o : option A) : told (option B) :=
  match o with None => Fine None | Some a => let! b := f a in Fine (Some b) end.

(** tags.py:47-60 *)
Definition told_tag_new (c : tag_class) (p : pstr) (v : Z) : told tag :=
  let p := convert_phase p in
  if str_in p (phase_set c) then Fine (Tag p v) else Told ValueError (Some (PHASE_NOT_ALLOWED p (tag_name c))).

(** parsers.py:71-95 *)
Definition told_parse_tag (c : tag_class) (s : pstr) : told tag :=
  match fullmatch TAG s with
  | None => Told ParseTagError (Some (CAN_NOT_PARSE s (tag_name c)))
  | Some m =>
      match get_group G_PHASE m with
      | None => Told InternalError (Some PHASE_IS_NONE)
      | Some p =>
          match get_group G_VALUE m with
          | None => told_tag_new c p 0
          | Some vs => let! v := untold (py_int vs) in told_tag_new c p v
          end
      end
  end.

(** release.py:37-40, 413-423 *)
Definition told_release_new (parts : list Z) : told (list Z) :=
  match parts with [] => Told ValueError (Some EMPTY_RELEASE) | _ => Fine parts end.
Definition told_release (s : pstr) : told (list Z) :=
  let! parts := tell_each (fun x => untold (py_int x)) (split_on 46 s) in told_release_new parts.

(** local.py:34-37, 103-113 *)
Definition told_local_new (parts : list local_part) : told (list local_part) :=
  match parts with [] => Told ValueError (Some EMPTY_LOCAL) | _ => Fine parts end.
Definition told_local (s : pstr) : told (list local_part) :=
  let! parts := tell_each (fun x => untold (local_part_of x)) (split_separators s) in told_local_new parts.

(** parsers.py:102-128 *)
Definition told_epoch_optional (o : option pstr) : told Z := match o with None => Fine 0 | Some s => untold (py_int s) end.
Definition told_release_optional (o : option pstr) : told (list Z) :=
  match o with None => Fine DEFAULT_PARTS | Some s => told_release s end.
Definition told_tag_optional (c : tag_class) (o : option pstr) : told (option tag) := tell_optional (told_parse_tag c) o.
Definition told_post_implicit_optional (o : option pstr) : told (option tag) :=
  tell_optional (fun s => let! v := untold (py_int s) in told_tag_new PostTag (default_phase PostTag) v) o.
Definition told_local_optional (o : option pstr) : told (option (list local_part)) := tell_optional told_local o.

(** parsers.py:130-148; [name] is that of the class of versions parsed *)
Definition told_parse_version (name : pstr) (s : pstr) : told version :=
  match fullmatch VERSION s with
  | None => Told ParseVersionError (Some (CAN_NOT_PARSE s name))
  | Some m =>
      let! e := told_epoch_optional (get_group G_EPOCH m) in
      let! r := told_release_optional (get_group G_RELEASE m) in
      let! pre := told_tag_optional PreTag (get_group G_PRE m) in
      let! imp := told_post_implicit_optional (get_group G_POST_IMPLICIT m) in
      let! post := (match imp with
                    | Some t => Fine (Some t)
                    | None => told_tag_optional PostTag (get_group G_POST m)
                    end) in
      let! dev := told_tag_optional DevTag (get_group G_DEV m) in
      let! l := told_local_optional (get_group G_LOCAL m) in
      Fine (Version e r pre post dev l)
  end.

(** specifiers.py:79-86, operators.py:815-820 *)
Definition told_one_new (t : op_type) (v : version) : told spec :=
  if op_valid t v then Fine (One t v) else Told ValueError (Some CAN_NOT_USE_TILDE_EQUAL).

(** parsers.py:194-214 *)
Definition told_parse_with (name : pstr) (pattern : re) (s : pstr) : told (option spec) :=
  match fullmatch pattern s with
  | None => Fine None
  | Some m =>
      match get_group G_OPERATOR m with
      | None => Told InternalError (Some OPERATOR_IS_NONE)
      | Some o =>
          let! t := untold (op_of_value o) in
          match get_group G_VERSION m with
          | None => Told InternalError (Some VERSION_IS_NONE)
          | Some vs =>
              let! v := told_parse_version name vs in
              let! s := told_one_new t v in Fine (Some s)
          end
      end
  end.

(** parsers.py:185-192 *)
Definition told_parse_caret (name : pstr) := told_parse_with name CARET_SPECIFICATION.
Definition told_parse_tilde (name : pstr) := told_parse_with name TILDE_SPECIFICATION.
Definition told_parse_order (name : pstr) := told_parse_with name ORDER_SPECIFICATION.

(** parsers.py:216-237 *)
Definition told_parse_equal (name : pstr) (s : pstr) : told (option spec) :=
  match fullmatch EQUAL_SPECIFICATION s with
  | None => Fine None
  | Some m =>
      let! t := (match get_group G_OPERATOR m with
                 | None => Fine EQUAL
                 | Some o => untold (op_of_value o)
                 end) in
      match get_group G_VERSION m with
      | None => Told InternalError (Some VERSION_IS_NONE)
      | Some vs =>
          let! v := told_parse_version name vs in
          let! s := told_one_new t v in Fine (Some s)
      end
  end.

(** parsers.py:239-262 *)
Definition told_parse_wildcard (name : pstr) (s : pstr) : told (option spec) :=
  match fullmatch WILDCARD_SPECIFICATION s with
  | None => Fine None
  | Some m =>
      let! t := (match get_group G_OPERATOR m with
                 | None => Fine WILDCARD_EQUAL
                 | Some o => untold (op_of_value (o ++ lit "*"))
                 end) in
      match get_group G_VERSION m with
      | None => Told InternalError (Some VERSION_IS_NONE)
      | Some vs =>
          let! v := told_parse_version name (replace_char 42 48 (replace_char 120 42 vs)) in
          let! s := told_one_new t v in Fine (Some s)
      end
  end.

(** parsers.py:170-183 *)
Fixpoint told_first (ps : list (pstr -> told (option spec))) (s : pstr) : told spec :=
  match ps with
  | [] => Told ParseSpecificationError (Some (CAN_NOT_PARSE s SPECIFICATION))
  | p :: ps' =>
      let! o := p s in
      match o with Some x => Fine x | None => told_first ps' s end
  end.
Definition told_single (name : pstr) : pstr -> told spec :=
  told_first [told_parse_wildcard name; told_parse_order name; told_parse_equal name; told_parse_caret name; told_parse_tilde name].

(** parsers.py:161-168 *)
Definition told_all (name : pstr) (s : pstr) : told spec :=
  let! ss := tell_each (told_single name) (split_on 44 s) in Fine (all_of ss).
Definition told_any (name : pstr) (s : pstr) : told spec :=
  let! ss := tell_each (told_all name) (split_pipes s) in Fine (any_of ss).
Definition told_parse_specifier (name : pstr) (s : pstr) : told spec := told_any name (clear_whitespace s).

(** parsers.py:269-270 *)
Definition told_parse_version_set (name : pstr) (s : pstr) : told vset :=
  let! p := told_parse_specifier name s in untold (specifier_to_version_set p).
