(** The classes of the library as Python sees them: inheritance, the type
    guards ([is_version_set], [is_specifier], ...), [repr] of every object, and
    the constructors and predicates of [Operator]. *)

From Coq Require Import List ZArith NArith String Bool.
From Verif Require Import Py Segments Version VersionSets Operators SetStrings Specifiers Meta.
Import ListNotations.

(** Objects of the library that have a representation. *)
Inductive obj :=
| OEpoch (e : Z)
| ORelease (r : list Z)
| OTag (c : tag_class) (t : tag)
| OLocal (l : list local_part)
| OVersion (v : version)
| OOperator (t : op_type) (v : version)
| OSpec (s : spec)
| OSet (a : vset).

(** ** Classes *)

Inductive pyclass :=
| KEpoch | KRelease | KTag | KPreTag | KPostTag | KDevTag | KLocal | KVersion
| KOperator
| KSpecification
| KSpecifier | KSpecifierNever | KSpecifierAlways | KSpecifierOne | KSpecifierAny | KSpecifierAll
| KVersionSetProtocol | KVersionEmpty | KVersionRange | KVersionPoint | KVersionUnion.

(** Direct bases: tags.py:183, 192, 201; operators.py:806; specification.py:20;
    specifiers.py:44, 52, 66, 80, 102, 148; version_sets.py:59, 341, 391, 927, 1023.
    Simplification: [Representation], [ToString], [String] and [Protocol] are left
    out, since no guard asks for them. *)
Definition class_bases (k : pyclass) : list pyclass :=
  match k with
  | KPreTag | KPostTag | KDevTag => [KTag]
  | KSpecifier => [KSpecification]
  | KSpecifierNever | KSpecifierAlways | KSpecifierAny | KSpecifierAll => [KSpecifier]
  | KSpecifierOne => [KOperator; KSpecifier]
  | KVersionSetProtocol => [KSpecification]
  | KVersionEmpty | KVersionRange => [KVersionSetProtocol]
  | KVersionPoint => [KVersionRange]
  | KVersionUnion => [KSpecification]
  | _ => []
  end.

(** A class and the classes it inherits from, up to [depth] steps away. *)
Fixpoint class_ancestors (depth : nat) (k : pyclass) : list pyclass :=
  k :: match depth with
       | O => []
       | S d => flat_map (class_ancestors d) (class_bases k)
       end.

Definition class_number (k : pyclass) : N :=
  match k with
  | KEpoch => 0 | KRelease => 1 | KTag => 2 | KPreTag => 3 | KPostTag => 4 | KDevTag => 5 | KLocal => 6 | KVersion => 7
  | KOperator => 8 | KSpecification => 9 | KSpecifier => 10 | KSpecifierNever => 11 | KSpecifierAlways => 12
  | KSpecifierOne => 13 | KSpecifierAny => 14 | KSpecifierAll => 15 | KVersionSetProtocol => 16 | KVersionEmpty => 17
  | KVersionRange => 18 | KVersionPoint => 19 | KVersionUnion => 20
  end%N.

(** The class of an object. *)
Definition class_of (o : obj) : pyclass :=
  match o with
  | OEpoch _ => KEpoch
  | ORelease _ => KRelease
  | OTag AnyTag _ => KTag
  | OTag PreTag _ => KPreTag
  | OTag PostTag _ => KPostTag
  | OTag DevTag _ => KDevTag
  | OLocal _ => KLocal
  | OVersion _ => KVersion
  | OOperator _ _ => KOperator
  | OSpec Never => KSpecifierNever
  | OSpec Always => KSpecifierAlways
  | OSpec (One _ _) => KSpecifierOne
  | OSpec (AnyOf _) => KSpecifierAny
  | OSpec (AllOf _) => KSpecifierAll
  | OSet Empty => KVersionEmpty
  | OSet (Item (Point _)) => KVersionPoint
  | OSet (Item (Range _ _ _ _)) => KVersionRange
  | OSet (Union _) => KVersionUnion
  end.

(** [isinstance(o, k)].  For the protocol [Specification] Python looks for a
    method [accepts] instead; the classes that have one are those inheriting
    from the protocol. *)
Definition is_instance (o : obj) (k : pyclass) : bool :=
  existsb (fun k' => (class_number k' =? class_number k)%N) (class_ancestors 4 (class_of o)).

(** version_sets.py:276-313 *)
Definition is_version_empty (o : obj) : bool := is_instance o KVersionEmpty.
Definition is_version_point (o : obj) : bool := is_instance o KVersionPoint.
Definition is_version_range (o : obj) : bool := is_instance o KVersionRange.
Definition is_version_union (o : obj) : bool := is_instance o KVersionUnion.

(** version_sets.py:316-333, 1338, 1345 *)
Definition is_version_item (o : obj) : bool :=
  existsb (is_instance o) [KVersionPoint; KVersionRange].
Definition is_version_set (o : obj) : bool :=
  existsb (is_instance o) [KVersionEmpty; KVersionPoint; KVersionRange; KVersionUnion].

(** specifiers.py:193-272 *)
Definition is_specifier (o : obj) : bool := is_instance o KSpecifier.
Definition is_specifier_never (o : obj) : bool := is_instance o KSpecifierNever.
Definition is_specifier_always (o : obj) : bool := is_instance o KSpecifierAlways.
Definition is_specifier_one (o : obj) : bool := is_instance o KSpecifierOne.
Definition is_specifier_any (o : obj) : bool := is_instance o KSpecifierAny.
Definition is_specifier_all (o : obj) : bool := is_instance o KSpecifierAll.

(** specification.py:36-37 *)
Definition is_specification (o : obj) : bool := is_instance o KSpecification.

(** [o.accepts(v)]: specifiers.py:55-56, 69-70, 85-86, 133-134, 179-180;
    version_sets.py:105-115, 628, 961, 1109; nothing else has the method. *)
Definition obj_accepts (o : obj) (v : version) : result bool :=
  match o with
  | OSpec s => accepts s v
  | OSet a => Ok (contains a v)
  | _ => Err AttributeError
  end.

(** ** Representations *)

(** The names of the classes, as [get_type_name] returns them. *)
Definition class_name (k : pyclass) : pstr :=
  match k with
  | KEpoch => lit "Epoch"
  | KRelease => lit "Release"
  | KTag => lit "Tag"
  | KPreTag => lit "PreTag"
  | KPostTag => lit "PostTag"
  | KDevTag => lit "DevTag"
  | KLocal => lit "Local"
  | KVersion => lit "Version"
  | KOperator => lit "Operator"
  | KSpecification => lit "Specification"
  | KSpecifier => lit "Specifier"
  | KSpecifierNever => lit "SpecifierNever"
  | KSpecifierAlways => lit "SpecifierAlways"
  | KSpecifierOne => lit "SpecifierOne"
  | KSpecifierAny => lit "SpecifierAny"
  | KSpecifierAll => lit "SpecifierAll"
  | KVersionSetProtocol => lit "VersionSetProtocol"
  | KVersionEmpty => lit "VersionEmpty"
  | KVersionRange => lit "VersionRange"
  | KVersionPoint => lit "VersionPoint"
  | KVersionUnion => lit "VersionUnion"
  end.

(** [WRAP]: representation.py:13, specifiers.py:107, 153 *)
Definition class_wrap (k : pyclass) : bool :=
  match k with KSpecifierAny | KSpecifierAll => false | _ => true end.

(** [str(o)]: string.py:80-81 and the [to_string] of each class: epoch.py:46-52,
    release.py:425-431, tags.py:164-170, local.py:115-121, version.py:187-193,
    operators.py:954-968, specifiers.py:58-59, 72-73, 136-139, 182-185,
    version_sets.py:374-375, 916-917, 998-999, 1178-1186 *)
Definition obj_str (o : obj) : result pstr :=
  match o with
  | OEpoch e => Ok (str_int e)
  | ORelease r => Ok (rel_to_string r)
  | OTag _ t => Ok (tag_to_string t)
  | OLocal l => Ok (local_to_string l)
  | OVersion v => Ok (to_string v)
  | OOperator t v => Ok (op_to_string t v)
  | OSpec s => Ok (spec_to_string s)
  | OSet a => set_to_string a
  end.

(** representation.py:15-19 *)
Definition obj_repr (o : obj) : result pstr :=
  let* s := obj_str o in
  Ok (represent (class_wrap (class_of o)) (class_name (class_of o)) s).

(** ** Operators as objects *)

(** operators.py:805-820: [cls(type, version)], where [cls] is [SpecifierOne]
    (specifiers.py:80) if [specifier], else [Operator] *)
Definition operator_new (t : op_type) (specifier : bool) (v : version) : result obj :=
  if op_valid t v then Ok (if specifier then OSpec (One t v) else OOperator t v) else Err ValueError.

(** operators.py:697-734 *)
Definition is_tilde_equal t := op_is t TILDE_EQUAL.
Definition is_double_equal t := op_is t DOUBLE_EQUAL.
Definition is_not_equal t := op_is t NOT_EQUAL.
Definition is_less t := op_is t LESS.
Definition is_less_or_equal t := op_is t LESS_OR_EQUAL.
Definition is_greater t := op_is t GREATER.
Definition is_greater_or_equal t := op_is t GREATER_OR_EQUAL.
Definition is_caret t := op_is t CARET.
Definition is_equal t := op_is t EQUAL.
Definition is_tilde t := op_is t TILDE.
Definition is_wildcard_double_equal t := op_is t WILDCARD_DOUBLE_EQUAL.
Definition is_wildcard_equal t := op_is t WILDCARD_EQUAL.
Definition is_wildcard_not_equal t := op_is t WILDCARD_NOT_EQUAL.

(** operators.py:822-875: the predicates of [Operator] ask its type; those of
    other objects do not exist. *)
Definition obj_type (o : obj) : result op_type :=
  match o with
  | OOperator t _ => Ok t
  | OSpec (One t _) => Ok t
  | _ => Err AttributeError
  end.
Definition op_predicate (p : op_type -> bool) (o : obj) : result bool :=
  let* t := obj_type o in Ok (p t).

(** operators.py:877-927 *)
Definition new_tilde_equal := operator_new TILDE_EQUAL.
Definition new_double_equal := operator_new DOUBLE_EQUAL.
Definition new_not_equal := operator_new NOT_EQUAL.
Definition new_less := operator_new LESS.
Definition new_less_or_equal := operator_new LESS_OR_EQUAL.
Definition new_greater := operator_new GREATER.
Definition new_greater_or_equal := operator_new GREATER_OR_EQUAL.
Definition new_caret := operator_new CARET.
Definition new_equal := operator_new EQUAL.
Definition new_tilde := operator_new TILDE.
Definition new_wildcard_double_equal := operator_new WILDCARD_DOUBLE_EQUAL.
Definition new_wildcard_equal := operator_new WILDCARD_EQUAL.
Definition new_wildcard_not_equal := operator_new WILDCARD_NOT_EQUAL.

(** The class methods with the predicates of the same names. *)
Definition op_methods : list (pstr * (bool -> version -> result obj) * (op_type -> bool)) :=
  [(lit "tilde_equal", new_tilde_equal, is_tilde_equal);
   (lit "double_equal", new_double_equal, is_double_equal);
   (lit "not_equal", new_not_equal, is_not_equal);
   (lit "less", new_less, is_less);
   (lit "less_or_equal", new_less_or_equal, is_less_or_equal);
   (lit "greater", new_greater, is_greater);
   (lit "greater_or_equal", new_greater_or_equal, is_greater_or_equal);
   (lit "caret", new_caret, is_caret);
   (lit "equal", new_equal, is_equal);
   (lit "tilde", new_tilde, is_tilde);
   (lit "wildcard_double_equal", new_wildcard_double_equal, is_wildcard_double_equal);
   (lit "wildcard_equal", new_wildcard_equal, is_wildcard_equal);
   (lit "wildcard_not_equal", new_wildcard_not_equal, is_wildcard_not_equal)].

(** operators.py:929-945 and the table 788-802 *)
Definition matches_and_translate (t : op_type) := (op_matches t, op_translate t).
Definition operator_matches (t : op_type) := fst (matches_and_translate t).
Definition operator_translate (t : op_type) := snd (matches_and_translate t).

(** operators.py:243-247, 947-952 *)
Definition partial_matches (t : op_type) (v : version) : version -> result bool :=
  fun version => operator_matches t version v.
