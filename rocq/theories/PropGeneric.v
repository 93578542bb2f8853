(** Theorems about sets of any class of versions: C99, C100. *)

From Coq Require Import List ZArith NArith String Bool Lia.
From Verif Require Import Py Segments Version VersionSets Operators Specifiers Parsers Rich Spec Typed TypedSpec GenericSets GenericFacts TypedSets MixedSpec MixedFacts RenameFacts TypedSetFacts.
Import ListNotations.
Local Open Scope nat_scope.

Definition ver (s : string) : version := match parse_version (lit s) with Ok v => v | Err _ => Version 0 [0%Z] None None None None end.
Definition set_of (s : string) : vset := match parse_version_set (lit s) with Ok a => a | Err _ => Empty end.

(** ** C99 Sets see their versions only through comparisons *)

(** Versions replaced by others in the same order. *)
Theorem C99_tests f a b v : in_order f ->
  set_eqb (renamed f a) (renamed f b) = set_eqb a b /\ contains (renamed f a) (f v) = contains a v
  /\ includes (renamed f a) (renamed f b) = includes a b /\ intersects (renamed f a) (renamed f b) = intersects a b.
Proof. exact (fun O => renamed_tests f O a b v). Qed.
Print Assumptions C99_tests.

Theorem C99_operations f a b : in_order f ->
  union (renamed f a) (renamed f b) = rmap (renamed f) (union a b)
  /\ intersection (renamed f a) (renamed f b) = rmap (renamed f) (intersection a b)
  /\ difference (renamed f a) (renamed f b) = rmap (renamed f) (difference a b)
  /\ symmetric_difference (renamed f a) (renamed f b) = rmap (renamed f) (symmetric_difference a b)
  /\ complement (renamed f a) = rmap (renamed f) (complement a).
Proof. exact (fun O => renamed_operations f O a b). Qed.
Print Assumptions C99_operations.

Theorem C99_canonical f a : in_order f -> (canonical (renamed f a) <-> canonical a).
Proof. exact (fun O => renamed_canonical f O a). Qed.
Print Assumptions C99_canonical.

Theorem C99_epochs k : in_order (moved k).
Proof. exact (moved_in_order k). Qed.
Print Assumptions C99_epochs.

Theorem C99_respelled f : (forall v, v_eq (f v) v = true) -> in_order f.
Proof. exact (equal_in_order f). Qed.
Print Assumptions C99_respelled.

(** Versions of another class. *)
Theorem C99_class_tests T a b v :
  t_set_eqb (carry_set (Typed T) a) (carry_set (Typed T) b) = set_eqb a b
  /\ g_contains t_cmp t_same (carry_set (Typed T) a) (Typed T v) = Ok (contains a v)
  /\ t_includes (carry_set (Typed T) a) (carry_set (Typed T) b) = Ok (includes a b)
  /\ t_intersects (carry_set (Typed T) a) (carry_set (Typed T) b) = Ok (intersects a b).
Proof. exact (class_tests T a b v). Qed.
Print Assumptions C99_class_tests.

(** Ranges and unions are refused alike. *)
Theorem C99_class_made T min max imin imax items :
  g_range_new t_cmp (option_map (Typed T) min) (option_map (Typed T) max) imin imax = rmap (carry_item (Typed T)) (range_new min max imin imax)
  /\ g_union_new (map (carry_item (Typed T)) items) = rmap (carry_set (Typed T)) (union_new items).
Proof. exact (class_made T min max imin imax items). Qed.
Print Assumptions C99_class_made.

Theorem C99_class_operations T a b :
  t_union (carry_set (Typed T) a) (carry_set (Typed T) b) = rmap (carry_set (Typed T)) (union a b)
  /\ t_intersection (carry_set (Typed T) a) (carry_set (Typed T) b) = rmap (carry_set (Typed T)) (intersection a b)
  /\ t_difference (carry_set (Typed T) a) (carry_set (Typed T) b) = rmap (carry_set (Typed T)) (difference a b)
  /\ t_symmetric_difference (carry_set (Typed T) a) (carry_set (Typed T) b) = rmap (carry_set (Typed T)) (symmetric_difference a b)
  /\ t_complement (carry_set (Typed T) a) = rmap (carry_set (Typed T)) (complement a).
Proof. exact (class_operations T a b). Qed.
Print Assumptions C99_class_operations.

(** Specifiers of another class: converting and simplifying. *)
Theorem C99_class_conversions T s a :
  t_to_version_set (retype_spec T s) = rmap (carry_set (Typed T)) (specifier_to_version_set s)
  /\ t_to_specifier (carry_set (Typed T) a) = rmap (retype_spec T) (version_set_to_specifier a)
  /\ t_simplify (retype_spec T s) = rmap (retype_spec T) (simplify s).
Proof. exact (conj (o_to_version_set T s) (conj (o_to_specifier T a) (o_simplify T s))). Qed.
Print Assumptions C99_class_conversions.

Theorem C99_class_groups T ss : t_any_of (map (retype_spec T) ss) = retype_spec T (any_of ss) /\ t_all_of (map (retype_spec T) ss) = retype_spec T (all_of ss).
Proof. exact (conj (o_any_of T ss) (o_all_of T ss)). Qed.
Print Assumptions C99_class_groups.

(** Parsing a set for a class is parsing a specifier for it and converting. *)
Theorem C99_parsed T s : rmap gen_set (t_parse_version_set T s) = bind (t_parse_specifier T s) t_to_version_set.
Proof. exact (o_parse T s). Qed.
Print Assumptions C99_parsed.

(** Membership and ranges are those of [Typed.v], whatever the classes. *)
Theorem C99_typed a x min max imin imax :
  t_contains a x = g_contains t_cmp t_same (gen_set a) x /\ rmap gen_item (t_range_new min max imin imax) = g_range_new t_cmp min max imin imax.
Proof. exact (conj (gen_contains a x) (gen_range min max imin imax)). Qed.
Print Assumptions C99_typed.

Example C99_case : in_order (moved 2) /\ renamed (moved 2) (set_of ">=1.0, <2.0 || =3.0") = set_of ">=2!1.0, <2!2.0 || =2!3.0"
  /\ union (renamed (moved 2) (set_of "<1.0")) (renamed (moved 2) (set_of "=1.0 || >=3")) = Ok (set_of "<=2!1.0 || >=2!3")
  /\ union (set_of "<1.0") (set_of "=1.0 || >=3") = Ok (set_of "<=1.0 || >=3").
Proof. split; [exact (moved_in_order 2)|]. split; [vm_compute; reflexivity|]. split; vm_compute; reflexivity. Qed.

Example C99_case_class :
  t_union (carry_set (Typed 1) (set_of ">=1.0, <2.0")) (carry_set (Typed 1) (set_of "=2.0")) = Ok (carry_set (Typed 1) (set_of ">=1.0, <=2.0"))
  /\ (let* p := t_parse_specifier 1 (lit ">=1.0, >2.0 || =2.0") in t_simplify p) = t_parse_specifier 1 (lit ">=2.0").
Proof. split; vm_compute; reflexivity. Qed.

(** ** C100 Sets of versions of different classes *)

Theorem C100_equal T U a b : T <> U -> canonical a -> canonical b -> proper a -> proper b ->
  t_set_eqb (carry_set (Typed T) a) (carry_set (Typed U) b) = false.
Proof. exact (fun D => mixed_equal T U D a b). Qed.
Print Assumptions C100_equal.

Theorem C100_union T U a b : T <> U -> canonical a -> canonical b -> proper a -> proper b ->
  t_union (carry_set (Typed T) a) (carry_set (Typed U) b) = Err TypeError.
Proof. exact (fun D => mixed_union T U D a b). Qed.
Print Assumptions C100_union.

Theorem C100_intersection T U a b : T <> U -> canonical a -> canonical b -> proper a -> proper b ->
  ((exists v, a = Item (Point v)) /\ Forall is_a_point (members b) -> t_intersection (carry_set (Typed T) a) (carry_set (Typed U) b) = Ok GEmpty)
  /\ (~ ((exists v, a = Item (Point v)) /\ Forall is_a_point (members b)) -> t_intersection (carry_set (Typed T) a) (carry_set (Typed U) b) = Err TypeError).
Proof. exact (fun D => mixed_intersection T U D a b). Qed.
Print Assumptions C100_intersection.

Theorem C100_difference T U a b : T <> U -> canonical a -> canonical b -> proper a -> proper b ->
  ((exists v, a = Item (Point v)) /\ Forall is_a_point (members b) ->
     t_difference (carry_set (Typed T) a) (carry_set (Typed U) b) = Ok (carry_set (Typed T) a))
  /\ (~ ((exists v, a = Item (Point v)) /\ Forall is_a_point (members b)) -> t_difference (carry_set (Typed T) a) (carry_set (Typed U) b) = Err TypeError).
Proof. exact (fun D => mixed_difference T U D a b). Qed.
Print Assumptions C100_difference.

Theorem C100_symmetric_difference T U a b : T <> U -> canonical a -> canonical b -> proper a -> proper b ->
  t_symmetric_difference (carry_set (Typed T) a) (carry_set (Typed U) b) = Err (match a with Union _ => AttributeError | _ => TypeError end).
Proof. exact (fun D => mixed_symmetric_difference T U D a b). Qed.
Print Assumptions C100_symmetric_difference.

Theorem C100_includes T U a b o : T <> U -> canonical a -> canonical b -> proper a -> proper b -> leads o b ->
  (Forall (fun s => misses s o) (members a) -> t_includes (carry_set (Typed T) a) (carry_set (Typed U) b) = Ok false)
  /\ (~ Forall (fun s => misses s o) (members a) -> t_includes (carry_set (Typed T) a) (carry_set (Typed U) b) = Err TypeError).
Proof. exact (fun D => mixed_includes T U D a b o). Qed.
Print Assumptions C100_includes.

Theorem C100_intersects T U a b s o : T <> U -> canonical a -> canonical b -> proper a -> proper b -> leads s a -> leads o b ->
  (t_intersects (carry_set (Typed T) a) (carry_set (Typed U) b) = Ok true <-> same_way s o)
  /\ (t_intersects (carry_set (Typed T) a) (carry_set (Typed U) b) = Ok false <-> (exists v, a = Item (Point v)) /\ Forall is_a_point (members b))
  /\ (t_intersects (carry_set (Typed T) a) (carry_set (Typed U) b) = Ok true \/ t_intersects (carry_set (Typed T) a) (carry_set (Typed U) b) = Ok false
      \/ t_intersects (carry_set (Typed T) a) (carry_set (Typed U) b) = Err TypeError).
Proof. exact (fun D => mixed_intersects T U D a b s o). Qed.
Print Assumptions C100_intersects.

(** The two sets that mention no version are of every class. *)
Theorem C100_classless T U a : ~ proper a -> carry_set (Typed T) a = carry_set (Typed U) a.
Proof. exact (classless T U a). Qed.
Print Assumptions C100_classless.

(** Alternatives of different classes can be asked about versions but not
    converted. *)
Theorem C100_parsed T U s u p q a b : T <> U -> t_parse_specifier T s = Ok p -> t_parse_specifier U u = Ok q ->
  parse_version_set s = Ok a -> parse_version_set u = Ok b -> proper a -> proper b -> t_to_version_set (TAnyOf [p; q]) = Err TypeError.
Proof. exact (parsed_any T U s u p q a b). Qed.
Print Assumptions C100_parsed.

Example C100_case :
  (let* p := t_parse_specifier 0 (lit "=1.0") in let* q := t_parse_specifier 1 (lit "=2.0") in
   Ok (t_accepts (TAnyOf [p; q]) (Typed 1 (ver "2.0")), t_to_version_set (TAnyOf [p; q]), t_to_version_set (TAllOf [p; q])))
   = Ok (Ok true, Err TypeError, Ok GEmpty).
Proof. vm_compute. reflexivity. Qed.

Definition mixed {A} (op : gset typed -> gset typed -> A) (a b : string) : A := op (carry_set (Typed 0) (set_of a)) (carry_set (Typed 1) (set_of b)).

Example C100_case_outcomes :
  mixed t_intersects "<1.0" "<2.0 || =3.0" = Ok true /\ mixed t_intersects "<1.0" ">2.0" = Err TypeError
  /\ mixed t_intersects "=1.0" "=1.0 || =2.0" = Ok false /\ mixed t_intersects "=1.0 || =2.0" "=1.0" = Err TypeError
  /\ mixed t_includes ">1.0" "<2.0" = Ok false /\ mixed t_includes ">1.0" ">2.0" = Err TypeError
  /\ mixed t_includes "=1.0 || =2.0" ">2.0" = Ok false
  /\ mixed t_intersection "=1.0" "=1.0 || =2.0" = Ok GEmpty /\ mixed t_intersection "=1.0 || =2.0" "=1.0" = Err TypeError
  /\ mixed t_difference "=1.0" "=1.0 || =2.0" = Ok (carry_set (Typed 0) (set_of "=1.0"))
  /\ mixed t_difference "<1.0" "=1.0" = Err TypeError /\ mixed t_union "=1.0" "=1.0" = Err TypeError
  /\ mixed t_symmetric_difference "=1.0 || =2.0" "=1.0" = Err AttributeError.
Proof. repeat (split; [vm_compute; reflexivity|]). vm_compute. reflexivity. Qed.
