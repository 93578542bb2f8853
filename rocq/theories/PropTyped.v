(** Theorems about versions of different types: C91. *)

From Coq Require Import List ZArith NArith String Bool Lia.
From Verif Require Import Py Segments Version VersionSets Operators Specifiers Parsers Rich Spec Grammar Clauses Typed TypedSpec TypedFacts.
Import ListNotations.
Local Open Scope nat_scope.

Definition ver (r : list Z) : version := Version 0 r None None None None.

(** ** C91 Versions of different types *)

(** Comparing. *)
Theorem C91_raises o x y e : t_rich o x y = Err e <-> e = TypeError /\ t_type x <> t_type y /\ o <> OpEq /\ o <> OpNe.
Proof. exact (rich_raises o x y e). Qed.
Print Assumptions C91_raises.

Theorem C91_equal x y : t_rich OpEq x y = Ok true <-> t_type x = t_type y /\ v_eq (t_version x) (t_version y) = true.
Proof. exact (rich_equal x y). Qed.
Print Assumptions C91_equal.

Theorem C91_parsed_apart T U s u x y : T <> U -> t_parse_version T s = Ok x -> t_parse_version U u = Ok y ->
  t_rich OpEq x y = Ok false /\ t_rich OpNe x y = Ok true /\ t_rich OpLt x y = Err TypeError /\ t_rich OpLe x y = Err TypeError
  /\ t_rich OpGt x y = Err TypeError /\ t_rich OpGe x y = Err TypeError.
Proof. exact (versions_differ T U s u x y). Qed.
Print Assumptions C91_parsed_apart.

(** One type: as with [Version]. *)
Theorem C91_parsed_alike T s u x y o : t_parse_version T s = Ok x -> t_parse_version T u = Ok y ->
  exists v w, parse_version s = Ok v /\ parse_version u = Ok w /\ t_rich o x y = Ok (native o (v_cmp v w)).
Proof. exact (versions_alike T s u x y o). Qed.
Print Assumptions C91_parsed_alike.

Theorem C91_same_specifier T s p v :
  t_parse_specifier T s = Ok p <-> exists q, parse_specifier s = Ok q /\ p = retype_spec T q /\ t_accepts p (Typed T v) = accepts q v.
Proof. exact (accepts_typed T s p v). Qed.
Print Assumptions C91_same_specifier.

Theorem C91_same_set T s a v :
  t_parse_version_set T s = Ok a <-> exists b, parse_version_set s = Ok b /\ a = retype_set T b /\ t_contains a (Typed T v) = Ok (contains b v).
Proof. exact (contains_typed T s a v). Qed.
Print Assumptions C91_same_set.

Theorem C91_same_range T min max imin imax :
  t_range_new (option_map (Typed T) min) (option_map (Typed T) max) imin imax = rmap (retype_item T) (range_new min max imin imax).
Proof. exact (range_typed T min max imin imax). Qed.
Print Assumptions C91_same_range.

(** Different types. *)
Theorem C91_range x y imin imax : t_type x <> t_type y -> t_range_new (Some x) (Some y) imin imax = Err TypeError.
Proof. exact (range_foreign x y imin imax). Qed.
Print Assumptions C91_range.

Theorem C91_operators t x y : valid_version (t_version y) = true -> t_type x <> t_type y ->
  (t_matches t x y = Ok true <-> passes t (t_version y)) /\ (t_matches t x y = Ok false <-> fails t (t_version y))
  /\ (t_matches t x y = Err TypeError <-> orders t (t_version y)).
Proof. exact (matches_exact t x y). Qed.
Print Assumptions C91_operators.

Theorem C91_blind U s x y : spec_made s -> t_type x <> U -> t_type y <> U ->
  t_accepts (retype_spec U s) x = t_accepts (retype_spec U s) y.
Proof. exact (accepts_blind U s x y). Qed.
Print Assumptions C91_blind.

Theorem C91_specifications U s p x : t_parse_specifier U s = Ok p -> t_type x <> U -> exists css xss,
  specification s css /\ Forall2 (Forall2 proper_clause) css xss
  /\ (t_accepts p x = Ok true <-> first_to alt_fails alt_passes xss) /\ (t_accepts p x = Ok false <-> Forall alt_fails xss)
  /\ (t_accepts p x = Err TypeError <-> first_to alt_fails alt_orders xss)
  /\ (t_accepts p x = Ok true \/ t_accepts p x = Ok false \/ t_accepts p x = Err TypeError).
Proof. exact (parsed_foreign U s p x). Qed.
Print Assumptions C91_specifications.

Theorem C91_sets U s a x : t_parse_version_set U s = Ok a -> t_type x <> U -> exists b, parse_version_set s = Ok b
  /\ (t_contains a x = Ok true <-> b = UNIVERSAL_SET) /\ (t_contains a x = Ok false <-> Forall is_a_point (members b))
  /\ (t_contains a x = Err TypeError <-> Exists limited_range (members b))
  /\ (t_contains a x = Ok true \/ t_contains a x = Ok false \/ t_contains a x = Err TypeError).
Proof. exact (parsed_sets_foreign U s a x). Qed.
Print Assumptions C91_sets.

(** A specification and its set may not both answer, but if they do they agree. *)
Theorem C91_agree U s p a x b b' : t_parse_specifier U s = Ok p -> t_parse_version_set U s = Ok a -> t_type x <> U ->
  t_accepts p x = Ok b -> t_contains a x = Ok b' -> b = b'.
Proof. exact (parsed_agree U s p a x b b'). Qed.
Print Assumptions C91_agree.

Theorem C91_one_answers :
  (let* p := t_parse_specifier 1 (lit "!=1.0") in t_accepts p (Typed 0 (ver [1%Z]))) = Ok true
  /\ (let* a := t_parse_version_set 1 (lit "!=1.0") in t_contains a (Typed 0 (ver [1%Z]))) = Err TypeError
  /\ (let* p := t_parse_specifier 1 (lit ">2,==1.0") in t_accepts p (Typed 0 (ver [1%Z]))) = Err TypeError
  /\ (let* a := t_parse_version_set 1 (lit ">2,==1.0") in t_contains a (Typed 0 (ver [1%Z]))) = Ok false.
Proof. vm_compute. auto. Qed.
Print Assumptions C91_one_answers.

Theorem C91_specifiers_apart T U s u p q : T <> U -> t_parse_specifier T s = Ok p -> t_parse_specifier U u = Ok q -> tspec_eqb p q = false.
Proof. exact (parsed_differ T U s u p q). Qed.
Print Assumptions C91_specifiers_apart.

Example C91_case : (0 <> 1)%nat /\ t_parse_version 0 (lit "1.2") = Ok (Typed 0 (ver [1%Z; 2%Z])) /\ t_parse_version 1 (lit "1.2") = Ok (Typed 1 (ver [1%Z; 2%Z]))
  /\ t_rich OpEq (Typed 0 (ver [1%Z; 2%Z])) (Typed 1 (ver [1%Z; 2%Z])) = Ok false
  /\ (let* p := t_parse_specifier 1 (lit "=1.2 || *, !=3 || >1") in t_accepts p (Typed 0 (ver [1%Z; 2%Z]))) = Ok true
  /\ (let* p := t_parse_specifier 1 (lit "=1.2 || =2.*") in t_accepts p (Typed 0 (ver [1%Z; 2%Z]))) = Err TypeError
  /\ (let* a := t_parse_version_set 1 (lit ">=1.0, <2") in t_contains a (Typed 1 (ver [1%Z; 2%Z]))) = Ok true
  /\ (let* a := t_parse_version_set 1 (lit ">=1.0, <2") in t_contains a (Typed 0 (ver [1%Z; 2%Z]))) = Err TypeError
  /\ (let* a := t_parse_version_set 1 (lit "=1.2 || =3") in t_contains a (Typed 0 (ver [1%Z; 2%Z]))) = Ok false.
Proof. split; [discriminate|]. repeat (split; [vm_compute; reflexivity|]). vm_compute. reflexivity. Qed.
