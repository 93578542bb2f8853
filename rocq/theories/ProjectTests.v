(** The project's own tests (tests/*.py) and the examples of its documentation,
    evaluated in the model.  Left out: tests that need a Python value of some
    other type (test_converters.py:112-118, test_versioned.py:19-25). *)

From Coq Require Import List ZArith NArith String Bool.
From Verif Require Import Py Segments Version VersionSets Operators SetStrings Specifiers Parsers Rich Meta Classes Dispatch.
Import ListNotations.
Open Scope Z_scope.

(** [x == y] where computing [x] may fail. *)
Definition gives {A B} (eq : A -> B -> bool) (x : result A) (y : B) : bool :=
  match x with Ok a => eq a y | Err _ => false end.
Definition fails {A} (x : result A) (e : error) : bool :=
  match x, e with
  | Err ParseVersionError, ParseVersionError | Err ParseSpecificationError, ParseSpecificationError
  | Err ValueError, ValueError | Err IndexError, IndexError => true
  | _, _ => false
  end.
Definition all_true (l : list bool) : bool := forallb (fun b => b) l.
Definition zs_eqb (a b : list Z) : bool := if list_eq_dec Z.eq_dec a b then true else false.
Definition gives_parts (x : result version) (parts : list Z) : bool := gives (fun v r => zs_eqb (v_release v) r) x parts.
Definition gives_string (x : result pstr) (s : string) : bool := gives str_eqb x (lit s).

(** Shapes used by the tests. *)
Definition tag' (p : string) (n : Z) : tag := Tag (lit p) n.
Definition vp (parts : list Z) : version := Version 0 parts None None None None.
Definition one (t : op_type) (parts : list Z) : spec := One t (vp parts).
Definition rng (min max : option (list Z)) (imin imax : bool) : vset := Item (Range (option_map vp min) (option_map vp max) imin imax).
Definition two (a b : vset) : vset := Union (extract a ++ extract b).

(** ** tests/test_comparison.py *)

Definition ordered (strings : list string) : bool :=
  let vs := combine (seq 0 (List.length strings)) (map (fun s => parse_version (lit s)) strings) in
  forallb (fun p => forallb (fun q =>
    match snd p, snd q with
    | Ok v, Ok w =>
        Bool.eqb (fst p =? fst q)%nat (v_eq v w) && Bool.eqb (negb (fst p =? fst q)%nat) (v_ne v w)
        && Bool.eqb (fst p <=? fst q)%nat (v_le v w) && Bool.eqb (fst q <=? fst p)%nat (v_ge v w)
        && Bool.eqb (fst p <? fst q)%nat (v_lt v w) && Bool.eqb (fst q <? fst p)%nat (v_gt v w)
    | _, _ => false
    end) vs) vs.

Example comparison_1 : ordered ["1.0.0-alpha"; "1.0.0-alpha.1"; "1.0.0-beta"; "1.0.0-beta.1"; "1.0.0-rc.1"; "1.0.0-rc.1+build.1"; "1.0.0"; "1.0.0+build"; "1.0.0+build.1"; "1.0.0+1"; "1.2.0"; "1.2.3"; "1.3.0"; "2.0.0"; "2.2.0"]%string = true.
Proof. vm_compute. reflexivity. Qed.

Example comparison_2 : ordered ["1.0.0-dev.0"; "1.0.0-alpha.0-dev.0"; "1.0.0-alpha.0"; "1.0.0-alpha.1-dev.0"; "1.0.0-beta.0-dev.0"; "1.0.0-beta.1"; "1.0.0-beta.1-post.0-dev.0"; "1.0.0-beta.1-post.0"; "1.0.0-rc.1"; "1.0.0"; "1.0.0+build.0"; "1.0.0+build.1"; "1.0.0-post.0-dev.0"; "1.0.0-post.0"; "1.1.1-dev.1"]%string = true.
Proof. vm_compute. reflexivity. Qed.

(** ** tests/test_parse_version.py *)

Example parse_versions : all_true
  [gives v_eq (parse_version (lit "0")) (Version 0 [0] None None None None);
   gives v_eq (parse_version (lit "0.0")) (Version 0 [0; 0] None None None None);
   gives v_eq (parse_version (lit "0.0.0")) (Version 0 [0; 0; 0] None None None None);
   gives v_eq (parse_version (lit "0.0.0.0")) (Version 0 [0; 0; 0; 0] None None None None);
   gives v_eq (parse_version (lit "1")) (Version 0 [1] None None None None);
   gives v_eq (parse_version (lit "1.2")) (Version 0 [1; 2] None None None None);
   gives v_eq (parse_version (lit "1.2.3")) (Version 0 [1; 2; 3] None None None None);
   gives v_eq (parse_version (lit "1.2.3.4")) (Version 0 [1; 2; 3; 4] None None None None);
   gives v_eq (parse_version (lit "1.0.0a")) (Version 0 [1; 0; 0] (Some (tag' "alpha" 0)) None None None);
   gives v_eq (parse_version (lit "1.0.0b1")) (Version 0 [1; 0; 0] (Some (tag' "beta" 1)) None None None);
   gives v_eq (parse_version (lit "1.0.0-rc.1")) (Version 0 [1; 0; 0] (Some (tag' "rc" 1)) None None None);
   gives v_eq (parse_version (lit "1.0.0-1")) (Version 0 [1; 0; 0] None (Some (tag' "post" 1)) None None);
   gives v_eq (parse_version (lit "1.0.0-post")) (Version 0 [1; 0; 0] None (Some (tag' "post" 0)) None None);
   gives v_eq (parse_version (lit "1.0.0-post.1")) (Version 0 [1; 0; 0] None (Some (tag' "post" 1)) None None);
   gives v_eq (parse_version (lit "1.0.0+build.1")) (Version 0 [1; 0; 0] None None None (Some [LStr (lit "build"); LInt 1]));
   gives v_eq (parse_version (lit "1!1.0.0")) (Version 1 [1; 0; 0] None None None None)] = true.
Proof. vm_compute. reflexivity. Qed.

Example parse_invalid_versions : all_true
  [fails (parse_version (lit "1.0.0.")) ParseVersionError;
   fails (parse_version (lit "1.0.0-")) ParseVersionError;
   fails (parse_version (lit "1.0.0+")) ParseVersionError;
   fails (parse_version (lit "broken")) ParseVersionError] = true.
Proof. vm_compute. reflexivity. Qed.

(** ** tests/test_parse_specifier.py *)

Example parse_specifiers : all_true
  [gives spec_eqb (parse_specifier (lit "~= 3.2")) (one TILDE_EQUAL [3; 2]);
   gives spec_eqb (parse_specifier (lit "== 4.2")) (one DOUBLE_EQUAL [4; 2]);
   gives spec_eqb (parse_specifier (lit "!= 2.5")) (one NOT_EQUAL [2; 5]);
   gives spec_eqb (parse_specifier (lit "<= 6.9")) (one LESS_OR_EQUAL [6; 9]);
   gives spec_eqb (parse_specifier (lit ">= 1.3")) (one GREATER_OR_EQUAL [1; 3]);
   gives spec_eqb (parse_specifier (lit "< 6.4")) (one LESS [6; 4]);
   gives spec_eqb (parse_specifier (lit "> 0.7")) (one GREATER [0; 7]);
   gives spec_eqb (parse_specifier (lit "^3.4")) (one CARET [3; 4]);
   gives spec_eqb (parse_specifier (lit "~1.8")) (one TILDE [1; 8]);
   gives spec_eqb (parse_specifier (lit "~7")) (one TILDE [7]);
   gives spec_eqb (parse_specifier (lit "= 8.8")) (one EQUAL [8; 8]);
   gives spec_eqb (parse_specifier (lit "1.0")) (one EQUAL [1; 0]);
   gives spec_eqb (parse_specifier (lit "= 1.3.*")) (one WILDCARD_EQUAL [1; 3]);
   gives spec_eqb (parse_specifier (lit "== 7.7.*")) (one WILDCARD_DOUBLE_EQUAL [7; 7]);
   gives spec_eqb (parse_specifier (lit "!= 4.2.*")) (one WILDCARD_NOT_EQUAL [4; 2]);
   gives spec_eqb (parse_specifier (lit "*")) (one WILDCARD_EQUAL [0]);
   gives spec_eqb (parse_specifier (lit "!= *")) (one WILDCARD_NOT_EQUAL [0]);
   gives spec_eqb (parse_specifier (lit ">= 3.7, < 4.0")) (AllOf [(one GREATER_OR_EQUAL [3; 7]); (one LESS [4; 0])]);
   gives spec_eqb (parse_specifier (lit "^2.7 || ^3.7")) (AnyOf [(one CARET [2; 7]); (one CARET [3; 7])])] = true.
Proof. vm_compute. reflexivity. Qed.

Example parse_invalid_specifiers : all_true
  [fails (parse_specifier (lit "1.0.0.")) ParseSpecificationError;
   fails (parse_specifier (lit "1.0.0-")) ParseSpecificationError;
   fails (parse_specifier (lit "1.0.0+")) ParseSpecificationError;
   fails (parse_specifier (lit "broken")) ParseSpecificationError] = true.
Proof. vm_compute. reflexivity. Qed.

(** ** tests/test_parse_version_set.py *)

Example parse_version_sets : all_true
  [gives set_eqb (parse_version_set (lit "~= 3.2")) (rng (Some [3; 2]) (Some [4; 0]) true false);
   gives set_eqb (parse_version_set (lit "== 4.2")) (Item (Point (vp [4; 2])));
   gives set_eqb (parse_version_set (lit "!= 2.5")) (two (rng None (Some [2; 5]) false false) (rng (Some [2; 5]) None false false));
   gives set_eqb (parse_version_set (lit "<= 6.9")) (rng None (Some [6; 9]) false true);
   gives set_eqb (parse_version_set (lit ">= 1.3")) (rng (Some [1; 3]) None true false);
   gives set_eqb (parse_version_set (lit "< 6.4")) (rng None (Some [6; 4]) false false);
   gives set_eqb (parse_version_set (lit "> 0.7")) (rng (Some [0; 7]) None false false);
   gives set_eqb (parse_version_set (lit "^3.4")) (rng (Some [3; 4]) (Some [4; 0]) true false);
   gives set_eqb (parse_version_set (lit "~1.8")) (rng (Some [1; 8]) (Some [1; 9]) true false);
   gives set_eqb (parse_version_set (lit "~7")) (rng (Some [7]) (Some [8]) true false);
   gives set_eqb (parse_version_set (lit "= 8.8")) (Item (Point (vp [8; 8])));
   gives set_eqb (parse_version_set (lit "1.0")) (Item (Point (vp [1; 0])));
   gives set_eqb (parse_version_set (lit "= 1.3.*")) (rng (Some [1; 3; 0]) (Some [1; 4; 0]) true false);
   gives set_eqb (parse_version_set (lit "== 7.7.*")) (rng (Some [7; 7]) (Some [7; 8]) true false);
   gives set_eqb (parse_version_set (lit "!= 4.2.*")) (two (rng None (Some [4; 2]) false false) (rng (Some [4; 3]) None true false));
   gives set_eqb (parse_version_set (lit "*")) (rng None None false false);
   gives set_eqb (parse_version_set (lit "!= *")) Empty;
   gives set_eqb (parse_version_set (lit ">= 3.7, < 4.0")) (rng (Some [3; 7]) (Some [4; 0]) true false);
   gives set_eqb (parse_version_set (lit "^2.7 || ^3.7")) (two (rng (Some [2; 7]) (Some [3; 0]) true false) (rng (Some [3; 7]) (Some [4; 0]) true false))] = true.
Proof. vm_compute. reflexivity. Qed.

Example parse_invalid_version_sets : all_true
  [fails (parse_version_set (lit "1.0.0.")) ParseSpecificationError;
   fails (parse_version_set (lit "1.0.0-")) ParseSpecificationError;
   fails (parse_version_set (lit "1.0.0+")) ParseSpecificationError;
   fails (parse_version_set (lit "broken")) ParseSpecificationError] = true.
Proof. vm_compute. reflexivity. Qed.

(** ** tests/test_converters.py *)

Example conversions : all_true
  [gives spec_eqb (version_set_to_specifier Empty) Never;
   gives set_eqb (specifier_to_version_set Never) Empty;
   gives spec_eqb (version_set_to_specifier (rng None None false false)) Always;
   gives set_eqb (specifier_to_version_set Always) (rng None None false false);
   gives spec_eqb (version_set_to_specifier (rng (Some [1; 0; 0]) (Some [1; 0; 0]) false false)) Never;
   gives set_eqb (specifier_to_version_set Never) Empty;
   gives spec_eqb (version_set_to_specifier (rng (Some [2; 0; 0]) (Some [2; 0; 0]) true true)) (one DOUBLE_EQUAL [2; 0; 0]);
   gives set_eqb (specifier_to_version_set (one DOUBLE_EQUAL [2; 0; 0])) (Item (Point (vp [2; 0; 0])));
   gives spec_eqb (version_set_to_specifier (Item (Point (vp [3; 0; 0])))) (one DOUBLE_EQUAL [3; 0; 0]);
   gives set_eqb (specifier_to_version_set (one DOUBLE_EQUAL [3; 0; 0])) (Item (Point (vp [3; 0; 0])));
   gives spec_eqb (version_set_to_specifier (rng (Some [4; 0; 0]) None true false)) (one GREATER_OR_EQUAL [4; 0; 0]);
   gives set_eqb (specifier_to_version_set (one GREATER_OR_EQUAL [4; 0; 0])) (rng (Some [4; 0; 0]) None true false);
   gives spec_eqb (version_set_to_specifier (rng None (Some [5; 0; 0]) false true)) (one LESS_OR_EQUAL [5; 0; 0]);
   gives set_eqb (specifier_to_version_set (one LESS_OR_EQUAL [5; 0; 0])) (rng None (Some [5; 0; 0]) false true);
   gives spec_eqb (version_set_to_specifier (two (rng None (Some [7; 0; 0]) false false) (rng (Some [7; 0; 0]) None false false))) (one NOT_EQUAL [7; 0; 0]);
   gives set_eqb (specifier_to_version_set (one NOT_EQUAL [7; 0; 0])) (two (rng None (Some [7; 0; 0]) false false) (rng (Some [7; 0; 0]) None false false));
   gives spec_eqb (version_set_to_specifier (two (rng (Some [8; 0; 0]) (Some [9; 0; 0]) true false) (rng (Some [10; 0; 0]) None true false))) (AnyOf [(AllOf [(one GREATER_OR_EQUAL [8; 0; 0]); (one LESS [9; 0; 0])]); (one GREATER_OR_EQUAL [10; 0; 0])]);
   gives set_eqb (specifier_to_version_set (AnyOf [(AllOf [(one GREATER_OR_EQUAL [8; 0; 0]); (one LESS [9; 0; 0])]); (one GREATER_OR_EQUAL [10; 0; 0])])) (two (rng (Some [8; 0; 0]) (Some [9; 0; 0]) true false) (rng (Some [10; 0; 0]) None true false))] = true.
Proof. vm_compute. reflexivity. Qed.

(** ** tests/test_simplify.py *)

Example simplifies : all_true
  [gives spec_eqb (simplify (AllOf [(AllOf [(one GREATER_OR_EQUAL [1; 0; 0]); (one LESS_OR_EQUAL [3; 0; 0])]); (AllOf [(one GREATER_OR_EQUAL [2; 0; 0]); (one LESS_OR_EQUAL [4; 0; 0])])])) (AllOf [(one GREATER_OR_EQUAL [2; 0; 0]); (one LESS_OR_EQUAL [3; 0; 0])]);
   gives spec_eqb (simplify (AnyOf [(AllOf [(one GREATER_OR_EQUAL [1; 0; 0]); (one LESS_OR_EQUAL [3; 0; 0])]); (AllOf [(one GREATER_OR_EQUAL [2; 0; 0]); (one LESS_OR_EQUAL [4; 0; 0])])])) (AllOf [(one GREATER_OR_EQUAL [1; 0; 0]); (one LESS_OR_EQUAL [4; 0; 0])]);
   gives spec_eqb (simplify (one CARET [1; 0; 0])) (AllOf [(one GREATER_OR_EQUAL [1; 0; 0]); (one LESS [2; 0; 0])]);
   gives spec_eqb (simplify (one TILDE [1; 0; 0])) (AllOf [(one GREATER_OR_EQUAL [1; 0; 0]); (one LESS [1; 1; 0])]);
   gives spec_eqb (simplify (one WILDCARD_EQUAL [0])) Always;
   gives spec_eqb (simplify (one WILDCARD_NOT_EQUAL [0])) Never;
   gives spec_eqb (simplify (one TILDE_EQUAL [1; 0; 0])) (AllOf [(one GREATER_OR_EQUAL [1; 0; 0]); (one LESS [1; 1; 0])]);
   gives spec_eqb (simplify (one EQUAL [1; 0; 0])) (one EQUAL [1; 0; 0]);
   gives spec_eqb (simplify Always) Always;
   gives spec_eqb (simplify Never) Never] = true.
Proof. vm_compute. reflexivity. Qed.

(** ** tests/test_version.py *)

Definition v100 := vp [1; 0; 0].
Definition v120 := vp [1; 2; 0].
Definition v130 := vp [1; 3; 0].
Definition v123 := vp [1; 2; 3].
Definition v1234 := vp [1; 2; 3; 4].
Definition v12345 := vp [1; 2; 3; 4; 5].
Definition v124 := vp [1; 2; 4].
Definition v200 := vp [2; 0; 0].
Definition v1e100 := Version 1 [1; 0; 0] None None None None.
Definition v100dev0 := Version 0 [1; 0; 0] None None (Some (tag' "dev" 0)) None.
Definition v100dev1 := Version 0 [1; 0; 0] None None (Some (tag' "dev" 1)) None.
Definition v100alpha0 := Version 0 [1; 0; 0] (Some (tag' "alpha" 0)) None None None.
Definition v100beta1 := Version 0 [1; 0; 0] (Some (tag' "beta" 1)) None None None.
Definition v100rc0 := Version 0 [1; 0; 0] (Some (tag' "rc" 0)) None None None.
Definition v100rc1 := Version 0 [1; 0; 0] (Some (tag' "rc" 1)) None None None.
Definition build1 := [LStr (lit "build"); LInt 1].
Definition v100build1 := Version 0 [1; 0; 0] None None None (Some build1).
Definition v100post0 := Version 0 [1; 0; 0] None (Some (tag' "post" 0)) None None.
Definition v100post1 := Version 0 [1; 0; 0] None (Some (tag' "post" 1)) None None.
Definition weird := Version 1 [1; 0; 0] (Some (tag' "alpha" 1)) (Some (tag' "post" 1)) (Some (tag' "dev" 1)) (Some build1).
Definition v100candidate0rev0dev0 := Version 0 [1; 0; 0] (Some (tag' "candidate" 0)) (Some (tag' "rev" 0)) (Some (tag' "dev" 0)) None.
Definition v100rc0post0dev0 := Version 0 [1; 0; 0] (Some (tag' "rc" 0)) (Some (tag' "post" 0)) (Some (tag' "dev" 0)) None.

Example setters : all_true
  [v_epoch v100 =? 0;
   negb (v_epoch v1e100 =? 0);
   v_eq (set_epoch v100 1) v1e100;
   v_eq (set_epoch_value v100 1) v1e100;
   v_eq (set_release v100 [2; 0; 0]) v200;
   precision v100 =? 3;
   last_index v200 =? 2;
   gives Z.eqb (major v123) 1;
   gives Z.eqb (minor v123) 2;
   gives Z.eqb (micro v123) 3;
   zs_eqb (extra v100) [];
   zs_eqb (extra v12345) [4; 5];
   gives Z.eqb (get_at v100 0 0) 1;
   gives Z.eqb (get_at v100 1 0) 0;
   gives Z.eqb (get_at v100 2 0) 0;
   gives Z.eqb (get_at v100 3 0) 0;
   fails (get_at_unchecked v100 3) IndexError;
   is_semantic v123;
   negb (is_semantic v12345);
   gives v_eq (to_semantic v130) v130;
   gives v_eq (to_semantic v12345) v124;
   gives v_eq (set_major v100 2) v200;
   gives v_eq (set_minor v120 3) v130;
   gives v_eq (set_micro v123 4) v124;
   gives v_eq (set_at v100 0 2) v200;
   gives v_eq (set_at v120 1 3) v130;
   gives v_eq (set_at v123 2 4) v124;
   gives v_eq (set_at v123 3 4) v1234;
   fails (set_at_unchecked v100 3 0) IndexError] = true.
Proof. vm_compute. reflexivity. Qed.

Example bumps : all_true
  [v_eq (next_epoch v100) v1e100;
   gives v_eq (next_major v100) v200;
   gives v_eq (next_minor v120) v130;
   gives v_eq (next_micro v123) v124;
   gives v_eq (next_at v123 0) v200;
   gives v_eq (next_at v123 1) v130;
   gives v_eq (next_at v123 2) v124;
   has_major v1234;
   has_minor v1234;
   has_micro v1234;
   has_extra v1234;
   has_at v100 0;
   negb (has_at v100 3);
   gives v_eq (pad_to v100 3 0) v100;
   gives_parts (pad_to v100 5 0) [1; 0; 0; 0; 0];
   gives v_eq (pad_to_index v200 2 0) v200;
   gives_parts (pad_to_index v200 4 0) [2; 0; 0; 0; 0];
   gives_parts (pad_to_next v130 0) [1; 3; 0; 0]] = true.
Proof. vm_compute. reflexivity. Qed.

Example kinds : all_true
  [negb (is_pre_release v100);
   is_pre_release v100rc1;
   negb (is_post_release v100);
   is_post_release v100post1;
   negb (is_dev_release v100);
   is_dev_release v100dev1;
   negb (is_local v100);
   is_local v100build1;
   is_unstable v100dev1;
   is_unstable v100rc1;
   negb (is_unstable v100);
   negb (is_unstable v100build1);
   negb (is_stable v100dev1);
   negb (is_stable v100rc1);
   is_stable v100;
   is_stable v100build1] = true.
Proof. vm_compute. reflexivity. Qed.

Definition gives_some (x : result (option version)) (v : version) : bool :=
  match x with Ok (Some w) => v_eq w v | _ => false end.
Definition gives_none (x : result (option version)) : bool := match x with Ok None => true | _ => false end.

Example tags : all_true
  [gives v_eq (next_pre v100) v100alpha0;
   gives v_eq (next_pre v100rc0) v100rc1;
   gives_some (next_pre_phase v100) v100alpha0;
   gives_some (next_pre_phase v100beta1) v100rc0;
   gives_none (next_pre_phase v100rc1);
   gives v_eq (next_post v100) v100post0;
   gives v_eq (next_post v100post0) v100post1;
   gives v_eq (next_dev v100) v100dev0;
   gives v_eq (next_dev v100dev0) v100dev1;
   v_eq (with_pre v100 (tag' "rc" 1)) v100rc1;
   v_eq (with_post v100 (tag' "post" 1)) v100post1;
   v_eq (with_dev v100 (tag' "dev" 1)) v100dev1;
   v_eq (with_local v100 build1) v100build1;
   v_eq (without_pre v100rc1) v100;
   v_eq (without_post v100post1) v100;
   v_eq (without_dev v100dev1) v100;
   v_eq (without_local v100build1) v100;
   v_eq (to_stable v100) v100;
   v_eq (to_stable v100rc1) v100;
   v_eq (to_stable v100dev1) v100;
   v_eq (to_stable v100build1) v100build1;
   v_eq (to_stable v100post1) v100post1] = true.
Proof. vm_compute. reflexivity. Qed.

Example next_breakings : all_true
  [gives v_eq (next_breaking (vp [1; 2; 3])) (vp [2; 0; 0]);
   gives v_eq (next_breaking (vp [1; 2; 0])) (vp [2; 0; 0]);
   gives v_eq (next_breaking (vp [1; 0; 0])) (vp [2; 0; 0]);
   gives v_eq (next_breaking (vp [0; 2; 3])) (vp [0; 3; 0]);
   gives v_eq (next_breaking (vp [0; 0; 3])) (vp [0; 0; 4]);
   gives v_eq (next_breaking (vp [0; 0; 0])) (vp [0; 0; 1]);
   gives v_eq (next_breaking (vp [0; 0])) (vp [0; 1; 0]);
   gives v_eq (next_breaking (vp [0])) (vp [1; 0; 0])] = true.
Proof. vm_compute. reflexivity. Qed.

Example strings : all_true
  [gives v_eq (normalize v100candidate0rev0dev0) v100rc0post0dev0;
   str_eqb (to_string weird) (lit "1!1.0.0-alpha.1-post.1-dev.1+build.1");
   str_eqb (to_short_string weird) (lit "1!1.0.0a1.post1.dev1+build.1")] = true.
Proof. vm_compute. reflexivity. Qed.

(** ** tests/test_segments.py *)

Example segments : all_true
  [fails (release_new []) ValueError;
   gives zs_eqb (release_new [1; 3; 0]) [1; 3; 0];
   fails (tag_new AnyTag (lit "invalid") 0) ValueError;
   match tag_create AnyTag None 0, tag_default AnyTag with Ok t, Ok u => is_eq (tag_cmp t u) | _, _ => false end;
   fails (local_new []) ValueError;
   gives (fun l s => str_eqb (local_to_string l) s) (local_new build1) (lit "build.1")] = true.
Proof. vm_compute. reflexivity. Qed.

(** ** tests/test_specifiers.py *)

Example specifiers : all_true
  [gives Bool.eqb (accepts Never v100) false;
   gives Bool.eqb (accepts Never v200) false;
   str_eqb (spec_to_string Never) (lit "0");
   gives Bool.eqb (accepts Always v100) true;
   gives Bool.eqb (accepts Always v200) true;
   str_eqb (spec_to_string Always) (lit "*");
   gives Bool.eqb (accepts (one CARET [1; 0; 0]) v100) true;
   gives Bool.eqb (accepts (one CARET [1; 0; 0]) v200) false;
   str_eqb (spec_to_string (one CARET [1; 0; 0])) (lit "^1.0.0");
   str_eqb (spec_to_short_string (one CARET [1; 0; 0])) (lit "^1.0.0");
   gives Bool.eqb (accepts (one TILDE [1; 0; 0]) v100) true;
   gives Bool.eqb (accepts (one TILDE [1; 0; 0]) (vp [1; 1; 0])) false;
   str_eqb (spec_to_string (one TILDE [1; 0; 0])) (lit "~1.0.0");
   str_eqb (spec_to_short_string (one TILDE [1; 0; 0])) (lit "~1.0.0");
   gives Bool.eqb (accepts (one TILDE_EQUAL [1; 0; 0]) v100) true;
   gives Bool.eqb (accepts (one TILDE_EQUAL [1; 0; 0]) (vp [1; 1; 0])) false;
   str_eqb (spec_to_string (one TILDE_EQUAL [1; 0; 0])) (lit "~= 1.0.0");
   str_eqb (spec_to_short_string (one TILDE_EQUAL [1; 0; 0])) (lit "~=1.0.0");
   gives Bool.eqb (accepts (one WILDCARD_EQUAL [1; 0; 0]) v100) true;
   gives Bool.eqb (accepts (one WILDCARD_EQUAL [1; 0; 0]) (vp [1; 1; 0])) false;
   str_eqb (spec_to_string (one WILDCARD_EQUAL [1; 0; 0])) (lit "= 1.0.*");
   str_eqb (spec_to_short_string (one WILDCARD_EQUAL [1; 0; 0])) (lit "=1.0.*");
   gives Bool.eqb (accepts (one WILDCARD_EQUAL [0]) v100) true;
   gives Bool.eqb (accepts (one WILDCARD_EQUAL [0]) v200) true;
   fails (one_new TILDE_EQUAL (vp [1])) ValueError] = true.
Proof. vm_compute. reflexivity. Qed.

(** ** tests/test_types.py *)

Definition cmps (x y : pyval) : list (result bool) := map (fun o => rich o x y) [OpEq; OpNe; OpLt; OpLe; OpGt; OpGe].

Example infinity_value z : cmps VInfinity (VInt z) = [Ok false; Ok true; Ok false; Ok false; Ok true; Ok true].
Proof. reflexivity. Qed.
Example infinity_infinity : cmps VInfinity VInfinity = [Ok true; Ok false; Ok false; Ok true; Ok false; Ok true].
Proof. reflexivity. Qed.
Example negative_infinity_value z : cmps VNegInfinity (VInt z) = [Ok false; Ok true; Ok true; Ok true; Ok false; Ok false].
Proof. reflexivity. Qed.
Example negative_infinities : cmps VNegInfinity VNegInfinity = [Ok true; Ok false; Ok false; Ok true; Ok false; Ok true].
Proof. reflexivity. Qed.
Example is_infinities z :
  is_infinity VInfinity = true /\ is_infinity VNegInfinity = false /\ is_infinity (VInt z) = false
  /\ is_negative_infinity VInfinity = false /\ is_negative_infinity VNegInfinity = true /\ is_negative_infinity (VInt z) = false.
Proof. repeat split. Qed.

(** ** README.md:60-145, versions/__init__.py:5-18, versions/operators.py:89-210 *)

Definition shown (r : result obj) (s : string) : bool := match r with Ok o => gives_string (obj_repr o) s | Err _ => false end.
Definition matched (v : string) (p : result specification) : result bool :=
  let* w := parse_version (lit v) in let* q := p in version_matches w q.

Example readme : all_true
  [gives_string (rmap to_string (parse_version (lit "1.0.0-dev.1+build.1"))) "1.0.0-dev.1+build.1"%string;
   gives_parts (parse_version (lit "1.0.0-dev.1+build.1")) [1; 0; 0];
   shown (rmap OSet (parse_version_set (lit "^1.0.0"))) "<VersionRange (>= 1.0.0, < 2.0.0)>"%string;
   shown (rmap OSpec (parse_specifier (lit "^1.0.0"))) "<SpecifierOne (^1.0.0)>"%string;
   shown (rmap OVersion (parse_version (lit "1.0.0"))) "<Version (1.0.0)>"%string;
   gives Bool.eqb (matched "1.3.0" (rmap BySet (parse_version_set (lit "^1.0.0")))) true;
   gives Bool.eqb (matched "2.2.0" (rmap BySet (parse_version_set (lit "^1.0.0")))) false;
   gives Bool.eqb (matched "1.3.0" (rmap BySpec (parse_specifier (lit "^1.0.0")))) true;
   gives Bool.eqb (matched "2.2.0" (rmap BySpec (parse_specifier (lit "^1.0.0")))) false;
   gives_string (rmap to_string (bind (parse_version (lit "1.0.0")) next_caret_breaking)) "2.0.0"%string;
   gives_string (rmap to_string (bind (parse_version (lit "1.2.0")) next_tilde_equal_breaking)) "1.3.0"%string;
   fails (bind (parse_version (lit "1")) next_tilde_equal_breaking) ValueError;
   gives_string (rmap to_string (bind (parse_version (lit "2.1.0")) next_tilde_breaking)) "2.2.0"%string;
   gives_some (bind (parse_version (lit "4.2.0")) next_wildcard_breaking) (vp [4; 3; 0]);
   gives_some (bind (parse_version (lit "1.2.3-rc.0")) next_wildcard_breaking) (vp [1; 2; 3]);
   gives_some (bind (parse_version (lit "0.6.8-post.0")) next_wildcard_breaking) (vp [0; 6; 9])] = true.
Proof. vm_compute. reflexivity. Qed.
