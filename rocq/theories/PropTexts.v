(** Theorems about strings of specifications and sets: C72-C74. *)

From Coq Require Import List ZArith NArith String Bool.
From Verif Require Import Py Segments Version VersionSets Operators SetStrings Specifiers Regex Patterns Parsers Spec Grammar Clauses Compose SetNames SpecNames SpecBlur.
Import ListNotations.
Open Scope Z_scope.

Definition ver (r : list Z) : version := bare 0 r.

(** ** C72 *)

(** [s || t] is a specification exactly if [s] and [t] are. *)
Theorem C72_or_parses s t : (exists r, parse_specifier (s ++ pipes true ++ t) = Ok r)
  <-> (exists p, parse_specifier s = Ok p) /\ exists q, parse_specifier t = Ok q.
Proof. exact (join_iff s t). Qed.
Print Assumptions C72_or_parses.

(** It accepts what either accepts, and [t] is tried only if [s] refuses. *)
Theorem C72_or_accepts d s t p q : parse_specifier s = Ok p -> parse_specifier t = Ok q ->
  exists r, parse_specifier (s ++ pipes d ++ t) = Ok r
    /\ forall v, accepts r v = let* b := accepts p v in if b then Ok true else accepts q v.
Proof. exact (join_parses d s t p q). Qed.
Print Assumptions C72_or_accepts.

(** One pipe may be half of another separator. *)
Theorem C72_single_refuted : exists s t r, parse_specifier (s ++ pipes false ++ t) = Ok r /\ parse_specifier s = Err ParseSpecificationError.
Proof. exists (lit "1|"), (lit "2"). eexists. now vm_compute. Qed.
Print Assumptions C72_single_refuted.

(** [s, t], for single alternatives. *)
Theorem C72_and_parses s t : ~ In 124%N s -> ~ In 124%N t ->
  (exists r, parse_specifier (s ++ [44%N] ++ t) = Ok r) <-> (exists p, parse_specifier s = Ok p) /\ exists q, parse_specifier t = Ok q.
Proof. exact (comma_iff s t). Qed.
Print Assumptions C72_and_parses.

Theorem C72_and_accepts s t p q : ~ In 124%N s -> ~ In 124%N t -> parse_specifier s = Ok p -> parse_specifier t = Ok q ->
  exists r, parse_specifier (s ++ [44%N] ++ t) = Ok r
    /\ forall v, accepts r v = let* b := accepts p v in if b then accepts q v else Ok false.
Proof. exact (comma_parses s t p q). Qed.
Print Assumptions C72_and_accepts.

(** Version sets. *)
Theorem C72_or_sets d s t a b c : parse_version_set s = Ok a -> parse_version_set t = Ok b -> parse_version_set (s ++ pipes d ++ t) = Ok c ->
  forall v, contains c v = contains a v || contains b v.
Proof. exact (join_sets d s t a b c). Qed.
Print Assumptions C72_or_sets.

Theorem C72_and_sets s t a b : ~ In 124%N s -> ~ In 124%N t -> parse_version_set s = Ok a -> parse_version_set t = Ok b ->
  exists c, parse_version_set (s ++ [44%N] ++ t) = Ok c /\ canonical c /\ forall v, contains c v = contains a v && contains b v.
Proof. exact (comma_total s t a b). Qed.
Print Assumptions C72_and_sets.

(** The precedence: a comma binds closer than a pipe. *)
Example C72_case : exists p q r, parse_specifier (lit ">=1 | < 3") = Ok p /\ parse_specifier (lit "~2.0") = Ok q
  /\ parse_specifier (lit ">=1 | < 3,~2.0") = Ok r /\ accepts p (ver [4]) = Ok true /\ accepts q (ver [4]) = Ok false /\ accepts r (ver [4]) = Ok true.
Proof. do 3 eexists. now vm_compute. Qed.

Example C72_sets_case : exists a b c, ~ In 124%N (lit ">=1") /\ ~ In 124%N (lit "<3") /\ parse_version_set (lit ">=1") = Ok a /\ parse_version_set (lit "<3") = Ok b
  /\ parse_version_set (lit ">=1" ++ [44%N] ++ lit "<3") = Ok c /\ contains c (ver [2]) = true /\ contains c (ver [3]) = false.
Proof.
  do 3 eexists. split; [cbn; intuition discriminate|]. split; [cbn; intuition discriminate|]. now vm_compute.
Qed.

Example C72_or_sets_case : exists a b c, parse_version_set (lit "<1") = Ok a /\ parse_version_set (lit ">=3") = Ok b
  /\ parse_version_set (lit "<1" ++ pipes true ++ lit ">=3") = Ok c /\ contains c (ver [2]) = false /\ contains c (ver [3]) = true.
Proof. do 3 eexists. now vm_compute. Qed.

(** ** C73 *)

(** Sets with the same string are the same set; even the bounds are spelled
    alike, but for sets of all versions but one.  Missing: the empty set. *)
Theorem C73_strings_partial a b : canonical a -> canonical b -> a <> Empty -> b <> Empty -> Forall wf (bounds a) -> Forall wf (bounds b) ->
  set_to_string a = set_to_string b -> set_eqb a b = true /\ (a = b \/ hole a /\ hole b).
Proof. exact (long_names a b). Qed.
Print Assumptions C73_strings_partial.

Theorem C73_short_strings_partial a b : canonical a -> canonical b -> a <> Empty -> b <> Empty -> Forall wf (bounds a) -> Forall wf (bounds b) ->
  set_to_short_string a = set_to_short_string b -> set_eqb a b = true /\ (a = b \/ hole a /\ hole b).
Proof. exact (short_names a b). Qed.
Print Assumptions C73_short_strings_partial.

(** The strings exist. *)
Theorem C73_total a : canonical a -> exists s t, set_to_string a = Ok s /\ set_to_short_string a = Ok t.
Proof. exact (has_strings a). Qed.
Print Assumptions C73_total.

(** The empty set is written like the version 0, and like nothing else. *)
Theorem C73_empty a : canonical a -> Forall wf (bounds a) -> a <> Empty ->
  (set_to_string a = set_to_string Empty <-> a = Item (Point (bare 0 [0])))
  /\ (set_to_short_string a = set_to_short_string Empty <-> a = Item (Point (bare 0 [0]))).
Proof. exact (zero_names a). Qed.
Print Assumptions C73_empty.

Theorem C73_refuted : exists a b, canonical a /\ canonical b /\ set_to_string a = set_to_string b /\ set_eqb a b = false.
Proof. exists Empty, (Item (Point (bare 0 [0]))). now vm_compute. Qed.
Print Assumptions C73_refuted.

Example C73_case : let a := Union [Range None (Some (ver [1])) false true; Range (Some (ver [2])) (Some (ver [3])) false false] in
  let h := Union [Range None (Some (ver [1])) false false; Range (Some (ver [1; 0])) None false false] in
  let g := Union [Range None (Some (ver [1])) false false; Range (Some (ver [1])) None false false] in
  canonical a /\ Forall wf (bounds a) /\ set_to_string a = Ok (lit "<= 1 || > 2, < 3")
  /\ canonical h /\ canonical g /\ set_to_string h = Ok (lit "!= 1") /\ set_to_string g = set_to_string h /\ set_eqb g h = true.
Proof.
  cbv zeta. split.
  { split; [|cbn; auto]. split; [repeat split; discriminate|]. split; [left; reflexivity|repeat split; discriminate]. }
  split.
  { repeat (constructor; [split; [discriminate|split; [discriminate|split; [repeat constructor; discriminate|now repeat split]]]|]). constructor. }
  split; [now vm_compute|]. do 2 (split; [split; [|cbn; auto]; split; [repeat split; discriminate|]; split; [right; repeat split|repeat split; discriminate]|]).
  now vm_compute.
Qed.

(** ** C74 *)

(** Specifiers have the same string exactly if they are the same up to the last
    numbers of versions with wildcards. *)
Theorem C74_strings s u : spec_made s -> spec_made u -> each_op (fun _ => wf) s -> each_op (fun _ => wf) u ->
  (spec_to_string s = spec_to_string u <-> blurred s = blurred u).
Proof. exact (long_spec_exact s u). Qed.
Print Assumptions C74_strings.

Theorem C74_short_strings s u : spec_made s -> spec_made u -> each_op (fun _ => wf) s -> each_op (fun _ => wf) u ->
  (spec_to_short_string s = spec_to_short_string u <-> blurred s = blurred u).
Proof. exact (short_spec_exact s u). Qed.
Print Assumptions C74_short_strings.

(** Specifiers with the same string are the same, provided a wildcard replaces
    nothing but a zero. *)
Theorem C74_writable s u : spec_made s -> spec_made u -> each_op spelled s -> each_op spelled u ->
  spec_to_string s = spec_to_string u \/ spec_to_short_string s = spec_to_short_string u -> s = u.
Proof. intros M N O P [E|E]; [exact (long_spec_names s u M N O P E)|exact (short_spec_names s u M N O P E)]. Qed.
Print Assumptions C74_writable.

(** Parsed specifiers are such. *)
Theorem C74_parsed s t p q : parse_specifier s = Ok p -> parse_specifier t = Ok q ->
  spec_to_string p = spec_to_string q \/ spec_to_short_string p = spec_to_short_string q -> p = q.
Proof. exact (parsed_names s t p q). Qed.
Print Assumptions C74_parsed.

(** Other wildcards lose a part, and what they accept with it. *)
Theorem C74_wildcards_lose : exists s u v, spec_made s /\ spec_made u /\ spec_to_string s = spec_to_string u
  /\ spec_to_short_string s = spec_to_short_string u /\ accepts s v = Ok true /\ accepts u v = Ok false.
Proof.
  exists (One WILDCARD_DOUBLE_EQUAL (ver [1; 5])), (One WILDCARD_DOUBLE_EQUAL (ver [1; 7])), (ver [1; 6]).
  split; [split; [reflexivity|discriminate]|]. split; [split; [reflexivity|discriminate]|]. now vm_compute.
Qed.
Print Assumptions C74_wildcards_lose.

(** The last number of a wildcard does not show, other parts do. *)
Example C74_blurred : map (fun v => (spec_to_string (One WILDCARD_EQUAL v), forget_last v))
    [ver [1; 5]; Version 2 [0] (Some (Tag ALPHA 3)) None None None; Version 0 [1] None None None (Some [LStr (lit "ab12")]); Version 0 [1] None None None (Some [LStr (lit "ab"); LInt 7])]
  = [(lit "= 1.*", ver [1; 0]); (lit "= 2!0-alpha.*", Version 2 [0] (Some (Tag ALPHA 0)) None None None);
     (lit "= 1+ab*", Version 0 [1] None None None (Some [LStr (lit "ab")])); (lit "= 1+ab.*", Version 0 [1] None None None (Some [LStr (lit "ab"); LInt 0]))].
Proof. reflexivity. Qed.

Definition nested : spec := AnyOf [AllOf [One GREATER (ver [1]); One LESS (ver [2])]; One WILDCARD_EQUAL (ver [3; 0])].
Example C74_case : spec_made nested /\ each_op spelled nested /\ spec_to_string nested = lit "((> 1, < 2) || = 3.*)"
  /\ spec_to_short_string nested = lit "((>1,<2)||=3.*)".
Proof.
  assert (W : forall x r, 0 <= x -> Forall (fun z => 0 <= z) r -> wf (ver (x :: r))).
  { intros x r X R. split; [discriminate|]. split; [discriminate|]. split; [now constructor|]. now repeat split. }
  split; [repeat split; try (cbn; auto with arith; fail); discriminate|]. split; [|now vm_compute].
  assert (K : forall t r, op_is_wildcard t = false \/ last r 0 = 0 -> wf (ver r) -> spelled t (ver r)).
  { intros t r H X. split; [exact X|]. intros Y. split; [reflexivity|]. destruct H as [H|H]; [congruence|exact H]. }
  refine (conj (conj (K _ _ _ _) (conj (K _ _ _ _) I)) (conj (K _ _ _ _) I)); try (now left); try (now right);
    apply W; try discriminate; repeat constructor; discriminate.
Qed.
