(** Properties C40 to C44: specifications and version sets as strings. *)

From Coq Require Import List ZArith NArith String Bool.
From Verif Require Import Py Segments Version VersionSets Operators SetStrings Specifiers Parsers Spec Grammar Clauses
  ParseTheorems SetTexts SpecText SpecParse SpecStrings SpecFailures SpecMeaning SetNames CandidateFacts SetExact SpecErrors.
Import ListNotations.
Open Scope Z_scope.

Definition rel (l : list Z) : version := Version 0 l None None None None.

(** ** C40 *)

(** Single specifiers parse back; what is missing is refuted below. *)
Theorem C40_short_partial s t v : parse_specifier s = Ok (One t v) ->
  parse_specifier (spec_to_short_string (One t v)) = Ok (One t v).
Proof. exact (short_exact s (One t v)). Qed.
Print Assumptions C40_short_partial.

Theorem C40_long_partial s t v : parse_specifier s = Ok (One t v) -> (forall u, v_pre v = Some u -> phase u <> lit "candidate") ->
  parse_specifier (spec_to_string (One t v)) = Ok (One t v).
Proof. exact (long_parses_back s t v). Qed.
Print Assumptions C40_long_partial.

(** No specifier with several clauses parses back, and no long string of a
    candidate does. *)
Theorem C40_compound s p : parse_specifier s = Ok p -> (forall t v, p <> One t v) ->
  parse_specifier (spec_to_string p) = Err ParseSpecificationError /\ parse_specifier (spec_to_short_string p) = Err ParseSpecificationError.
Proof. exact (compound_fails s p). Qed.
Print Assumptions C40_compound.

Theorem C40_candidate t v u : wf v -> v_pre v = Some u -> phase u = lit "candidate" ->
  parse_specifier (op_to_string t v) = Err ParseSpecificationError.
Proof. exact (candidate_string_error t v u). Qed.
Print Assumptions C40_candidate.

(** So these are exactly the strings that parse back. *)
Theorem C40_exact s p : parse_specifier s = Ok p ->
  (parse_specifier (spec_to_string p) = Ok p <-> exists t v, p = One t v /\ forall u, v_pre v = Some u -> phase u <> lit "candidate")
  /\ (parse_specifier (spec_to_string p) = Ok p \/ parse_specifier (spec_to_string p) = Err ParseSpecificationError).
Proof. exact (long_outcome s p). Qed.
Print Assumptions C40_exact.

Theorem C40_refuted : exists s p, parse_specifier s = Ok p /\ parse_specifier (spec_to_string p) = Err ParseSpecificationError.
Proof. exists (lit ">=1,<2"). eexists. split; [vm_compute; reflexivity|]. now vm_compute. Qed.
Print Assumptions C40_refuted.

Example C40_case : parse_specifier (lit "!=1.0.x") = Ok (One WILDCARD_NOT_EQUAL (rel [1; 0; 0]))
  /\ spec_to_string (One WILDCARD_NOT_EQUAL (rel [1; 0; 0])) = lit "!= 1.0.*"
  /\ parse_specifier (lit "=1.0c1") <> Err ParseSpecificationError
  /\ parse_specifier (lit "= 1.0-candidate.1") = Err ParseSpecificationError.
Proof. split; [now vm_compute|]. split; [now vm_compute|]. split; [|now vm_compute]. vm_compute. discriminate. Qed.

(** ** C41 *)

(** Strings of sets parse to an equal set, provided the set is not empty and no
    range has a bound with a local part, except around an excluded version. *)
Theorem C41_short_partial a : readable wf a -> exists s b, set_to_short_string a = Ok s /\ parse_version_set s = Ok b /\ set_eqb b a = true.
Proof. exact (set_short_parses a). Qed.
Print Assumptions C41_short_partial.

Theorem C41_long_partial a : readable printable a -> exists s b, set_to_string a = Ok s /\ parse_version_set s = Ok b /\ set_eqb b a = true.
Proof. exact (set_long_parses a). Qed.
Print Assumptions C41_long_partial.

(** No others do. *)
Theorem C41_short_exact a : canonical a -> Forall wf (bounds a) ->
  (exists s b, set_to_short_string a = Ok s /\ parse_version_set s = Ok b /\ set_eqb b a = true) <-> readable wf a.
Proof. exact (short_exactly a). Qed.
Print Assumptions C41_short_exact.

Theorem C41_long_exact a : canonical a -> Forall wf (bounds a) ->
  (exists s b, set_to_string a = Ok s /\ parse_version_set s = Ok b /\ set_eqb b a = true) <-> readable printable a.
Proof. exact (long_exactly a). Qed.
Print Assumptions C41_long_exact.

Theorem C41_empty_refuted : exists s b, set_to_string Empty = Ok s /\ parse_version_set s = Ok b /\ set_eqb b Empty = false.
Proof. eexists _, _. split; [reflexivity|]. split; [vm_compute; reflexivity|]. reflexivity. Qed.
Print Assumptions C41_empty_refuted.

Theorem C41_local_refuted : exists a s, canonical a /\ Forall wf (bounds a) /\ set_to_short_string a = Ok s
  /\ parse_version_set s = Err ParseSpecificationError.
Proof.
  exists (Item (Range (Some (Version 0 [1] None None None (Some [LInt 5]))) None false false)). eexists. split; [|split; [|split; [vm_compute; reflexivity|now vm_compute]]].
  - cbn. repeat split; try discriminate; auto. 
  - repeat constructor; cbn; try discriminate; repeat constructor; discriminate.
Qed.
Print Assumptions C41_local_refuted.

Definition two_parts : vset := Union [Range None (Some (rel [1])) false false; Point (rel [2; 1]); Range (Some (rel [3])) (Some (rel [4])) true false].
Example C41_case : readable printable two_parts /\ set_to_string two_parts = Ok (lit "< 1 || 2.1 || >= 3, < 4")
  /\ readable printable (Union [Range None (Some (rel [1])) false false; Range (Some (rel [1; 0])) None false false])
  /\ set_to_string (Union [Range None (Some (rel [1])) false false; Range (Some (rel [1; 0])) None false false]) = Ok (lit "!= 1").
Proof.
  split; [|split; [now vm_compute|split; [|now vm_compute]]].
  - split; [|split; [discriminate|split]].
    + cbn. repeat split; try discriminate; auto; try (now vm_compute).
    + repeat constructor; cbn; try discriminate; repeat constructor; discriminate.
    + right. repeat constructor.
  - split; [|split; [discriminate|split]].
    + cbn. repeat split; try discriminate; auto; try (now vm_compute).
    + repeat constructor; cbn; try discriminate; repeat constructor; discriminate.
    + left. exists (rel [1]), (rel [1; 0]). split; [reflexivity|now vm_compute].
Qed.

(** ** C42 *)

Theorem C42_whitespace s u : respaced s u -> parse_specifier s = parse_specifier u /\ parse_version_set s = parse_version_set u.
Proof. exact (respaced_parse s u). Qed.
Print Assumptions C42_whitespace.

Example C42_case : respaced (lit ">=1.0,<2") (lit "> =1. 0 ,<2") /\ parse_specifier (lit "> =1. 0 ,<2") = Ok (AllOf [One GREATER_OR_EQUAL (rel [1; 0]); One LESS (rel [2])]).
Proof.
  split; [|now vm_compute]. apply respaced_trans with (lit "> =1.0,<2").
  - apply (respaced_insert (lit ">") 32 (lit "=1.0,<2")). cbn. tauto.
  - apply respaced_trans with (lit "> =1. 0,<2").
    + apply (respaced_insert (lit "> =1.") 32 (lit "0,<2")). cbn. tauto.
    + apply (respaced_insert (lit "> =1. 0") 32 (lit ",<2")). cbn. tauto.
Qed.

(** ** C43 *)

Theorem C43_accepts s css p v : specification s css -> parse_specifier s = Ok p ->
  exists b, accepts p v = Ok b
    /\ (b = true <-> Exists (fun cs => Forall (fun c => exists q, parse_specifier c = Ok q /\ accepts q v = Ok true) cs) css).
Proof. exact (parsed_accepts s css p v). Qed.
Print Assumptions C43_accepts.

Theorem C43_parses s css : specification s css ->
  (exists p, parse_specifier s = Ok p) <-> Forall (Forall (fun c => exists q, parse_specifier c = Ok q)) css.
Proof. exact (parses_iff s css). Qed.
Print Assumptions C43_parses.

Theorem C43_structure s p : parse_specifier s = Ok p ->
  exists css, specification s css /\ forall css', specification s css' -> css' = css.
Proof. exact (one_specification s p). Qed.
Print Assumptions C43_structure.

Theorem C43_grammar s p : parse_specifier s = Ok p <->
  exists css xss, specification s css /\ Forall2 (Forall2 proper_clause) css xss /\ p = spec_of xss.
Proof. exact (parse_specifier_ok s p). Qed.
Print Assumptions C43_grammar.

Example C43_case : specification (lit "^1.2|>=3, <4||5") [[lit "^1.2"]; [lit ">=3"; lit "<4"]; [lit "5"]]
  /\ parse_specifier (lit "^1.2|>=3, <4||5") = Ok (AnyOf [One CARET (rel [1; 2]); AllOf [One GREATER_OR_EQUAL (rel [3]); One LESS (rel [4])]; One EQUAL (rel [5])]).
Proof.
  split; [|now vm_compute]. exists (lit "^1.2"), [], [(false, (lit ">=3", [lit "<4"])); (true, (lit "5", []))]. split; [reflexivity|]. split.
  - repeat (constructor; try discriminate); intros H; cbn in H; repeat (destruct H as [H|H]; [discriminate|]); exact H.
  - apply respaced_sym. apply (respaced_insert (lit "^1.2|>=3,") 32 (lit "<4||5")). cbn. tauto.
Qed.

(** ** C44 *)

(** Lower-case strings without a one-part version after "~=" fail with a parse
    error only. *)
Theorem C44_lower_partial s : (forall c a, In c s -> folds c a -> c = a) -> (forall c v, piece c s -> clause c TILDE_EQUAL v -> g_more v <> []) ->
  (exists p, parse_specifier s = Ok p) \/ parse_specifier s = Err ParseSpecificationError \/ parse_specifier s = Err ParseVersionError.
Proof. exact (parse_fixed_errors s). Qed.
Print Assumptions C44_lower_partial.

(** All other failures are those of a clause with capitals in a tag, or of a
    one-part version after "~=". *)
Theorem C44_errors s e : parse_specifier s = Err e ->
  e = ParseSpecificationError \/ e = ParseVersionError
  \/ (e = ValueError /\ exists c t v, piece c s /\ clause c t v /\ (~ lower_case v \/ (t = TILDE_EQUAL /\ g_more v = []))).
Proof. exact (parse_errors s e). Qed.
Print Assumptions C44_errors.

(** Exactly which error: that of the first clause that has one. All that comes
    before it and a comma or pipes is a specification. *)
Theorem C44_exact s e : parse_specifier s = Err e <-> exists c b, unbroken c /\ right_edge b /\ clause_error c e
  /\ (respaced s (c ++ b)
      \/ exists a sep q, respaced s (a ++ sep ++ c ++ b) /\ parse_specifier a = Ok q
           /\ (sep = [44%N] \/ sep = [124%N; 124%N] \/ (sep = [124%N] /\ forall r, c ++ b <> 124%N :: r))).
Proof. exact (specifier_error s e). Qed.
Print Assumptions C44_exact.

(** The first of two bad clauses decides, and three pipes enclose an empty
    clause. *)
Example C44_exact_case : parse_specifier (lit ">1 , 1.X || ?") = Err ParseVersionError /\ parse_specifier (lit "> 1 | ? , 1.X") = Err ParseSpecificationError
  /\ parse_specifier (lit "~=1,1.X") = Err ValueError /\ parse_specifier (lit "1|||1.X") = Err ParseSpecificationError.
Proof. now vm_compute. Qed.

Theorem C44_set_errors s e : parse_version_set s = Err e ->
  parse_specifier s = Err e \/ exists p, parse_specifier s = Ok p
    /\ ((e = ValueError /\ ~ each_op free_op p) \/ (e = RecursionError /\ ~ no_any p)).
Proof. exact (set_errors s e). Qed.
Print Assumptions C44_set_errors.

Theorem C44_refuted : parse_specifier (lit "~=1") = Err ValueError /\ parse_specifier (lit ">1.0RC1") = Err ValueError
  /\ parse_version_set (lit "1||>1") = Err RecursionError.
Proof. now vm_compute. Qed.
Print Assumptions C44_refuted.

Example C44_case : (forall c a, In c (lit ">=1.2,x y") -> folds c a -> c = a)
  /\ (forall c v, piece c (lit ">=1.2,x y") -> clause c TILDE_EQUAL v -> g_more v <> [])
  /\ parse_specifier (lit ">=1.2,x y") = Err ParseSpecificationError /\ parse_specifier (lit "1.X") = Err ParseVersionError.
Proof.
  split; [|split; [|now vm_compute]].
  - intros c a H F. unfold folds in F. cbn in H. Lia.lia.
  - intros c v P C _. apply tilde_char in C. apply (piece_chars c (lit ">=1.2,x y") 126%N P) in C; [|reflexivity].
    cbn in C. repeat (destruct C as [C|C]; [discriminate|]). exact C.
Qed.
