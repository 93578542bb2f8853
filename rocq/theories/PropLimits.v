(** Theorems about CPython's limit on the digits of numbers: C90. *)

From Coq Require Import List ZArith NArith String Bool Lia.
From Verif Require Import Py Segments Version VersionSets Operators SetStrings Specifiers Parsers Spec Grammar Clauses ParseTheorems SpecifierFacts
  Limits LimitSpec LimitFacts LimitClauses.
Import ListNotations.
Open Scope Z_scope.

(** ** C90 The digit limit *)

(** A limit only turns results into ValueError, and there may be none. *)
Theorem C90_unlimited s : parse_version_within None s = parse_version s /\ parse_specifier_within None s = parse_specifier s.
Proof. exact (conj (parse_unlimited s) (specifier_unlimited s)). Qed.
Print Assumptions C90_unlimited.

Theorem C90_limited k s : (parse_version_within k s = parse_version s \/ parse_version_within k s = Err ValueError)
  /\ (parse_specifier_within k s = parse_specifier s \/ parse_specifier_within k s = Err ValueError).
Proof. exact (conj (parse_within_cases k s) (specifier_within_cases k s)). Qed.
Print Assumptions C90_limited.

(** Exactly the strings whose numbers have no more digits are read. *)
Theorem C90_versions k s v : parse_version_within (Some k) s = Ok v <-> exists t, tree t /\ lower_case t /\ short k t /\ text t = s /\ reading t = v.
Proof. exact (parse_within_iff k s v). Qed.
Print Assumptions C90_versions.

Theorem C90_specifications k s p : parse_specifier_within (Some k) s = Ok p <->
  exists css xss, specification s css /\ Forall2 (Forall2 (fun c x => proper_clause c x /\ short k (snd x))) css xss /\ p = spec_of xss.
Proof. exact (specifier_within_ok k s p). Qed.
Print Assumptions C90_specifications.

Theorem C90_sets k s :
  parse_version_set_within None s = parse_version_set s
  /\ (parse_version_set_within k s = parse_version_set s \/ parse_version_set_within k s = Err ValueError).
Proof. exact (sets_within k s). Qed.
Print Assumptions C90_sets.

Theorem C90_sets_read k s a : parse_version_set_within (Some k) s = Ok a <->
  parse_version_set s = Ok a /\ exists css xss, specification s css /\ Forall2 (Forall2 (fun c x => proper_clause c x /\ short k (snd x))) css xss.
Proof. exact (sets_within_ok k s a). Qed.
Print Assumptions C90_sets_read.

Theorem C90_unaffected k s : no_long_run k s -> parse_version_within (Some k) s = parse_version s.
Proof. exact (run_unaffected k s). Qed.
Print Assumptions C90_unaffected.

(** Exactly the versions whose numbers are small enough are printed. *)
Theorem C90_strings k v : (1 <= k)%nat -> wf v ->
  (fits k v -> to_string_within (Some k) v = Ok (to_string v) /\ to_short_string_within (Some k) v = Ok (to_short_string v))
  /\ (~ fits k v -> to_string_within (Some k) v = Err ValueError /\ to_short_string_within (Some k) v = Err ValueError).
Proof. exact (strings_within k v). Qed.
Print Assumptions C90_strings.

Theorem C90_strings_unlimited v : to_string_within None v = Ok (to_string v) /\ to_short_string_within None v = Ok (to_short_string v).
Proof. exact (strings_unlimited v). Qed.
Print Assumptions C90_strings_unlimited.

Theorem C90_specifier_strings k s : (1 <= k)%nat -> each_op (fun _ v => wf v) s ->
  (each_op (fun _ v => fits k v) s -> spec_string_within (Some k) s = Ok (spec_to_string s))
  /\ (~ each_op (fun _ v => fits k v) s -> spec_string_within (Some k) s = Err ValueError).
Proof. exact (spec_strings_within k s). Qed.
Print Assumptions C90_specifier_strings.

(** Whatever is read is printed and read again. *)
Theorem C90_round_trip k s v : parse_version_within (Some k) s = Ok v -> exists u,
  to_short_string_within (Some k) v = Ok u /\ parse_version_within (Some k) u = Ok v.
Proof. exact (trip_within k s v). Qed.
Print Assumptions C90_round_trip.

(** The next version need not be printable. *)
Theorem C90_next k : (1 <= k)%nat -> exists v w, wf v /\ fits k v /\ to_string_within (Some k) v = Ok (to_string v)
  /\ next_major v = Ok w /\ wf w /\ to_string_within (Some k) w = Err ValueError.
Proof. exact (next_too_long k). Qed.
Print Assumptions C90_next.

(** With three digits: leading zeros count, words do not, and specifications
    are joined before they are read. *)
Example C90_case :
  parse_version_within (Some 3%nat) (lit "999.1rc007+a1234") = parse_version (lit "999.1rc7+a1234")
  /\ parse_version_within (Some 3%nat) (lit "1.0001") = Err ValueError
  /\ parse_version_within (Some 3%nat) (lit "1.0+1000") = Err ValueError
  /\ parse_version_within (Some 3%nat) (lit "1.0+1000!") = Err ParseVersionError
  /\ parse_specifier_within (Some 3%nat) (lit ">= 1.0, < 999 || 5.*") = parse_specifier (lit ">= 1.0, < 999 || 5.*")
  /\ parse_specifier_within (Some 3%nat) (lit ">= 1.0, < 99 99") = Err ValueError
  /\ parse_specifier (lit ">= 1.0, < 99 99") <> Err ValueError
  /\ to_string_within (Some 3%nat) (bare 0 [1; 999]) = Ok (lit "1.999")
  /\ to_string_within (Some 3%nat) (bare 0 [1; 1000]) = Err ValueError
  /\ spec_string_within (Some 3%nat) (AnyOf [One GREATER (bare 0 [1]); One LESS (bare 0 [1000])]) = Err ValueError
  /\ wf (bare 0 [1; 1000]) /\ no_long_run 3 (lit "12.3") /\ fits 3 (bare 0 [1; 999]).
Proof.
  do 6 (split; [vm_compute; reflexivity|]). split; [vm_compute; discriminate|]. do 3 (split; [vm_compute; reflexivity|]).
  split; [|split].
  - split; [cbn; lia|]. split; [discriminate|]. split; [|repeat (split; [exact I|]); exact I]. constructor; [lia|]. constructor; [lia|constructor].
  - intros a d b E D. destruct (Nat.le_gt_cases (List.length d) 3) as [H|H]; [exact H|exfalso].
    assert (L : (List.length (lit "12.3") = List.length a + (List.length d + List.length b))%nat) by (rewrite E, !app_length; reflexivity).
    change (List.length (lit "12.3")) with 4%nat in L. destruct a; [|cbn in L; lia]. destruct b; [|cbn in L; lia].
    rewrite app_nil_r in E. cbn [app] in E. subst d. inversion D as [|? ? _ D1]; subst. inversion D1 as [|? ? _ D2]; subst. inversion D2 as [|? ? X _]; subst.
    unfold digit in X. cbn in X. lia.
  - unfold fits, version_numbers, bare. cbn. repeat (constructor; [lia|]). constructor.
Qed.
