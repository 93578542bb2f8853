(** Property theorems about the caches with versions of several classes. *)

From Coq Require Import List ZArith NArith String Bool.
From Verif Require Import Py Segments Version VersionSets Operators SetStrings Specifiers Parsers Spec Caches Histories CacheFacts EqualFacts
  Typed GenericSets TypedSets TypedCaches SeparateSpec SeparateMain SeparateMixed.
Import ListNotations.
Open Scope Z_scope.

(** ** C101 *)

(** In all theorems [h] and [mix] are any hash functions. *)

(** After calls with any classes, the answer is the one after the calls with
    the class asked for, in that class. *)
Theorem C101_separate h mix xs x : t_answer_after h mix (map in_class xs) (in_class x)
  = rmap (answer_in (c_class x)) (answer_after h mix (calls_of (c_class x) xs) (c_call x)).
Proof. exact (separate h mix xs x). Qed.
Print Assumptions C101_separate.

(** Histories with the same calls for the class asked for, whatever was asked
    for others and however the arguments were passed. *)
Theorem C101_others h mix xs ys x y : c_class x = c_class y -> c_call x = c_call y -> calls_of (c_class x) xs = calls_of (c_class x) ys ->
  t_answer_after h mix (map in_class xs) (in_class x) = t_answer_after h mix (map in_class ys) (in_class y).
Proof. exact (others h mix xs ys x y). Qed.
Print Assumptions C101_others.

(** So the caches are as transparent as they are for one class. *)
Theorem C101_transparent h mix xs x : let cs := calls_of (c_class x) xs in Forall fair (c_call x :: cs) -> spelled_enough (c_call x :: cs) ->
  exists r, t_answer_after h mix (map in_class xs) (in_class x) = rmap (answer_in (c_class x)) r /\ agree r (answer_alone (c_call x)).
Proof. exact (as_transparent h mix xs x). Qed.
Print Assumptions C101_transparent.

(** After any calls, including those with specifiers and sets of several
    classes. *)
Theorem C101_parse_version h mix cs x : t_answer_after h mix cs (TParseVersion x) = t_answer_alone (TParseVersion x).
Proof. exact (any_version h mix cs x). Qed.
Print Assumptions C101_parse_version.

Theorem C101_parse_specifier h mix cs x : t_answer_after h mix cs (TParseSpecifier x) = t_answer_alone (TParseSpecifier x).
Proof. exact (any_specifier h mix cs x). Qed.
Print Assumptions C101_parse_specifier.

Theorem C101_to_version_set h mix cs p : exists p', tspec_eqb p p' = true
  /\ (forall t x, t_leaf t x p' -> t_mentioned (TToVersionSet p :: cs) t x)
  /\ t_answer_after h mix cs (TToVersionSet p) = t_answer_alone (TToVersionSet p').
Proof. exact (any_to_set h mix cs p). Qed.
Print Assumptions C101_to_version_set.

Theorem C101_parse_version_set h mix cs x p : t_parse_specifier (a_type x) (a_string x) = Ok p -> exists p', tspec_eqb p p' = true
  /\ (forall t y, t_leaf t y p' -> t_mentioned (TParseVersionSet x :: cs) t y)
  /\ t_answer_after h mix cs (TParseVersionSet x) = t_answer_alone (TToVersionSet p').
Proof. exact (any_parse_set h mix cs x p). Qed.
Print Assumptions C101_parse_version_set.

Theorem C101_parse_errors h mix cs x e : t_parse_specifier (a_type x) (a_string x) = Err e -> t_answer_after h mix cs (TParseVersionSet x) = Err e.
Proof. exact (any_parse_error h mix cs x e). Qed.
Print Assumptions C101_parse_errors.

(** The versions in an answer are of the class asked for. *)
Theorem C101_class h mix cs T p a x : t_answer_after h mix cs (TToVersionSet (retype_spec T p)) = Ok (TASet a) -> at_end a x -> t_type x = T.
Proof. exact (any_class h mix cs T p a x). Qed.
Print Assumptions C101_class.

Theorem C101_parsed_class h mix cs y a x : t_answer_after h mix cs (TParseVersionSet y) = Ok (TASet a) -> at_end a x -> t_type x = a_type y.
Proof. exact (any_parsed_class h mix cs y a x). Qed.
Print Assumptions C101_parsed_class.

Definition ver (r : list Z) : version := Version 0 r None None None None.
Definition h0 : op_type -> N := op_index.
Definition mix0 (ns : list N) : N := fold_right (fun a b => (a + 31 * b)%N) 7%N ns.

(** "0.*" stands for all versions after "*" in the same class, and not after
    "*" in another one. *)
Example C101_case :
  let asked T := Classed 0%nat T (ParseVersionSet (lit "0.*")) in
  let xs := [Classed 0%nat 1%nat (ParseVersionSet (lit "*")); Classed 2%nat 1%nat (ToVersionSet (One CARET (ver [1]))); Classed 0%nat 0%nat (ParseVersion (lit "0"))] in
  calls_of 1%nat xs = [ParseVersionSet (lit "*"); ToVersionSet (One CARET (ver [1]))]
  /\ t_answer_after h0 mix0 (map in_class xs) (in_class (asked 1%nat)) = Ok (TASet (GItem (GRange None None false false)))
  /\ t_answer_after h0 mix0 (map in_class xs) (in_class (asked 0%nat))
     = Ok (TASet (GItem (GRange (Some (Typed 0%nat (ver [0; 0]))) (Some (Typed 0%nat (ver [1; 0]))) true false))).
Proof. split; [|split]; vm_compute; reflexivity. Qed.

(** The class asked for has a history that meets the conditions, although
    the calls for the other class do not. *)
Example C101_transparent_case : let xs := [Classed 0%nat 1%nat (ParseVersionSet (lit "*")); Classed 0%nat 0%nat (ParseVersionSet (lit "^1.0"))] in
  let cs := calls_of 0%nat xs in let c := ParseVersionSet (lit "0.*") in
  Forall fair (c :: cs) /\ spelled_enough (c :: cs) /\ ~ spelled_enough [c; ParseVersionSet (lit "*")].
Proof.
  cbn zeta. split; [|split].
  - cbn. repeat apply Forall_cons; try apply Forall_nil; exact I.
  - intros t v u w Mt Mu Et Ev. apply mentioned_leaves in Mt. apply mentioned_leaves in Mu. vm_compute in Mt, Mu.
    destruct Mt as [Mt | [Mt | []]]; destruct Mu as [Mu | [Mu | []]]; inversion Mt; inversion Mu; subst; try discriminate Et; try (right; reflexivity); left; cbn; try exact I; right; discriminate.
  - intros S.
    assert (A : mentioned [ParseVersionSet (lit "0.*"); ParseVersionSet (lit "*")] WILDCARD_EQUAL (ver [0; 0])).
    { exists (ParseVersionSet (lit "0.*")), (One WILDCARD_EQUAL (ver [0; 0])). split; [now left|]. split; constructor. vm_compute. reflexivity. }
    assert (B : mentioned [ParseVersionSet (lit "0.*"); ParseVersionSet (lit "*")] WILDCARD_EQUAL (ver [0])).
    { exists (ParseVersionSet (lit "*")), (One WILDCARD_EQUAL (ver [0])). split; [now right; left|]. split; constructor. vm_compute. reflexivity. }
    destruct (S _ _ _ _ A B) as [H|H]; [reflexivity|reflexivity|apply H; now split|discriminate H].
Qed.

(** A specifier of two classes, whose conversion is remembered for neither. *)
Example C101_mixed_case :
  let p := TAnyOf [TOne CARET (Typed 0%nat (ver [1])); TOne CARET (Typed 1%nat (ver [1]))] in
  t_answer_after h0 mix0 [] (TToVersionSet p) = Err TypeError
  /\ t_answer_after h0 mix0 [TToVersionSet p] (TParseVersionSet (Arguments 0%nat 1%nat (lit "^1.0")))
     = Ok (TASet (GItem (GRange (Some (Typed 1%nat (ver [1]))) (Some (Typed 1%nat (ver [2]))) true false))).
Proof. split; vm_compute; reflexivity. Qed.
