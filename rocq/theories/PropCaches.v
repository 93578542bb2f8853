(** Property theorems about the caches. *)

From Coq Require Import List ZArith NArith String Bool.
From Verif Require Import Py Segments Version VersionSets Operators SetStrings Specifiers Parsers Spec Caches Histories Remembered CacheFacts EqualFacts RememberedFacts ShelfFacts.
Import ListNotations.
Open Scope Z_scope.

(** ** C45 *)

(** In all theorems [h] and [mix] are any hash functions; where it is said, they
    do not collide. *)

Theorem C45_parse_version h mix cs s : answer_after h mix cs (ParseVersion s) = answer_alone (ParseVersion s).
Proof. exact (parse_version_exact h mix cs s). Qed.
Print Assumptions C45_parse_version.

Theorem C45_parse_specifier h mix cs s : answer_after h mix cs (ParseSpecifier s) = answer_alone (ParseSpecifier s).
Proof. exact (parse_specifier_exact h mix cs s). Qed.
Print Assumptions C45_parse_specifier.

(** Answers that are equal; which one is given is said below. *)
Theorem C45_version_set_to_specifier h mix cs a : Forall fair cs -> canonical a ->
  exists p u, answer_after h mix cs (ToSpecifier a) = Ok (ASpec p) /\ version_set_to_specifier a = Ok u /\ spec_eqb p u = true.
Proof. exact (to_specifier_agree h mix cs a). Qed.
Print Assumptions C45_version_set_to_specifier.

(** Without any condition: the answer is always that of an equal specifier, made
    of operators that were converted before. *)
Theorem C45_specifier_to_version_set h mix cs p : exists p', spec_eqb p p' = true
  /\ (forall t v, leaf t v p' -> mentioned (ToVersionSet p :: cs) t v)
  /\ answer_after h mix cs (ToVersionSet p) = answer_alone (ToVersionSet p').
Proof. exact (to_set_equal h mix cs p). Qed.
Print Assumptions C45_specifier_to_version_set.

Theorem C45_parse_version_set h mix cs s p : parse_specifier s = Ok p -> exists p', spec_eqb p p' = true
  /\ (forall t v, leaf t v p' -> mentioned (ParseVersionSet s :: cs) t v)
  /\ answer_after h mix cs (ParseVersionSet s) = answer_alone (ToVersionSet p').
Proof. exact (parse_set_equal h mix cs s p). Qed.
Print Assumptions C45_parse_version_set.

Theorem C45_parse_errors h mix cs s e : parse_specifier s = Err e ->
  answer_after h mix cs (ParseVersionSet s) = Err e /\ answer_alone (ParseVersionSet s) = Err e.
Proof.
  intros H. split; [exact (parse_set_error h mix cs s e H)|]. cbn [answer_alone]. unfold parse_version_set. now rewrite H.
Qed.
Print Assumptions C45_parse_errors.

(** All calls, if equal versions are written precisely enough wherever a bound
    depends on it. *)
Theorem C45_all_calls h mix cs c : Forall fair (c :: cs) -> spelled_enough (c :: cs) ->
  agree (answer_after h mix cs c) (answer_alone c).
Proof. exact (transparent h mix cs c). Qed.
Print Assumptions C45_all_calls.

(** The very same sets, if equal versions are always written alike. *)
Theorem C45_same_set h mix cs p : Forall fair (ToVersionSet p :: cs) -> spelled_alike (ToVersionSet p :: cs) ->
  answer_after h mix cs (ToVersionSet p) = answer_alone (ToVersionSet p).
Proof. exact (to_set_alike h mix cs p). Qed.
Print Assumptions C45_same_set.

Theorem C45_same_parsed_set h mix cs s : Forall fair cs -> spelled_alike (ParseVersionSet s :: cs) ->
  answer_after h mix cs (ParseVersionSet s) = answer_alone (ParseVersionSet s).
Proof. exact (parse_set_alike h mix cs s). Qed.
Print Assumptions C45_same_parsed_set.

(** Without these conditions: exactly the answer one gets alone for the
    specifier whose operators are replaced by the first that were converted. *)
Theorem C45_conversion h mix cs p : no_collisions h mix ->
  answer_after h mix cs (ToVersionSet p) = answer_alone (ToVersionSet (as_first (remembered (cs ++ [ToVersionSet p])) p)).
Proof. intros A. exact (to_set_remembered h mix A cs p). Qed.
Print Assumptions C45_conversion.

Theorem C45_parsed h mix cs s p : no_collisions h mix -> parse_specifier s = Ok p ->
  answer_after h mix cs (ParseVersionSet s) = answer_alone (ToVersionSet (as_first (remembered (cs ++ [ParseVersionSet s])) p)).
Proof. intros A. exact (parse_set_remembered h mix A cs s p). Qed.
Print Assumptions C45_parsed.

(** The same on the way back, with items for operators. *)
Theorem C45_back h mix cs a : no_collisions h mix -> Forall fair cs -> canonical a ->
  answer_after h mix cs (ToSpecifier a) = answer_alone (ToSpecifier (as_first_set (shelved (cs ++ [ToSpecifier a])) a)).
Proof. intros A. exact (to_specifier_remembered h mix A cs a). Qed.
Print Assumptions C45_back.

Theorem C45_simplify h mix cs p : no_collisions h mix -> Forall fair cs -> fair (Simplify p) ->
  answer_after h mix cs (Simplify p) =
    (let* a := specifier_to_version_set (as_first (remembered (cs ++ [Simplify p])) p) in
     answer_alone (ToSpecifier (as_first_set (shelved (cs ++ [Simplify p])) a))).
Proof. intros A. exact (simplify_remembered h mix A cs p). Qed.
Print Assumptions C45_simplify.

(** For a single operator the history is harmless exactly if the first equal one
    was written as precisely. *)
Theorem C45_operator h mix cs t v : no_collisions h mix -> Forall fair (ToVersionSet (One t v) :: cs) ->
  agree (answer_after h mix cs (ToVersionSet (One t v))) (answer_alone (ToVersionSet (One t v)))
  <-> as_precise t v t (snd (first_seen (remembered cs) t v)).
Proof. intros A. exact (one_exact h mix A cs t v). Qed.
Print Assumptions C45_operator.

(** After parsing "*", the text "0.*" stands for all versions. *)
Theorem C45_history_matters h mix : exists cs s a b v, Forall fair cs
  /\ answer_after h mix cs (ParseVersionSet s) = Ok (ASet a) /\ answer_alone (ParseVersionSet s) = Ok (ASet b)
  /\ contains a v = true /\ contains b v = false.
Proof. exact (history_matters h mix). Qed.
Print Assumptions C45_history_matters.

(** The same through the conversion itself, with the caret operator. *)
Theorem C45_conversion_matters h mix : exists cs p a b v, Forall fair (ToVersionSet p :: cs)
  /\ answer_after h mix cs (ToVersionSet p) = Ok (ASet a) /\ answer_alone (ToVersionSet p) = Ok (ASet b)
  /\ contains a v = true /\ contains b v = false.
Proof. exact (caret_matters h mix). Qed.
Print Assumptions C45_conversion_matters.

(** A specifier with another text. *)
Theorem C45_spelling_matters h mix : exists cs a p u, Forall fair (ToSpecifier a :: cs)
  /\ answer_after h mix cs (ToSpecifier a) = Ok (ASpec p) /\ answer_alone (ToSpecifier a) = Ok (ASpec u)
  /\ spec_to_string p <> spec_to_string u.
Proof. exact (spelling_matters h mix). Qed.
Print Assumptions C45_spelling_matters.

Definition ver (r : list Z) : version := Version 0 r None None None None.
Definition h0 : op_type -> N := op_index.
Definition mix0 (ns : list N) : N := fold_right (fun a b => (a + 31 * b)%N) 7%N ns.

Example C45_case : let cs := [ParseVersionSet (lit "^1.0 || ==3"); ToVersionSet (One GREATER (ver [3; 0])); Simplify (One CARET (ver [1])); ToSpecifier (Item (Point (ver [3; 0])))] in
  Forall fair cs /\ spelled_enough cs
  /\ answer_after h0 mix0 cs (ParseVersionSet (lit "^1")) = Ok (ASet (Item (Range (Some (ver [1; 0])) (Some (ver [2; 0])) true false))).
Proof.
  cbn zeta. split; [|split].
  - repeat apply Forall_cons; try apply Forall_nil; cbn; try exact I; (split; [split; [reflexivity|discriminate]|]);
      repeat (apply Forall_cons || apply Forall_nil); discriminate.
  - intros t v u w Mt Mu Et Ev. apply mentioned_leaves in Mt. apply mentioned_leaves in Mu. vm_compute in Mt, Mu.
    destruct Mt as [Mt | [Mt | [Mt | [Mt | []]]]]; destruct Mu as [Mu | [Mu | [Mu | [Mu | []]]]]; inversion Mt; inversion Mu; subst;
      try discriminate Et; try (right; reflexivity); left; cbn; try exact I; right; discriminate.
  - vm_compute. reflexivity.
Qed.

(** Such hashes exist; what three calls leave behind. *)
Example C45_remembered_case : no_collisions op_index no_mix
  /\ (let cs := [ParseVersionSet (lit "^0 || <2"); Simplify (AllOf [One CARET (ver [0; 0; 0]); One LESS (ver [2; 0])]); ToSpecifier (Item (Point (ver [3])))] in
      Forall fair cs
      /\ remembered cs = [(CARET, ver [0]); (LESS, ver [2])]
      /\ shelved cs = ([Range (Some (ver [0])) (Some (ver [1])) true false; Point (ver [3])], [])
      /\ as_first (remembered cs) (AnyOf [One CARET (ver [0; 0]); One GREATER (ver [2; 0])]) = AnyOf [One CARET (ver [0]); One GREATER (ver [2; 0])]
      /\ as_first_set (shelved cs) (Union [Point (ver [3; 0]); Point (ver [4])]) = Union [Point (ver [3]); Point (ver [4])]
      /\ first_seen (remembered cs) CARET (ver [0; 0; 0]) = (CARET, ver [0])
      /\ ~ as_precise CARET (ver [0; 0; 0]) CARET (ver [0])
      /\ as_precise CARET (ver [0]) CARET (ver [0])).
Proof.
  split; [exact collisions_avoided|]. cbn zeta. split; [|split; [|split; [|split; [|split; [|split; [|split]]]]]].
  - repeat apply Forall_cons; try apply Forall_nil; cbn; try exact I. split; [split; [repeat constructor|]; repeat constructor; discriminate|repeat constructor; discriminate].
  - vm_compute. reflexivity.
  - vm_compute. reflexivity.
  - vm_compute. reflexivity.
  - vm_compute. reflexivity.
  - vm_compute. reflexivity.
  - intros [[H|H]|H]; [apply H; now split|now apply H|discriminate].
  - right. reflexivity.
Qed.
