(** Theorems about the expression of PEP 440: C98. *)

From Coq Require Import List ZArith NArith String Lia.
From Verif Require Import Py Segments Version Regex Patterns Parsers PepForm PepFormFacts.
Import ListNotations.
Local Open Scope N_scope.

(** ** C98 The versions accepted are the tidy ones PEP 440's expression accepts *)

(** The expression of patterns.py matches what the PEP's matches, but for marks
    followed by neither a letter nor a digit. *)
Theorem C98_matched s : (exists cs, fullmatch VERSION s = Some cs) <-> pep_form any_case s /\ tidy s.
Proof. exact (matched_form s). Qed.
Print Assumptions C98_matched.

(** A version comes back when, besides, the words are in small letters. *)
Theorem C98_accepted s : (exists v, parse_version s = Ok v) <-> pep_form as_is s /\ tidy s.
Proof. exact (accepted_form s). Qed.
Print Assumptions C98_accepted.

(** The others: with capitals in the words it is the wrong error. *)
Theorem C98_refused s e : parse_version s = Err e <->
  e = ParseVersionError /\ ~ (pep_form any_case s /\ tidy s)
  \/ e = ValueError /\ pep_form any_case s /\ tidy s /\ ~ pep_form as_is s.
Proof. exact (refused_form s e). Qed.
Print Assumptions C98_refused.

(** Nothing is accepted which the PEP refuses. *)
Theorem C98_sound s v : parse_version s = Ok v -> pep_form any_case s.
Proof. intros H. apply as_is_any. now apply (accepted_form s); exists v. Qed.
Print Assumptions C98_sound.

(** The white space the PEP allows around a version is refused, as are all
    other characters. *)
Theorem C98_characters s v : parse_version s = Ok v ->
  Forall (fun c => alnum c \/ mark c \/ c = 33 \/ c = 43) s.
Proof. intros H. apply (form_written s). now apply (C98_sound s v). Qed.
Print Assumptions C98_characters.

(** "1.0a." is a version for the PEP alone. *)
Theorem C98_untidy : pep_form as_is (lit "1.0a.") /\ parse_version (lit "1.0a.") = Err ParseVersionError.
Proof.
  split; [|vm_compute; reflexivity]. unfold pep_form.
  exists [], (lit "1.0a."). split; auto. split; [now left|].
  exists [], (lit "1.0a."). split; auto. split; [now left|].
  exists (lit "1.0"), (lit "a."). split; auto. split.
  { exists (lit "1"), (lit ".0"). split; auto. split; [apply decimals; split; [discriminate|constructor; [cbv; split; discriminate|constructor]]|].
    apply (many_more _ (lit ".0") []); [|constructor]. exists (lit "."), (lit "0"). split; auto. split; [exists 46; auto|].
    apply decimals; split; [discriminate|constructor; [cbv; split; discriminate|constructor]]. }
  exists (lit "a."), []. split; auto. split.
  { right. exists [], (lit "a."). split; auto. split; [now left|]. exists (lit "a"), (lit "."). split; auto.
    split; [exists "a"%string; split; [cbn; auto|reflexivity]|]. exists (lit "."), []. split; auto.
    split; [right; exists 46; split; [unfold mark; auto|reflexivity]|now left]. }
  exists [], []. split; auto. split; [now left|]. exists [], []. split; auto. split; now left.
Qed.
Print Assumptions C98_untidy.

Example C98_case : pep_form as_is (lit "v1!2.0-rc_3-4.dev+Ubuntu.7") /\ tidy (lit "v1!2.0-rc_3-4.dev+Ubuntu.7").
Proof. apply C98_accepted. eexists. vm_compute. reflexivity. Qed.
Example C98_case_capitals : pep_form any_case (lit "1.0RC1") /\ tidy (lit "1.0RC1") /\ parse_version (lit "1.0RC1") = Err ValueError.
Proof.
  assert (E : parse_version (lit "1.0RC1") = Err ValueError) by (vm_compute; reflexivity).
  split; [|split; [|exact E]]; apply C98_refused in E as [[? _]|(_ & ? & ? & _)]; auto; discriminate.
Qed.
