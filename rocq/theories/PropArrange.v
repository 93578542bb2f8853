(** Property theorems about rearranged specification strings. *)

From Coq Require Import List ZArith NArith String Bool.
From Verif Require Import Py Segments Version VersionSets Operators SetStrings Specifiers Regex Patterns Parsers Spec Grammar Clauses
  SpecText ArrangeSpec ArrangeFacts.
Import ListNotations.
Open Scope Z_scope.

(** ** C125 *)

Theorem C125_widened s s' css css' p p' v : specification s css -> specification s' css' -> widened css css' ->
  parse_specifier s = Ok p -> parse_specifier s' = Ok p' -> accepts p v = Ok true -> accepts p' v = Ok true.
Proof. exact (widened_accepts s s' css css' p p' v). Qed.
Print Assumptions C125_widened.

Theorem C125_accepts s s' css css' p p' v : specification s css -> specification s' css' -> widened css css' -> widened css' css ->
  parse_specifier s = Ok p -> parse_specifier s' = Ok p' -> accepts p v = accepts p' v.
Proof. exact (arranged_accepts s s' css css' p p' v). Qed.
Print Assumptions C125_accepts.

Theorem C125_parses s s' css css' : specification s css -> specification s' css' -> same_clauses css css' ->
  (exists p, parse_specifier s = Ok p) <-> exists p, parse_specifier s' = Ok p.
Proof. exact (arranged_parses s s' css css'). Qed.
Print Assumptions C125_parses.

(** The version sets are equal, unless one of them raises RecursionError. *)
Theorem C125_sets s s' css css' a : specification s css -> specification s' css' -> widened css css' -> widened css' css -> same_clauses css css' ->
  parse_version_set s = Ok a ->
  parse_version_set s' = Err RecursionError \/ exists a', parse_version_set s' = Ok a' /\ set_eqb a a' = true.
Proof. exact (arranged_sets s s' css css' a). Qed.
Print Assumptions C125_sets.

(** Without pipes it never does. *)
Theorem C125_commas s s' cs cs' a : specification s [cs] -> specification s' [cs'] -> (forall c, In c cs <-> In c cs') ->
  parse_version_set s = Ok a -> exists a', parse_version_set s' = Ok a' /\ set_eqb a a' = true.
Proof. exact (commas_sets s s' cs cs' a). Qed.
Print Assumptions C125_commas.

Ltac rows := split; [reflexivity|]; split;
  [repeat (constructor; try discriminate); intros H; cbn in H; repeat (destruct H as [H|H]; [discriminate|]); exact H|apply respaced_refl].

(** The same alternatives in another order: one string converts, the other
    does not. *)
Example C125_case : specification (lit "==1||>=0||>1") [[lit "==1"]; [lit ">=0"]; [lit ">1"]]
  /\ specification (lit "==1||>1||>=0") [[lit "==1"]; [lit ">1"]; [lit ">=0"]]
  /\ widened [[lit "==1"]; [lit ">=0"]; [lit ">1"]] [[lit "==1"]; [lit ">1"]; [lit ">=0"]]
  /\ same_clauses [[lit "==1"]; [lit ">=0"]; [lit ">1"]] [[lit "==1"]; [lit ">1"]; [lit ">=0"]]
  /\ (exists a, parse_version_set (lit "==1||>=0||>1") = Ok a) /\ parse_version_set (lit "==1||>1||>=0") = Err RecursionError.
Proof.
  split; [exists (lit "==1"), [], [(true, (lit ">=0", [])); (true, (lit ">1", []))]; rows|].
  split; [exists (lit "==1"), [], [(true, (lit ">1", [])); (true, (lit ">=0", []))]; rows|].
  split; [intros cs I; exists cs; split; [cbn [In] in *; tauto|auto]|].
  split; [intros c; split; intros (cs & I & J); exists cs; (split; [cbn [In] in *; tauto|exact J])|].
  split; [eexists; vm_compute; reflexivity|vm_compute; reflexivity].
Qed.

(** A repeated clause, an order, and an alternative that adds nothing. *)
Example C125_absorbed : specification (lit "^1|>=1,^1,^1") [[lit "^1"]; [lit ">=1"; lit "^1"; lit "^1"]] /\ specification (lit "^1") [[lit "^1"]]
  /\ widened [[lit "^1"]; [lit ">=1"; lit "^1"; lit "^1"]] [[lit "^1"]] /\ widened [[lit "^1"]] [[lit "^1"]; [lit ">=1"; lit "^1"; lit "^1"]]
  /\ (exists p, parse_specifier (lit "^1|>=1,^1,^1") = Ok p) /\ exists p, parse_specifier (lit "^1") = Ok p.
Proof.
  split; [exists (lit "^1"), [], [(false, (lit ">=1", [lit "^1"; lit "^1"]))]; rows|]. split; [exists (lit "^1"), [], []; rows|].
  split; [intros cs [<- | [<- | []]]; exists [lit "^1"]; (split; [now left|]); cbn [In]; tauto|].
  split; [intros cs [<- | []]; exists [lit "^1"]; (split; [now left|auto])|].
  split; eexists; vm_compute; reflexivity.
Qed.

Example C125_commas_case : specification (lit "<4,>=3") [[lit "<4"; lit ">=3"]] /\ specification (lit ">=3,<4,<4") [[lit ">=3"; lit "<4"; lit "<4"]]
  /\ (forall c, In c [lit "<4"; lit ">=3"] <-> In c [lit ">=3"; lit "<4"; lit "<4"]) /\ exists a, parse_version_set (lit "<4,>=3") = Ok a.
Proof.
  split; [exists (lit "<4"), [lit ">=3"], []; rows|]. split; [exists (lit ">=3"), [lit "<4"; lit "<4"], []; rows|].
  split; [intros c; cbn [In]; tauto|]. eexists; vm_compute; reflexivity.
Qed.
