(** Property theorems about threads that share the caches. *)

From Coq Require Import List ZArith NArith String Bool.
From Verif Require Import Py Segments Version VersionSets Operators SetStrings Specifiers Parsers Spec Caches Histories Threads ThreadSpec ThreadFacts CacheFacts.
Import ListNotations.
Open Scope Z_scope.

(** ** C119 *)

(** In all theorems [h] and [mix] are any hash functions, [css] are the calls of
    the threads and [ns] is any schedule. *)

(** A thread alone gets the answers of Caches.v. *)
Theorem C119_alone : forall h mix c d, undisturbed (do_call_t h mix c) d = do_call h mix c d.
Proof. exact undisturbed_call. Qed.
Print Assumptions C119_alone.

Theorem C119_single : forall h mix cs ns t, In t (threads_after h mix [cs] ns) -> finished t -> answers t = in_turn h mix cs no_caches.
Proof. exact single. Qed.
Print Assumptions C119_single.

(** Each thread makes its own calls, in their order. *)
Theorem C119_order : forall h mix css ns, map calls_of (threads_after h mix css ns) = css.
Proof. exact in_order. Qed.
Print Assumptions C119_order.

(** No thread waits for another one. *)
Theorem C119_no_waiting : forall h mix css ns n, (n < List.length css)%nat ->
  exists k t, nth_error (threads_after h mix css (ns ++ repeat n k)) n = Some t /\ finished t.
Proof. exact no_waiting. Qed.
Print Assumptions C119_no_waiting.

(** Versions and specifiers are parsed as without caches and threads. *)
Theorem C119_parse_version : forall h mix css ns s r, answered h mix css ns (ParseVersion s) r -> r = answer_alone (ParseVersion s).
Proof. exact threads_version. Qed.
Print Assumptions C119_parse_version.

Theorem C119_parse_specifier : forall h mix css ns s r, answered h mix css ns (ParseSpecifier s) r -> r = answer_alone (ParseSpecifier s).
Proof. exact threads_specifier. Qed.
Print Assumptions C119_parse_specifier.

(** A specifier is converted like one that is equal to it and made of operators
    that some thread mentions. *)
Theorem C119_to_version_set : forall h mix css ns p r, answered h mix css ns (ToVersionSet p) r ->
  exists q, spec_eqb p q = true /\ (forall t v, leaf t v q -> mentioned (List.concat css) t v) /\ r = answer_alone (ToVersionSet q).
Proof. exact threads_convert. Qed.
Print Assumptions C119_to_version_set.

Theorem C119_parse_set : forall h mix css ns s p r, parse_specifier s = Ok p -> answered h mix css ns (ParseVersionSet s) r ->
  exists q, spec_eqb p q = true /\ (forall t v, leaf t v q -> mentioned (List.concat css) t v) /\ r = answer_alone (ToVersionSet q).
Proof. exact threads_set. Qed.
Print Assumptions C119_parse_set.

Theorem C119_parse_set_error : forall h mix css ns s e r, parse_specifier s = Err e -> answered h mix css ns (ParseVersionSet s) r -> r = Err e.
Proof. exact threads_set_error. Qed.
Print Assumptions C119_parse_set_error.

(** If the calls of all threads together are such that the order does not matter
    (C45), the schedule does not matter either. *)
Theorem C119_agree : forall h mix css ns c r, Forall fair (List.concat css) -> spelled_enough (List.concat css) ->
  answered h mix css ns c r -> agree r (answer_alone c).
Proof. exact threads_agree. Qed.
Print Assumptions C119_agree.

(** Otherwise two threads can get answers that they get in neither order of the
    two calls. *)
Theorem C119_both_miss : forall h mix, exists p q a b,
  threads_after h mix [[ToVersionSet p]; [ToVersionSet q]] [0; 1; 0; 1; 0; 1; 0; 1]%nat
    = [Thread None [] [(ToVersionSet p, Ok (ASet a))]; Thread None [] [(ToVersionSet q, Ok (ASet b))]]
  /\ answer_after h mix [ToVersionSet p] (ToVersionSet q) = Ok (ASet a)
  /\ answer_after h mix [ToVersionSet q] (ToVersionSet p) = Ok (ASet b)
  /\ set_eqb a b = false.
Proof. exact both_miss. Qed.
Print Assumptions C119_both_miss.

(** Two threads, one that parses [^1.2] and one that simplifies [^1.2.0 || ^1.2];
    the first is interrupted before it stores its set, so both translate. *)
Definition ver (r : list Z) : version := Version 0 r None None None None.
Definition h0 : op_type -> N := op_index.
Definition mix0 (ns : list N) : N := fold_right (fun a b => (a + 31 * b)%N) 7%N ns.

Definition C119_calls : list (list call) :=
  [[ParseVersionSet (lit "^1.2"); ParseVersion (lit "1.2")]; [Simplify (AnyOf [One CARET (ver [1; 2; 0]); One CARET (ver [1; 2])])]].

Example C119_case : Forall fair (List.concat C119_calls) /\ spelled_enough (List.concat C119_calls)
  /\ map answers (threads_after h0 mix0 C119_calls ([0; 0; 0; 1; 1; 1; 1] ++ repeat 0 12 ++ repeat 1 20)%nat)
    = [[(ParseVersionSet (lit "^1.2"), Ok (ASet (Item (Range (Some (ver [1; 2])) (Some (ver [2; 0])) true false))));
        (ParseVersion (lit "1.2"), Ok (AVersion (ver [1; 2])))];
       [(Simplify (AnyOf [One CARET (ver [1; 2; 0]); One CARET (ver [1; 2])]), Ok (ASpec (AllOf [One GREATER_OR_EQUAL (ver [1; 2]); One LESS (ver [2; 0])])))]].
Proof.
  split; [|split].
  - cbn [List.concat C119_calls app]; repeat apply Forall_cons; try apply Forall_nil; try exact I; vm_compute; repeat constructor; try discriminate.
  - intros t v u w Mt Mu Et Ev. apply mentioned_leaves in Mt. apply mentioned_leaves in Mu. vm_compute in Mt, Mu.
    destruct Mt as [Mt | [Mt | [Mt | []]]]; destruct Mu as [Mu | [Mu | [Mu | []]]]; inversion Mt; inversion Mu; subst;
      try discriminate Et; try (right; reflexivity); left; cbn; try exact I; right; discriminate.
  - vm_compute. reflexivity.
Qed.
