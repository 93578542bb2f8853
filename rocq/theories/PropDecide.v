(** C115: version sets answer questions about the specifiers they were made from. *)

From Coq Require Import List ZArith NArith String Bool.
From Verif Require Import Py Segments Version VersionSets Operators Specifiers Parsers Spec DecideSpec DecideFacts.
Import ListNotations.
Local Open Scope Z_scope.
Local Opaque depth.

Theorem C115_objects s u a b : spec_made s -> each_op plain_op s -> each_op (fun _ w => worded w) s ->
  spec_made u -> each_op plain_op u -> each_op (fun _ w => worded w) u ->
  specifier_to_version_set s = Ok a -> specifier_to_version_set u = Ok b -> decided worded s u a b.
Proof. exact (decide_worded s u a b). Qed.
Print Assumptions C115_objects.

Theorem C115_parsed x y s u a b : parse_specifier x = Ok s -> parse_specifier y = Ok u ->
  parse_version_set x = Ok a -> parse_version_set y = Ok b -> decided worded s u a b.
Proof. exact (decide_parsed x y s u a b). Qed.
Print Assumptions C115_parsed.

(** Strings are enough to tell, unless 0.dev0 is mentioned. *)
Theorem C115_texts x y s u a b : parse_specifier x = Ok s -> parse_specifier y = Ok u ->
  (forall t w, leaf t w s \/ leaf t w u -> v_eq lowest w = false) ->
  parse_version_set x = Ok a -> parse_version_set y = Ok b -> decided (fun v => exists z, parse_version z = Ok v) s u a b.
Proof. exact (decide_texts x y s u a b). Qed.
Print Assumptions C115_texts.

(** No string stands for a version below 0.dev0, yet the set is not empty. *)
Theorem C115_lowest : exists s a, parse_specifier (lit "<0.dev0") = Ok s /\ parse_version_set (lit "<0.dev0") = Ok a
  /\ is_empty a = false /\ forall z v, parse_version z = Ok v -> accepts s v = Ok false.
Proof. exact below_lowest. Qed.
Print Assumptions C115_lowest.

Example C115_case : exists s u a b, parse_specifier (lit "~1.4.2") = Ok s /\ parse_specifier (lit "^1.2 || ==3.*") = Ok u
  /\ (forall t w, leaf t w s \/ leaf t w u -> v_eq lowest w = false)
  /\ parse_version_set (lit "~1.4.2") = Ok a /\ parse_version_set (lit "^1.2 || ==3.*") = Ok b
  /\ includes b a = true /\ includes a b = false /\ intersects a b = true /\ set_eqb a b = false.
Proof.
  exists (One TILDE (bare 0 [1; 4; 2])), (AnyOf [One CARET (bare 0 [1; 2]); One WILDCARD_DOUBLE_EQUAL (bare 0 [3; 0])]).
  do 2 eexists. split; [vm_compute; reflexivity|]. split; [vm_compute; reflexivity|]. split.
  { intros t w [H|H]; [inversion H; subst; vm_compute; reflexivity|].
    inversion H as [|p l I L|]; subst; destruct I as [<- | [<- | []]]; inversion L; subst; vm_compute; reflexivity. }
  split; [vm_compute; reflexivity|]. split; [vm_compute; reflexivity|]. split; [vm_compute; reflexivity|]. split; [vm_compute; reflexivity|]. split; vm_compute; reflexivity.
Qed.
