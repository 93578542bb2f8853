(** Theorems about PEP 440: C81, C82. *)

From Coq Require Import List ZArith NArith String Bool Lia.
From Verif Require Import Py Segments Version Operators Specifiers Parsers Spec ParseTheorems PepSpec PepFacts.
Import ListNotations.
Open Scope Z_scope.

(** ** C81 Canonical versions sort as PEP 440 says *)

(** Versions whose phases are spelled a, b, rc, post and dev. *)
Theorem C81_usual_partial v w : wf v -> wf w -> usual v -> usual w -> small_local v -> small_local w ->
  (v_lt v w = true <-> pep_before v w) /\ (v_eq v w = true <-> pep_same v w).
Proof. exact (pep_order v w). Qed.
Print Assumptions C81_usual_partial.

(** All others, once normalized. *)
Theorem C81_normalized v w : wf v -> wf w -> small_local v -> small_local w -> exists n m, normalize v = Ok n /\ normalize w = Ok m
  /\ (v_lt n m = true <-> pep_before v w) /\ (v_eq n m = true <-> pep_same v w).
Proof. exact (pep_normal v w). Qed.
Print Assumptions C81_normalized.

(** Without that, 1.0c2 is below 1.0rc1, and 1.0+B below 1.0+a. *)
Theorem C81_phase_refuted : exists v w, parse_version (lit "1.0c2") = Ok v /\ parse_version (lit "1.0rc1") = Ok w
  /\ v_lt v w = true /\ pep_before w v.
Proof.
  do 2 eexists. split; [vm_compute; reflexivity|]. split; [vm_compute; reflexivity|]. split; [vm_compute; reflexivity|].
  right. split; [reflexivity|]. right. split; [intros n; reflexivity|]. left. right. split; [reflexivity|]. left. reflexivity.
Qed.
Print Assumptions C81_phase_refuted.

Theorem C81_local_refuted : exists v w, parse_version (lit "1.0+B") = Ok v /\ parse_version (lit "1.0+a") = Ok w
  /\ v_lt v w = true /\ pep_before w v.
Proof.
  do 2 eexists. split; [vm_compute; reflexivity|]. split; [vm_compute; reflexivity|]. split; [vm_compute; reflexivity|].
  right. split; [reflexivity|]. right. split; [intros n; reflexivity|]. right. split; [reflexivity|]. right.
  exists [], (LStr [97%N]), (LStr [98%N]), [], []. split; [reflexivity|]. split; [reflexivity|]. right.
  exists [], 97%N, 98%N, [], []. split; [reflexivity|]. split; [reflexivity|]. lia.
Qed.
Print Assumptions C81_local_refuted.

Definition release_of (s : string) : version := match parse_version (lit s) with Ok v => v | Err _ => bare 0 [] end.

(** 1.0.post1.dev2 and 1.0 *)
Example C81_case : let v := release_of "1.0.post1.dev2" in let w := release_of "1.0" in
  wf v /\ wf w /\ usual v /\ usual w /\ pep_before w v /\ rank v = [4; 0; 1; 0; 2] /\ rank w = [4; 0; -1; 1; 0].
Proof.
  split; [apply (parse_wf (lit "1.0.post1.dev2")); vm_compute; reflexivity|]. split; [apply (parse_wf (lit "1.0")); vm_compute; reflexivity|].
  split; [split; intros t H; vm_compute in H; [discriminate|inversion H; reflexivity]|]. split; [split; intros t H; vm_compute in H; discriminate|].
  split; [|split; vm_compute; reflexivity].
  right. split; [reflexivity|]. right. split; [intros n; reflexivity|]. left.
  right. split; [reflexivity|]. right. split; [reflexivity|]. left. reflexivity.
Qed.

(** ** C82 PEP 440 strings are canonical *)

(** Strings of versions without capital letters in the local part. *)
Theorem C82_strings_partial v : wf v -> exists s, to_pep440_string v = Ok s /\ (pep440 s <-> small_local v).
Proof. exact (pep_strings v). Qed.
Print Assumptions C82_strings_partial.

(** Every canonical string is parsed, and is the string of what is parsed. *)
Theorem C82_parse s : pep440 s <-> exists v, wf v /\ small_local v /\ parse_version s = Ok v /\ normalize v = Ok v /\ to_pep440_string v = Ok s.
Proof. exact (strings_pep s). Qed.
Print Assumptions C82_parse.

Theorem C82_refuted : exists v s, parse_version (lit "1.0+Ubuntu") = Ok v /\ to_pep440_string v = Ok s /\ ~ pep440 s.
Proof.
  destruct (C82_strings_partial (release_of "1.0+Ubuntu")) as (s & E & H); [apply (parse_wf (lit "1.0+Ubuntu")); vm_compute; reflexivity|].
  exists (release_of "1.0+Ubuntu"), s. split; [vm_compute; reflexivity|]. split; [exact E|]. rewrite H. intros X. vm_compute in X.
  apply Forall_inv, Forall_inv in X. destruct X as [[X _]|[_ X]]; now apply X.
Qed.
Print Assumptions C82_refuted.

Example C82_case : pep440 (lit "1!2.0b3.post0.dev4+ubuntu.7")
  /\ to_pep440_string (release_of "v1!2.00-beta_3-r-dev.04+ubuntu-007") = Ok (lit "1!2.0b3.post0.dev4+ubuntu.7").
Proof.
  split; [|vm_compute; reflexivity].
  exists (lit "1!"), (lit "2.0"), (lit "b3"), (lit ".post0"), (lit ".dev4"), (lit "+ubuntu.7"). split; [reflexivity|].
  assert (D : forall c, (49 <= c <= 57)%N -> numeral [c]) by (intros c H; right; exists c, []; auto).
  split; [right; exists (lit "1"); split; [apply D; vm_compute; split; discriminate|split; [discriminate|reflexivity]]|].
  split; [exists (lit "2"), [lit "0"]; split; [apply D; vm_compute; split; discriminate|split; [constructor; [now left|constructor]|reflexivity]]|].
  split; [right; exists (lit "b"), (lit "3"); split; [cbn; tauto|split; [apply D; vm_compute; split; discriminate|reflexivity]]|].
  split; [right; exists (lit ".post"), (lit "0"); split; [now left|split; [now left|reflexivity]]|].
  split; [right; exists (lit ".dev"), (lit "4"); split; [now left|split; [apply D; vm_compute; split; discriminate|reflexivity]]|].
  right. exists (lit "ubuntu"), [lit "7"]. split; [|split; [constructor; [left; apply D; vm_compute; split; discriminate|constructor]|reflexivity]].
  right. split; [repeat (constructor; [left; vm_compute; split; discriminate|]); constructor|constructor; vm_compute; split; discriminate].
Qed.
