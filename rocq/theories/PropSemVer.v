(** C117: versions and Semantic Versioning. *)

From Coq Require Import List ZArith NArith String Bool Lia.
From Verif Require Import Py Segments Version Parsers Spec SemVerSpec SemVerFacts.
Import ListNotations.
Local Open Scope Z_scope.

(** The string of a version is one of Semantic Versioning exactly if [is_semantic] says so, up to epochs and exotic letters. *)
Theorem C117_strings v : wf v -> (semver_text (to_string v) <-> v_epoch v = 0 /\ is_semantic v = true /\ ascii_local v).
Proof. exact (strings v). Qed.
Print Assumptions C117_strings.

Theorem C117_semantic v : wf v -> v_epoch v = 0 -> ascii_local v -> exists w, to_semantic v = Ok w /\ semver_text (to_string w).
Proof. exact (semantic_text v). Qed.
Print Assumptions C117_semantic.

(** Such a string is read in one way only. *)
Theorem C117_reading v x y : wf v -> sem_ok x -> sem_ok y -> sem_string x = to_string v -> sem_string y = to_string v -> x = y.
Proof. exact (one_reading v x y). Qed.
Print Assumptions C117_reading.

(** Without post-releases and development releases the order is the precedence, which ignores what follows the [+]. *)
Theorem C117_precedence v w x y : wf v -> wf w -> v_post v = None -> v_dev v = None -> v_post w = None -> v_dev w = None ->
  sem_ok x -> sem_string x = to_string v -> sem_ok y -> sem_string y = to_string w ->
  sem_before x y <-> v_lt (without_local v) (without_local w) = true.
Proof. exact (precedence v w x y). Qed.
Print Assumptions C117_precedence.

(** With them it is not. *)
Theorem C117_otherwise :
  (exists v w x y, parse_version (lit "1.0.0-dev.1") = Ok v /\ to_string v = lit "1.0.0-dev.1" /\ parse_version (lit "1.0.0-alpha.1") = Ok w /\ to_string w = lit "1.0.0-alpha.1"
    /\ sem_ok x /\ sem_string x = to_string v /\ sem_ok y /\ sem_string y = to_string w /\ sem_before y x /\ v_lt v w = true)
  /\ exists v w x y, parse_version (lit "1.0.0-post.1") = Ok v /\ to_string v = lit "1.0.0-post.1" /\ parse_version (lit "1.0.0") = Ok w /\ to_string w = lit "1.0.0"
    /\ sem_ok x /\ sem_string x = to_string v /\ sem_ok y /\ sem_string y = to_string w /\ sem_before x y /\ v_lt w v = true.
Proof. exact otherwise. Qed.
Print Assumptions C117_otherwise.

(** Two strings that differ in precedence can stand for the same version. *)
Theorem C117_merged : exists v x y, parse_version (sem_string x) = Ok v /\ parse_version (sem_string y) = Ok v /\ sem_ok x /\ sem_ok y /\ sem_before x y.
Proof. exact merged. Qed.
Print Assumptions C117_merged.

Example C117_case : exists v w u k,
  parse_version (lit "1.2.3rc4+Build.5") = Ok v /\ parse_version (lit "1.2.3") = Ok w /\ parse_version (lit "1.2a1.post2.dev3") = Ok u /\ parse_version (lit "1!2.0.0") = Ok k
  /\ semver_text (to_string v) /\ semver_text (to_string w) /\ ~ semver_text (to_string u) /\ ~ semver_text (to_string k)
  /\ to_string v = lit "1.2.3-rc.4+Build.5" /\ v_lt (without_local v) (without_local w) = true
  /\ exists u', to_semantic u = Ok u' /\ to_string u' = lit "1.2.0-alpha.1-post.2-dev.3" /\ semver_text (to_string u').
Proof.
  do 4 eexists. split; [vm_compute; reflexivity|]. split; [vm_compute; reflexivity|]. split; [vm_compute; reflexivity|]. split; [vm_compute; reflexivity|].
  split; [apply C117_strings; [|vm_compute; repeat split; repeat constructor; discriminate || reflexivity]; repeat split; try discriminate; repeat constructor; try (vm_compute; congruence)|].
  split; [apply C117_strings; [|vm_compute; repeat split; repeat constructor; discriminate || reflexivity]; repeat split; try discriminate; repeat constructor; try (vm_compute; congruence)|].
  split; [rewrite C117_strings by (repeat split; try discriminate; repeat constructor; try (vm_compute; congruence)); intros (_ & K & _); discriminate K|].
  split; [rewrite C117_strings by (repeat split; try discriminate; repeat constructor; try (vm_compute; congruence)); intros (K & _); discriminate K|].
  split; [vm_compute; reflexivity|]. split; [vm_compute; reflexivity|].
  eexists. split; [vm_compute; reflexivity|]. split; [vm_compute; reflexivity|].
  apply C117_strings; [|vm_compute; repeat split; repeat constructor; discriminate || reflexivity]; repeat split; try discriminate; repeat constructor; try (vm_compute; congruence).
Qed.
