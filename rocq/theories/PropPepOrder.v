(** Theorems about PEP 440's order, exactly: more of C81. *)

From Coq Require Import List ZArith NArith String Bool Lia.
From Verif Require Import Py Segments Version Operators Specifiers Parsers Spec ParseTheorems PepSpec PepOrderSpec PepOrderFacts.
Import ListNotations.
Open Scope Z_scope.

(** ** C81 *)

(** A version sorts below another against PEP 440 exactly if a word decides:
    another name of rc or post, or the spelling of a local part. *)
Theorem C81_crossed : forall v w, wf v -> wf w -> (v_lt v w = true /\ ~ pep_before v w) <-> crossed v w.
Proof. exact pep_crossed. Qed.
Print Assumptions C81_crossed.

(** Two versions compare as PEP 440 says exactly if no word decides wrongly. *)
Theorem C81_agrees : forall v w, wf v -> wf w ->
  ((v_lt v w = true <-> pep_before v w) /\ (v_lt w v = true <-> pep_before w v) /\ (v_eq v w = true <-> pep_same v w)) <-> ~ crossed v w /\ ~ crossed w v.
Proof. exact pep_agrees. Qed.
Print Assumptions C81_agrees.

Definition read (s : string) : version := match parse_version (lit s) with Ok v => v | Err _ => Version 0 [] None None None None end.

(** 1.0c2 is misplaced against 1.0rc1, not against 1.0rc3; 1.0.post2 against 1.0-rev1; 1.0+B against 1.0+a. *)
Example C81_case_crossed : wf (read "1.0c2") /\ wf (read "1.0rc1") /\ crossed (read "1.0c2") (read "1.0rc1")
  /\ word_first (read "1.0c2") (read "1.0rc3") /\ pep_before (read "1.0c2") (read "1.0rc3")
  /\ crossed (read "1.0.post2") (read "1.0-rev1") /\ word_first (read "1.0+B") (read "1.0+a").
Proof.
  assert (W : forall s v, parse_version (lit s) = Ok v -> wf (read s)) by (intros s v E; unfold read; rewrite E; now apply (parse_wf (lit s))).
  split; [eapply W; vm_compute; reflexivity|]. split; [eapply W; vm_compute; reflexivity|].
  split; [|split; [|split; [|split]]].
  - apply pep_crossed; [eapply W; vm_compute; reflexivity..|]. split; [vm_compute; reflexivity|].
    intros H. apply pep_lowered in H; [vm_compute in H; discriminate|eapply W; vm_compute; reflexivity..].
  - split; [reflexivity|]. split; [intros n; reflexivity|]. left. exists (Tag (lit "candidate") 2), (Tag (lit "rc") 3).
    repeat split; vm_compute; congruence.
  - apply pep_lowered; [eapply W; vm_compute; reflexivity..|vm_compute; reflexivity].
  - apply pep_crossed; [eapply W; vm_compute; reflexivity..|]. split; [vm_compute; reflexivity|].
    intros H. apply pep_lowered in H; [vm_compute in H; discriminate|eapply W; vm_compute; reflexivity..].
  - split; [reflexivity|]. split; [intros n; reflexivity|]. right. right. repeat (split; [reflexivity|]). right.
    exists [], (LStr (lit "B")), (LStr (lit "a")), [], []. split; [vm_compute; reflexivity|]. split; [vm_compute; reflexivity|].
    right. exists [], 66%N, 97%N, [], []. split; [reflexivity|]. split; [reflexivity|]. lia.
Qed.
