(** Property theorems about which bumps an operator still accepts. *)

From Coq Require Import List ZArith NArith String Bool Lia.
From Verif Require Import Py Segments Version VersionSets Operators Spec OrderFacts NestSpec StayFacts.
Import ListNotations.
Open Scope Z_scope.

(** ** C124 *)

(** Bumps of the release; [breaks] (C106) says which part the bound of an
    operator increases. *)
Theorem C124_release t w p i u : ordinary w -> breaks w t p -> 0 <= i -> next_at w i = Ok u ->
  op_matches t u w = Ok true <->
  (final w /\ exists j, p = Increased j /\ (j < Z.to_nat i)%nat) \/ (~ final w /\ ~ post_dev w /\ p <> Itself).
Proof. exact (stays_release t w p i u). Qed.
Print Assumptions C124_release.

(** Bumps of the tags and of the epoch. *)
Theorem C124_tags t w p u : ordinary w -> breaks w t p ->
  (next_post w = Ok u -> op_matches t u w = Ok true <-> p <> Itself \/ v_pre w <> None)
  /\ (next_pre w = Ok u -> op_matches t u w = Ok true <-> early w)
  /\ (next_dev w = Ok u -> op_matches t u w = Ok true <-> v_dev w <> None /\ (p <> Itself \/ early w))
  /\ op_matches t (next_epoch w) w <> Ok true.
Proof. exact (stays_tags t w p u). Qed.
Print Assumptions C124_tags.

(** Versions of three parts. *)
Theorem C124_semantic w a b c : ordinary w -> final w -> v_release w = [a; b; c] ->
  (forall u, next_major w = Ok u -> op_matches CARET u w <> Ok true /\ op_matches TILDE u w <> Ok true)
  /\ (forall u, next_minor w = Ok u -> (op_matches CARET u w = Ok true <-> a <> 0) /\ op_matches TILDE u w <> Ok true)
  /\ (forall u, next_micro w = Ok u -> (op_matches CARET u w = Ok true <-> a <> 0 \/ b <> 0) /\ op_matches TILDE u w = Ok true).
Proof. exact (stays_semantic w a b c). Qed.
Print Assumptions C124_semantic.

Example C124_case :
  let w := bare 0 [1; 2; 3] in
  ordinary w /\ final w /\ breaks w CARET (Increased 0) /\ breaks w TILDE (Increased 1)
  /\ next_minor w = Ok (bare 0 [1; 3; 0]) /\ op_matches CARET (bare 0 [1; 3; 0]) w = Ok true /\ op_matches TILDE (bare 0 [1; 3; 0]) w = Ok false
  /\ next_micro w = Ok (bare 0 [1; 2; 4]) /\ op_matches TILDE (bare 0 [1; 2; 4]) w = Ok true
  /\ next_major w = Ok (bare 0 [2; 0; 0]) /\ op_matches CARET (bare 0 [2; 0; 0]) w = Ok false.
Proof.
  cbv zeta. assert (F : final (bare 0 [1; 2; 3])) by (split; reflexivity).
  split; [split; [vm_compute; reflexivity | repeat constructor; lia] |]. split; [exact F |].
  split; [exact (caret_final (bare 0 [1; 2; 3]) F) |]. split; [exact (tilde_final (bare 0 [1; 2; 3]) F) |].
  repeat (split; [vm_compute; reflexivity |]). vm_compute. reflexivity.
Qed.

(** ~1.0.dev1 ends at 1.0: it accepts the next development and pre-releases of
    1.0, but neither 1.0 nor 1.0.post0; ~=1.0.dev1 accepts these as well. *)
Example C124_tags_case :
  let w := Version 0 [1; 0] None None (Some (Tag (lit "dev") 1)) None in
  ordinary w /\ ~ final w /\ ~ post_dev w /\ early w /\ breaks w TILDE Itself /\ breaks w TILDE_EQUAL (Increased 0)
  /\ (exists u, next_dev w = Ok u /\ op_matches TILDE u w = Ok true)
  /\ (exists u, next_pre w = Ok u /\ op_matches TILDE u w = Ok true)
  /\ (exists u, next_post w = Ok u /\ op_matches TILDE u w = Ok false /\ op_matches TILDE_EQUAL u w = Ok true)
  /\ (exists u, next_at w 0 = Ok u /\ op_matches TILDE u w = Ok false /\ op_matches TILDE_EQUAL u w = Ok true).
Proof.
  cbv zeta. set (w := Version 0 [1; 0] None None (Some (Tag (lit "dev") 1)) None).
  assert (F : ~ final w) by (intros [_ H]; discriminate H).
  split; [split; [vm_compute; reflexivity | repeat constructor; lia] |]. split; [exact F |].
  split; [intros (_ & H & _); now apply H |]. split; [vm_compute; reflexivity |]. split; [exact (tilde_early w F) |]. split; [exact (tilde_equal w 0 eq_refl) |].
  split; [eexists; split; [vm_compute; reflexivity |]; vm_compute; reflexivity |].
  split; [eexists; split; [vm_compute; reflexivity |]; vm_compute; reflexivity |].
  split; eexists; (split; [vm_compute; reflexivity |]); (split; [vm_compute; reflexivity |]); vm_compute; reflexivity.
Qed.
