(** Theorems about the clauses of PEP 440: C89. *)

From Coq Require Import List ZArith NArith String Bool Lia.
From Verif Require Import Py Segments Version Operators Specifiers Parsers Spec ParseTheorems PepSpec PepClauses PepClauseFacts.
Import ListNotations.
Open Scope Z_scope.

(** ** C89 Where clauses differ from PEP 440 *)

(** Exactly where one operator differs. *)
Theorem C89_exact t v w : pep_version v -> pep_version w -> pep_allowed t v ->
  (op_matches t w v = Ok true <-> pep_clause t v w) <-> ~ pep_differs t v w.
Proof. exact (fun V W => clauses t v w (proj1 V) (proj1 W) (proj1 (proj2 V)) (proj1 (proj2 W)) (proj2 (proj2 V)) (proj2 (proj2 W))). Qed.
Print Assumptions C89_exact.

(** Whole specifiers. *)
Theorem C89_specifiers s w : pep_version w -> spec_made s ->
  each_op (fun t v => pep_version v /\ pep_allowed t v /\ ~ pep_differs t v w) s -> accepts s w = Ok true <-> pep_spec s w.
Proof. exact (spec_agrees s w). Qed.
Print Assumptions C89_specifiers.

(** They agree on releases; post-releases only differ for >. *)
Theorem C89_released s w : pep_version w -> released w -> spec_made s ->
  each_op (fun t v => pep_version v /\ pep_allowed t v /\ (t = GREATER -> v_post w = None \/ v_post v <> None)) s ->
  accepts s w = Ok true <-> pep_spec s w.
Proof. exact (spec_released s w). Qed.
Print Assumptions C89_released.

Definition ver (s : string) : version := match parse_version (lit s) with Ok v => v | Err _ => bare 0 [] end.

(** ==1.0 and 1.0+x *)
Theorem C89_differs_local : exists s v w, parse_specifier (lit "==1.0") = Ok s /\ s = One DOUBLE_EQUAL v /\ parse_version (lit "1.0+x") = Ok w
  /\ accepts s w = Ok false /\ pep_clause DOUBLE_EQUAL v w.
Proof.
  exists (One DOUBLE_EQUAL (ver "1.0")), (ver "1.0"), (ver "1.0+x").
  split; [vm_compute; reflexivity|]. split; [reflexivity|]. split; [vm_compute; reflexivity|]. split; [vm_compute; reflexivity|].
  split; [reflexivity|]. split; [intros n; reflexivity|]. split; reflexivity.
Qed.
Print Assumptions C89_differs_local.

(** <1.0 and 1.0a1 *)
Theorem C89_differs_less : exists s v w, parse_specifier (lit "<1.0") = Ok s /\ s = One LESS v /\ parse_version (lit "1.0a1") = Ok w
  /\ accepts s w = Ok true /\ ~ pep_clause LESS v w.
Proof.
  exists (One LESS (ver "1.0")), (ver "1.0"), (ver "1.0a1").
  split; [vm_compute; reflexivity|]. split; [reflexivity|]. split; [vm_compute; reflexivity|]. split; [vm_compute; reflexivity|].
  intros (_ & H). apply H. split; [left; discriminate|]. split; [intros [K|K]; vm_compute in K; congruence|]. split; [reflexivity|intros n; reflexivity].
Qed.
Print Assumptions C89_differs_less.

(** >1.0 and 1.0.post1 *)
Theorem C89_differs_greater : exists s v w, parse_specifier (lit ">1.0") = Ok s /\ s = One GREATER v /\ parse_version (lit "1.0.post1") = Ok w
  /\ accepts s w = Ok true /\ ~ pep_clause GREATER v w.
Proof.
  exists (One GREATER (ver "1.0")), (ver "1.0"), (ver "1.0.post1").
  split; [vm_compute; reflexivity|]. split; [reflexivity|]. split; [vm_compute; reflexivity|]. split; [vm_compute; reflexivity|].
  intros (_ & H & _). apply H. split; [discriminate|]. split; [reflexivity|]. split; [reflexivity|intros n; reflexivity].
Qed.
Print Assumptions C89_differs_greater.

(** ==1.3.* and 1.4.0a1 *)
Theorem C89_differs_wildcard : exists s v w, parse_specifier (lit "==1.3.*") = Ok s /\ s = One WILDCARD_DOUBLE_EQUAL v
  /\ parse_version (lit "1.4.0a1") = Ok w /\ accepts s w = Ok true /\ ~ pep_clause WILDCARD_DOUBLE_EQUAL v w.
Proof.
  exists (One WILDCARD_DOUBLE_EQUAL (ver "1.3.0")), (ver "1.3.0"), (ver "1.4.0a1").
  split; [vm_compute; reflexivity|]. split; [reflexivity|]. split; [vm_compute; reflexivity|]. split; [vm_compute; reflexivity|].
  intros (_ & H). specialize (H 1%nat ltac:(vm_compute; lia)). vm_compute in H. discriminate.
Qed.
Print Assumptions C89_differs_wildcard.

(** ~=1.3.0 and 1.4.0a1 *)
Theorem C89_differs_compatible : exists s v w, parse_specifier (lit "~=1.3.0") = Ok s /\ s = One TILDE_EQUAL v
  /\ parse_version (lit "1.4.0a1") = Ok w /\ accepts s w = Ok true /\ ~ pep_clause TILDE_EQUAL v w.
Proof.
  exists (One TILDE_EQUAL (ver "1.3.0")), (ver "1.3.0"), (ver "1.4.0a1").
  split; [vm_compute; reflexivity|]. split; [reflexivity|]. split; [vm_compute; reflexivity|]. split; [vm_compute; reflexivity|].
  intros (_ & _ & H). specialize (H 1%nat ltac:(vm_compute; lia)). vm_compute in H. discriminate.
Qed.
Print Assumptions C89_differs_compatible.

(** >=1.2, !=1.3.*, <2.0 and 1.4.post1 *)
Example C89_case : exists s, parse_specifier (lit ">=1.2, !=1.3.*, <2.0") = Ok s
  /\ s = AllOf [One GREATER_OR_EQUAL (ver "1.2"); One WILDCARD_NOT_EQUAL (ver "1.3.0"); One LESS (ver "2.0")]
  /\ pep_version (ver "1.4.post1") /\ released (ver "1.4.post1") /\ spec_made s /\ pep_allowed WILDCARD_NOT_EQUAL (ver "1.3.0")
  /\ accepts s (ver "1.4.post1") = Ok true /\ accepts s (ver "1.3.1") = Ok false.
Proof.
  eexists. split; [vm_compute; reflexivity|]. split; [vm_compute; reflexivity|].
  split. { split; [apply (parse_wf (lit "1.4.post1")); vm_compute; reflexivity|]. split; [|exact I].
    split; intros t H; vm_compute in H; [discriminate|inversion H; reflexivity]. }
  split; [split; [reflexivity|split; reflexivity]|].
  split. { split; [cbn; lia|]. repeat (split; [split; [reflexivity|discriminate]|]). exact I. }
  split. { split; [cbn; tauto|]. split; [reflexivity|]. split; [discriminate|]. intros _. exists 0, [1; 3]. split; [discriminate|reflexivity]. }
  split; vm_compute; reflexivity.
Qed.
