(** Properties of the bounds of conversions and of the normal form that
    [simplify] computes. *)

From Coq Require Import List ZArith NArith String Bool.
From Verif Require Import Py Segments Version VersionSets Operators Specifiers Parsers Spec SpecStrings SetVersions SetTheorems Normal.
Import ListNotations.
Open Scope Z_scope.

Definition ver (r : list Z) : version := Version 0 r None None None None.

(** ** C56 *)

Theorem C56_conversion_bounds s a u : spec_made s -> specifier_to_version_set s = Ok a -> In u (bounds a) ->
  exists t w, leaf t w s /\ op_bound t w u.
Proof. exact (convert_bounds s a u). Qed.
Print Assumptions C56_conversion_bounds.

Theorem C56_specifier_leaves a s t w : version_set_to_specifier a = Ok s -> leaf t w s -> compares t /\ In w (bounds a).
Proof. exact (to_specifier_leaves a s t w). Qed.
Print Assumptions C56_specifier_leaves.

Theorem C56_parsed_leaves s p t w : parse_specifier s = Ok p -> leaf t w p -> wf w /\ op_made t w.
Proof. exact (parsed_leaves s p t w). Qed.
Print Assumptions C56_parsed_leaves.

Example C56_case : exists p a s, parse_specifier (lit "^1.2 || >=3, !=3.5") = Ok p /\ specifier_to_version_set p = Ok a
  /\ version_set_to_specifier a = Ok s /\ bounds a = [ver [1; 2]; ver [2; 0]; ver [3]; ver [3; 5]; ver [3; 5]]
  /\ op_bound CARET (ver [1; 2]) (ver [2; 0]) /\ leaf LESS (ver [2; 0]) s.
Proof.
  do 3 eexists. split; [vm_compute; reflexivity|]. split; [vm_compute; reflexivity|]. split; [vm_compute; reflexivity|]. split; [reflexivity|]. split.
  - right. exists [2; 0]. split; [reflexivity|]. split; [|split; intros []; now split]. intros _. split; [reflexivity|]. intros [|[|[|n]]]; reflexivity.
  - eapply leaf_any; [left; reflexivity|]. eapply leaf_all; [right; left; reflexivity|]. constructor.
Qed.

(** ** C57 *)

Theorem C57_normal_form s u s' u' : spec_made s -> each_op plain_op s -> each_op (fun _ w => worded w) s ->
  spec_made u -> each_op plain_op u -> each_op (fun _ w => worded w) u ->
  simplify s = Ok s' -> simplify u = Ok u' ->
  spec_eqb s' u' = true <-> forall v, worded v -> accepts s v = accepts u v.
Proof. exact (normal_form s u s' u'). Qed.
Print Assumptions C57_normal_form.

Theorem C57_parsed x y s u s' u' : parse_specifier x = Ok s -> parse_specifier y = Ok u -> simplify s = Ok s' -> simplify u = Ok u' ->
  spec_eqb s' u' = true <-> forall v, worded v -> accepts s v = accepts u v.
Proof. exact (parsed_normal_form x y s u s' u'). Qed.
Print Assumptions C57_parsed.

Theorem C57_shape s u t w : simplify s = Ok u -> leaf t w u -> compares t.
Proof. exact (simplified s u t w). Qed.
Print Assumptions C57_shape.

(** Two specifiers that no version that can be written satisfies. *)
Theorem C57_writable_refuted : exists s u s' u', parse_specifier (lit "<0.dev0") = Ok s /\ parse_specifier (lit "<1,>1") = Ok u
  /\ simplify s = Ok s' /\ simplify u = Ok u' /\ spec_eqb s' u' = false
  /\ forall v, wf v -> accepts s v = Ok false /\ accepts u v = Ok false.
Proof. exact below_everything. Qed.
Print Assumptions C57_writable_refuted.

Example C57_case : exists s u s' u', parse_specifier (lit "^1.2") = Ok s
  /\ parse_specifier (lit "~1.2 || >=1.3, <1.9 || >=1.9, <2.0.0") = Ok u
  /\ simplify s = Ok s' /\ simplify u = Ok u' /\ spec_eqb s' u' = true /\ spec_eqb s u = false.
Proof. do 4 eexists. do 4 (split; [vm_compute; reflexivity|]). now vm_compute. Qed.
