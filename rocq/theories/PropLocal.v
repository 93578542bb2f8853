(** C128: how specifiers treat local versions. *)

From Coq Require Import List ZArith NArith String Bool.
From Verif Require Import Py Segments Version VersionSets Operators Specifiers Parsers Spec Normal LocalSpec LocalFacts.
Import ListNotations.

(** Which operators tell a local version from its public version, and where. *)
Theorem C128_operators t w v : v_local v <> None -> op_made t w -> v_local w = None ->
  op_matches t v w = op_matches t (without_local v) w <-> ~ (v_eq (without_local v) w = true /\ names_public t).
Proof. exact (fun L => local_operator v L t w). Qed.
Print Assumptions C128_operators.

Theorem C128_away x s v : parse_specifier x = Ok s -> no_locals s -> (forall t w, leaf t w s -> names_public t -> v_eq (without_local v) w = false) ->
  accepts s v = accepts s (without_local v).
Proof. exact (local_away x s v). Qed.
Print Assumptions C128_away.

Theorem C128_plain x s v : parse_specifier x = Ok s -> no_locals s -> (forall t w, leaf t w s -> ~ names_public t) -> accepts s v = accepts s (without_local v).
Proof. exact (local_plain x s v). Qed.
Print Assumptions C128_plain.

(** Local versions of one version are treated alike. *)
Theorem C128_alike x s u v : parse_specifier x = Ok s -> no_locals s -> v_local u <> None -> v_local v <> None ->
  v_eq (without_local u) (without_local v) = true -> accepts s u = accepts s v.
Proof. exact (local_alike x s u v). Qed.
Print Assumptions C128_alike.

Example C128_case : exists s u v p, parse_specifier (lit ">=1.2, !=1.5 || ^3") = Ok s /\ no_locals s
  /\ parse_version (lit "1.5+x.1") = Ok u /\ parse_version (lit "1.5.0+9") = Ok v /\ parse_version (lit "1.5") = Ok p
  /\ v_eq (without_local u) (without_local v) = true /\ v_local u <> None /\ v_local v <> None
  /\ accepts s u = Ok true /\ accepts s v = Ok true /\ accepts s p = Ok false.
Proof.
  do 4 eexists. split; [vm_compute; reflexivity|]. split; [refine (proj1 (each_leaf (fun _ w => v_local w = None) _) _); vm_compute; repeat split|]. do 3 (split; [vm_compute; reflexivity|]). split; [vm_compute; reflexivity|].
  split; [discriminate|]. split; [discriminate|]. split; [|split]; vm_compute; reflexivity.
Qed.

Example C128_plain_case : exists s v, parse_specifier (lit ">=1.2, <2 || ^3 || ==4.*") = Ok s /\ no_locals s /\ (forall t w, leaf t w s -> ~ names_public t)
  /\ parse_version (lit "1.2+x") = Ok v /\ accepts s v = Ok true /\ accepts s (without_local v) = Ok true.
Proof.
  do 2 eexists. split; [vm_compute; reflexivity|]. split; [refine (proj1 (each_leaf (fun _ w => v_local w = None) _) _); vm_compute; repeat split|].
  split; [refine (proj1 (each_leaf (fun t _ => ~ names_public t) _) _); vm_compute; intuition discriminate|]. split; [vm_compute; reflexivity|]. split; vm_compute; reflexivity.
Qed.

(** A local part in the specifier tells local versions apart. *)
Example C128_named : exists s u v, parse_specifier (lit "==1.0+a") = Ok s /\ parse_version (lit "1.0+a") = Ok u /\ parse_version (lit "1.0+b") = Ok v
  /\ accepts s u = Ok true /\ accepts s v = Ok false.
Proof. do 3 eexists. do 3 (split; [vm_compute; reflexivity|]). split; vm_compute; reflexivity. Qed.
