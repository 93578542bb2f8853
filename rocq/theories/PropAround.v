(** C129: how specifiers that name releases treat the versions around them. *)

From Coq Require Import List ZArith NArith String Bool Lia.
From Verif Require Import Py Segments Version VersionSets Operators Specifiers Parsers Spec OrderFacts NestSpec Normal AroundSpec AroundFacts.
Import ListNotations.
Local Open Scope Z_scope.

(** A version is before its release, after it, or the release. *)
Theorem C129_around v : ordinary v ->
  (early v <-> v_lt v (release_of v) = true) /\ (late v <-> v_lt (release_of v) v = true) /\ (v = release_of v <-> v_eq v (release_of v) = true).
Proof. exact (around v). Qed.
Print Assumptions C129_around.

(** All those before are treated alike, and all those after. *)
Theorem C129_early x s u v : parse_specifier x = Ok s -> names_releases s -> ordinary u -> ordinary v -> early u -> early v ->
  v_eq (release_of u) (release_of v) = true -> accepts s u = accepts s v.
Proof. exact (early_alike x s u v). Qed.
Print Assumptions C129_early.

Theorem C129_late x s u v : parse_specifier x = Ok s -> names_releases s -> ordinary u -> ordinary v -> late u -> late v ->
  v_eq (release_of u) (release_of v) = true -> accepts s u = accepts s v.
Proof. exact (late_alike x s u v). Qed.
Print Assumptions C129_late.

(** Where no operator ends, they are treated like the release. *)
Theorem C129_away x s v : parse_specifier x = Ok s -> names_releases s -> ordinary v ->
  (forall t w b, leaf t w s -> op_bound t w b -> v_eq (release_of v) b = false) -> accepts s v = accepts s (release_of v).
Proof. exact (away_alike x s v). Qed.
Print Assumptions C129_away.

(** Where one does: the first release is accepted without its early versions,
    and of the first release excluded just those are accepted. *)
Theorem C129_ends t w i r v : ordinary w -> w = release_of w -> breaks w t (Increased i) -> bumped (v_release w) i r -> ordinary v ->
  (v_eq (release_of v) w = true -> op_matches t v w = Ok true <-> ~ early v)
  /\ (v_eq (release_of v) (bare (v_epoch w) r) = true -> op_matches t v w = Ok true <-> early v).
Proof. exact (operator_ends t w i r v). Qed.
Print Assumptions C129_ends.

Definition read (s : string) : version := match parse_version (lit s) with Ok v => v | Err _ => bare 0 [0] end.

Ltac ord := split; [reflexivity|repeat constructor; cbn; lia].

Example C129_case : exists s, parse_specifier (lit "^1.2, !=1.5 || >3") = Ok s /\ names_releases s
  /\ map (fun z => accepts s (read z)) ["1.2a1"; "1.2"; "1.2-1"; "1.2+x"; "1.4.dev1"; "1.4"; "1.5rc1"; "1.5"; "1.5-1"; "2.0.dev0"; "2.0a1-1+x"; "2.0"; "2.0-1"; "3.0a1"; "3"; "3.post1.dev1"; "3+x"]%string
     = map Ok [false; true; true; true; true; true; true; false; true; true; true; false; false; false; false; true; true]
  /\ early (read "1.5rc1") /\ early (read "1.5.0.dev1") /\ v_eq (release_of (read "1.5rc1")) (release_of (read "1.5.0.dev1")) = true
  /\ late (read "3.post1.dev1") /\ late (read "3+x") /\ ordinary (read "1.5rc1") /\ ordinary (read "1.5.0.dev1") /\ ordinary (read "3.post1.dev1") /\ ordinary (read "3+x").
Proof.
  eexists. split; [vm_compute; reflexivity|]. split; [refine (proj1 (each_leaf (fun _ w => w = release_of w) _) _); vm_compute; repeat split|].
  split; [vm_compute; reflexivity|]. split; [reflexivity|]. split; [reflexivity|]. split; [vm_compute; reflexivity|].
  split; [split; [reflexivity|left; discriminate]|]. split; [split; [reflexivity|right; split; [reflexivity|discriminate]]|]. repeat split; vm_compute; repeat constructor; discriminate.
Qed.

Example C129_away_case : exists s, parse_specifier (lit "~1.2") = Ok s /\ names_releases s /\ ordinary (read "1.2.5b1")
  /\ (forall t w b, leaf t w s -> op_bound t w b -> v_eq (release_of (read "1.2.5b1")) b = false) /\ accepts s (read "1.2.5b1") = Ok true.
Proof.
  eexists. split; [vm_compute; reflexivity|]. split; [refine (proj1 (each_leaf (fun _ w => w = release_of w) _) _); vm_compute; repeat split|].
  split; [split; vm_compute; repeat constructor; discriminate|]. split; [|vm_compute; reflexivity].
  intros t w b J. inversion J; subst. intros [-> | (r & -> & F & _)]; [vm_compute; reflexivity|].
  destruct (F (conj eq_refl eq_refl)) as [L B]. destruct r as [|a [|c [|]]]; try discriminate L. pose proof (B 0%nat) as B0. pose proof (B 1%nat) as B1. cbn in B0, B1. subst. vm_compute. reflexivity.
Qed.

Example C129_ends_case : let w := bare 0 [1; 2] in ordinary w /\ w = release_of w /\ breaks w CARET (Increased 0) /\ bumped (v_release w) 0 [2; 0]
  /\ ordinary (read "2.0a1") /\ early (read "2.0a1") /\ v_eq (release_of (read "2.0a1")) (bare 0 [2; 0]) = true /\ op_matches CARET (read "2.0a1") w = Ok true
  /\ ordinary (read "1.2a1") /\ early (read "1.2a1") /\ v_eq (release_of (read "1.2a1")) w = true /\ op_matches CARET (read "1.2a1") w = Ok false.
Proof.
  cbv zeta. split; [ord|]. split; [reflexivity|]. split; [apply (caret_final (bare 0 [1; 2])); split; reflexivity|].
  split; [split; [reflexivity|intros [|[|[|n]]]; reflexivity]|]. repeat split; vm_compute; repeat constructor; discriminate.
Qed.

(** An early version named in the specifier tells early versions apart. *)
Example C129_named : exists s, parse_specifier (lit ">=1.0b1") = Ok s /\ accepts s (read "1.0a1") = Ok false /\ accepts s (read "1.0rc1") = Ok true.
Proof. eexists. split; [vm_compute; reflexivity|]. split; vm_compute; reflexivity. Qed.
