(** C116: which versions have neighbours. *)

From Coq Require Import List ZArith NArith String Bool Lia.
From Verif Require Import Py Segments Version Parsers Spec DenseSpec DenseFacts.
Import ListNotations.
Local Open Scope Z_scope.

(** Between any two versions there are as many as one likes. *)
Theorem C116_between x y v w n : parse_version x = Ok v -> parse_version y = Ok w -> v_lt v w = true ->
  exists zs us, List.length us = n /\ Forall2 (fun z u => parse_version z = Ok u) zs us /\ ascending (v :: us ++ [w]).
Proof. exact (dense_texts x y v w n). Qed.
Print Assumptions C116_between.

Theorem C116_endless x v : parse_version x = Ok v -> exists z w, parse_version z = Ok w /\ v_lt v w = true.
Proof. exact (endless x v). Qed.
Print Assumptions C116_endless.

Theorem C116_first x v : parse_version x = Ok v -> v_le lowest v = true.
Proof. exact (first_version x v). Qed.
Print Assumptions C116_first.

(** Without local parts, every version is followed by another one at once. *)
Theorem C116_following v : wf v ->
  exists w, following v = Ok w /\ public w /\ v_lt v w = true /\ forall u, public u -> v_lt v u = true -> v_le w u = true.
Proof. exact (following_next v). Qed.
Print Assumptions C116_following.

Theorem C116_previous w : public w ->
  (exists v, public v /\ v_lt v w = true /\ forall u, public u -> v_lt v u = true -> v_le w u = true) <-> successor w.
Proof. exact (previous w). Qed.
Print Assumptions C116_previous.

(** Local parts with words that no string stands for leave gaps. *)
Theorem C116_gap : exists v w, valid_version v = true /\ valid_version w = true /\ v_lt v w = true
  /\ forall u, valid_version u = true -> v_lt v u = true -> v_lt u w = false.
Proof. exact words_matter. Qed.
Print Assumptions C116_gap.

Example C116_case : parse_version (lit "0.dev0") = Ok lowest
  /\ (exists v w u, parse_version (lit "1.0") = Ok v /\ parse_version (lit "1.0.post0.dev0") = Ok w /\ parse_version (lit "1.0+0a") = Ok u
      /\ ascending [v; u; w] /\ following v = Ok w /\ following u = Ok w /\ public v /\ public w)
  /\ (exists v w, parse_version (lit "1.0a2.post3") = Ok v /\ parse_version (lit "1.0a2.post4.dev0") = Ok w /\ following v = Ok w)
  /\ exists v w, parse_version (lit "1.0.dev6") = Ok v /\ parse_version (lit "1.0.dev7") = Ok w /\ following v = Ok w.
Proof.
  split; [now vm_compute|]. split; [|split].
  - do 3 eexists. split; [vm_compute; reflexivity|]. split; [vm_compute; reflexivity|]. split; [vm_compute; reflexivity|]. repeat split; try (vm_compute; reflexivity); try discriminate; repeat constructor; cbn; lia.
  - do 2 eexists. split; [vm_compute; reflexivity|]. split; [vm_compute; reflexivity|]. vm_compute; reflexivity.
  - do 2 eexists. split; [vm_compute; reflexivity|]. split; [vm_compute; reflexivity|]. vm_compute; reflexivity.
Qed.

Example C116_previous_case : let dev n := Some (Tag (lit "dev") n) in let post p n := Some (Tag p n) in
  successor (Version 0 [1] None None (dev 3) None) /\ successor (Version 0 [1] None (post (lit "post") 0) (dev 0) None)
  /\ ~ successor (Version 0 [1] None None (dev 0) None) /\ ~ successor (Version 0 [1] None (post (lit "rev") 0) (dev 0) None) /\ ~ successor (bare 0 [1]).
Proof.
  cbv zeta. split; [eexists; split; [reflexivity|left; cbn; lia]|]. split; [eexists; split; [reflexivity|right; eexists; split; [reflexivity|now right]]|].
  split; [|split]; intros (d & D & H); cbn in D; try discriminate D; injection D as <-; destruct H as [H|(p & P & H)]; cbn in *; try lia; try discriminate P.
  injection P as <-. destruct H as [H|H]; [cbn in H; lia|discriminate H].
Qed.
