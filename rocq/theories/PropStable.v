(** Property theorems about the predicates of versions. *)

From Coq Require Import List ZArith NArith String Bool.
From Verif Require Import Py Segments Version Parsers Grammar Spec StableFacts.
Import ListNotations.
Open Scope Z_scope.

(** ** C120 *)

(** What was written. *)
Theorem C120_read : forall t v, tree t -> parse_version (text t) = Ok v ->
  (is_pre_release v = true <-> g_pre t <> None) /\ (is_post_release v = true <-> g_post t <> None)
  /\ (is_dev_release v = true <-> g_dev t <> None) /\ (is_local v = true <-> g_local t <> None).
Proof. exact tags_read. Qed.
Print Assumptions C120_read.

(** Where the version is, compared to the one without the tag. *)
Theorem C120_dev : forall v, v_release v <> [] -> is_dev_release v = true <-> v_lt v (without_dev v) = true.
Proof. exact dev_lower. Qed.
Print Assumptions C120_dev.

Theorem C120_post : forall v, v_release v <> [] -> is_post_release v = true <-> v_lt (without_post v) v = true.
Proof. exact post_higher. Qed.
Print Assumptions C120_post.

Theorem C120_local : forall v, v_release v <> [] -> is_local v = true <-> v_lt (without_local v) v = true.
Proof. exact local_higher. Qed.
Print Assumptions C120_local.

(** Without its pre-release tag a version is higher, except for [1.0a1.dev1]. *)
Theorem C120_pre : forall v, v_release v <> [] ->
  is_pre_release v = true <-> (if is_dev_release v && negb (is_post_release v) then v_lt (without_pre v) v else v_lt v (without_pre v)) = true.
Proof. exact pre_differs. Qed.
Print Assumptions C120_pre.

Theorem C120_unstable : forall v, v_release v <> [] -> is_unstable v = true <-> v_lt v (without_dev (without_pre v)) = true.
Proof. exact unstable_lower. Qed.
Print Assumptions C120_unstable.

Theorem C120_stable : forall v, v_release v <> [] -> is_stable v = true <-> v_lt v (without_dev (without_pre v)) = false.
Proof. exact stable_otherwise. Qed.
Print Assumptions C120_stable.

(** The release itself. *)
Theorem C120_release : forall v, v_release v <> [] ->
  v_eq v (without_tags_and_local v) = true <-> is_stable v = true /\ is_post_release v = false /\ is_local v = false.
Proof. exact nothing_more. Qed.
Print Assumptions C120_release.

(** Equal versions answer alike. *)
Theorem C120_equal : forall v w, v_eq v w = true ->
  is_pre_release v = is_pre_release w /\ is_post_release v = is_post_release w /\ is_dev_release v = is_dev_release w /\ is_local v = is_local w.
Proof. exact stable_kept. Qed.
Print Assumptions C120_equal.

Definition told (s : string) : option (list bool) :=
  match parse_version (lit s) with
  | Ok v => Some [is_pre_release v; is_post_release v; is_dev_release v; is_local v; is_unstable v; is_stable v]
  | Err _ => None
  end.

Example C120_case :
  map told ["1.0"; "1.0a1"; "1.0-1"; "1.0.post1.dev2"; "1.0.dev2"; "1.0rc1.post1.dev2+b"]%string
    = map Some [[false; false; false; false; false; true]; [true; false; false; false; true; false]; [false; true; false; false; false; true];
                [false; true; true; false; true; false]; [false; false; true; false; true; false]; [true; true; true; true; true; false]]
  /\ (let v := Version 0 [1; 0] (Some (Tag (lit "alpha") 1)) None (Some (Tag (lit "dev") 1)) None in
      v_lt (without_pre v) v = true /\ v_lt v (without_dev v) = true /\ v_lt v (without_dev (without_pre v)) = true)
  /\ v_eq (Version 0 [1; 0] None None None None) (Version 0 [1] None None None None) = true.
Proof. repeat split; vm_compute; reflexivity. Qed.
