(** Neighbours in the order of versions. *)

From Coq Require Import List ZArith NArith String Bool.
From Verif Require Import Py Segments Version Spec.
Import ListNotations.
Local Open Scope Z_scope.

(** Versions without local part that can be written down. *)
Definition public (v : version) : Prop := wf v /\ v_local v = None.

(** Development releases that come right after another version without local part:
    the first one only of a post-release, but not of the first post-release spelled
    [rev]. *)
Definition successor (v : version) : Prop :=
  exists d, v_dev v = Some d
    /\ (0 < value d \/ exists p, v_post v = Some p /\ (0 < value p \/ phase p = lit "post")).

(** Each version is below the next one. *)
Fixpoint ascending (vs : list version) : Prop :=
  match vs with
  | v :: (w :: _) as vs' => v_lt v w = true /\ ascending vs'
  | _ => True
  end.

(** [v.next_dev()] of development releases and [v.next_post().next_dev()] of others. *)
Definition following (v : version) : result version :=
  if is_dev_release v then next_dev v else let* p := next_post v in next_dev p.
