(** Versions around their release, and specifiers that name releases only. *)

From Coq Require Import List.
From Verif Require Import Segments Version Operators Specifiers Spec.

(** The release that a version belongs to. *)
Definition release_of (v : version) : version := bare (v_epoch v) (v_release v).

(** After the release: a post-release or a local version of it, or a development
    release of a post-release.  Versions before it are [early]. *)
Definition late (v : version) : Prop :=
  v_pre v = None /\ (v_post v <> None \/ v_dev v = None /\ v_local v <> None).

(** No version in the specifier has tags or a local part. *)
Definition names_releases (s : spec) : Prop := forall t w, leaf t w s -> w = release_of w.
