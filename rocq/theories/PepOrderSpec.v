(** Where the order of versions leaves PEP 440 (C81). *)

From Coq Require Import List ZArith NArith String Bool.
From Verif Require Import Py Segments Version Spec PepSpec.
Import ListNotations.
Open Scope Z_scope.

(** Neither a nor b: rc by any of its names. *)
Definition late (t : tag) : Prop := phase t <> lit "alpha" /\ phase t <> lit "beta".

(** All before a word is the same, and the word of [v] sorts first: another
    name of rc, another name of post, or a local part as it is spelled. *)
Definition word_first (v w : version) : Prop :=
  v_epoch v = v_epoch w /\ rel_same (v_release v) (v_release w) /\ (
  (exists t u, v_pre v = Some t /\ v_pre w = Some u /\ late t /\ late u /\ position (phase t) PHASE_ORDER < position (phase u) PHASE_ORDER)
  \/ (v_pre v = v_pre w /\ exists t u, v_post v = Some t /\ v_post w = Some u /\ phase t = lit "post" /\ phase u = lit "rev")
  \/ (v_pre v = v_pre w /\ v_post v = v_post w /\ v_dev v = v_dev w /\ local_before (v_local v) (v_local w))).

(** The word puts [v] first, and PEP 440 does not. *)
Definition crossed (v w : version) : Prop := word_first v w /\ ~ pep_before v w.
