(** The clauses of PEP 440 (section "Version specifiers"), for pre-releases
    that are asked for.  Where the text leaves open what a pre-release, a
    post-release or a local version "of" another is, one with the same epoch
    and release is meant, as in the [packaging] library. *)

From Coq Require Import List ZArith NArith String Bool.
From Verif Require Import Py Segments Version Operators Specifiers Spec PepSpec.
Import ListNotations.
Open Scope Z_scope.

Definition public (v : version) : version :=
  Version (v_epoch v) (v_release v) (v_pre v) (v_post v) (v_dev v) None.
Definition same_base (v w : version) : Prop := v_epoch v = v_epoch w /\ rel_same (v_release v) (v_release w).
Definition prerelease (v : version) : Prop := v_pre v <> None \/ v_dev v <> None.

(** The operators of PEP 440; [==] and [!=] with [.*] count as operators. *)
Definition pep_ops : list op_type :=
  [TILDE_EQUAL; DOUBLE_EQUAL; NOT_EQUAL; LESS; LESS_OR_EQUAL; GREATER; GREATER_OR_EQUAL; WILDCARD_DOUBLE_EQUAL; WILDCARD_NOT_EQUAL].

(** The version [w] matches the clause with the version [v]; the wildcard is
    the last part of its release. *)
Definition pep_clause (t : op_type) (v w : version) : Prop :=
  let equal := pep_same match v_local v with None => public w | Some _ => w end v in
  let prefix := v_epoch w = v_epoch v /\ starts_with (v_release w) (removelast (v_release v)) in
  match t with
  | DOUBLE_EQUAL => equal
  | NOT_EQUAL => ~ equal
  | LESS_OR_EQUAL => ~ pep_before v (public w)
  | GREATER_OR_EQUAL => ~ pep_before (public w) v
  | LESS => pep_before w v /\ ~ (prerelease w /\ ~ prerelease v /\ same_base w v)
  | GREATER => pep_before v w /\ ~ (v_post w <> None /\ v_post v = None /\ same_base w v) /\ ~ (v_local w <> None /\ same_base w v)
  | TILDE_EQUAL => ~ pep_before (public w) v /\ prefix
  | WILDCARD_DOUBLE_EQUAL => prefix
  | WILDCARD_NOT_EQUAL => ~ prefix
  | _ => False
  end.

(** Local versions are only allowed with [==] and [!=]; [~=] needs two parts;
    wildcards stand after a release. *)
Definition pep_allowed (t : op_type) (v : version) : Prop :=
  In t pep_ops
  /\ (t <> DOUBLE_EQUAL -> t <> NOT_EQUAL -> v_local v = None)
  /\ (t = TILDE_EQUAL -> (2 <= List.length (v_release v))%nat)
  /\ (t = WILDCARD_DOUBLE_EQUAL \/ t = WILDCARD_NOT_EQUAL -> exists e r, r <> [] /\ v = bare e (r ++ [0])).

(** The release after all those that begin with the parts before the last. *)
Definition next_prefix (v : version) (r : list Z) : Prop := bumped (v_release v) (List.length (v_release v) - 2) r.

(** Where the library differs. *)
Definition pep_differs (t : op_type) (v w : version) : Prop :=
  match t with
  | DOUBLE_EQUAL | NOT_EQUAL | LESS_OR_EQUAL => v_local v = None /\ v_local w <> None /\ pep_same (public w) v
  | LESS => prerelease w /\ ~ prerelease v /\ same_base w v /\ pep_before w v
  | GREATER => (v_post w <> None /\ v_post v = None \/ v_local w <> None) /\ same_base w v /\ pep_before v w
  | TILDE_EQUAL => early w /\ v_epoch w = v_epoch v /\ exists r, next_prefix v r /\ rel_same (v_release w) r
  | WILDCARD_DOUBLE_EQUAL | WILDCARD_NOT_EQUAL =>
      early w /\ v_epoch w = v_epoch v
      /\ (rel_same (v_release w) (v_release v) \/ exists r, next_prefix v r /\ rel_same (v_release w) r)
  | _ => False
  end.

(** Specifiers made of clauses. *)
Fixpoint pep_spec (s : spec) (w : version) : Prop :=
  match s with
  | Never => False
  | Always => True
  | One t v => pep_clause t v w
  | AnyOf ss => (fix any ss := match ss with [] => False | s :: ss' => pep_spec s w \/ any ss' end) ss
  | AllOf ss => (fix all ss := match ss with [] => True | s :: ss' => pep_spec s w /\ all ss' end) ss
  end.

Definition pep_version (v : version) : Prop := wf v /\ usual v /\ small_local v.

(** Only epoch, release and post-release. *)
Definition released (v : version) : Prop := v_pre v = None /\ v_dev v = None /\ v_local v = None.
