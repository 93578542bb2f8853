(** Theorems about objects that have a version: C104. *)

From Coq Require Import List ZArith NArith String Bool.
From Verif Require Import Py Segments Version Parsers VersionSets Operators Specifiers Spec Grammar ParseTheorems
  Typed GenericSets TypedSets TypedCaches Meta Versioned VersionedFacts.
Import ListNotations.
Open Scope Z_scope.

(** ** C104 Versioned objects *)

(** In all theorems [h] and [mix] are any hash functions and [cs] the calls made
    before. *)

(** Objects that are not versioned are those for which the attribute is missing. *)
Theorem C104_versioned h mix cs x T : is_versioned x = false <-> get_version_after h mix cs x T = Err AttributeError.
Proof. exact (versioned_exact h mix cs T x). Qed.
Print Assumptions C104_versioned.

(** [get_version] gives a version for strings that are versions and for nothing
    else. *)
Theorem C104_version h mix cs x T y : get_version_after h mix cs x T = Ok y <->
  exists t, tree t /\ lower_case t /\ x = Some (Text (text t)) /\ y = Typed T (reading t).
Proof. exact (version_ok h mix cs T x y). Qed.
Print Assumptions C104_version.

(** For strings it is the function of [Meta.v], which has neither caches nor
    classes. *)
Theorem C104_text h mix cs s T :
  get_version_after h mix cs (Some (Text s)) T = rmap (Typed T) (Meta.get_version s).
Proof. exact (after_text h mix cs T s). Qed.
Print Assumptions C104_text.

(** Its errors. *)
Theorem C104_errors h mix cs x T e : get_version_after h mix cs x T = Err e <->
  (x = None /\ e = AttributeError)
  \/ (x <> None /\ ~ (exists s, x = Some (Text s)) /\ e = TypeError)
  \/ (exists s, x = Some (Text s) /\ ~ (exists t, tree t /\ text t = s) /\ e = ParseVersionError)
  \/ (exists t, x = Some (Text (text t)) /\ tree t /\ ~ lower_case t /\ e = ValueError).
Proof. exact (version_err h mix cs T x e). Qed.
Print Assumptions C104_errors.

(** The documentation of [is_versioned] says that the attribute is a string;
    that is not checked. *)
Theorem C104_untyped h mix cs T : exists x, has_version x = true /\ (forall s, x <> Some (Text s))
  /\ get_version_after h mix cs x T = Err TypeError.
Proof. exact (untyped h mix cs T). Qed.
Print Assumptions C104_untyped.

(** The package itself, an integer, a tuple, a list and a name. *)
Example C104_case :
  let h := op_index in let mix := fun ns => fold_right N.add 7%N ns in
  let before := [TParseVersion (Arguments BY_POSITION 0%nat VERSION_STRING); TParseVersion (Arguments BY_POSITION 1%nat (lit "1.0"))] in
  has_version (Some (Text VERSION_STRING)) = true
  /\ get_version_after h mix before (Some (Text VERSION_STRING)) 1%nat = Ok (Typed 1%nat (Version 0 [2; 1; 2] None None None None))
  /\ has_version None = false /\ get_version_after h mix before None 0%nat = Err AttributeError
  /\ get_version_after h mix before (Some (Object true)) 0%nat = Err TypeError
  /\ get_version_after h mix before (Some (Object false)) 0%nat = Err TypeError
  /\ get_version_after h mix before (Some (Bytes VERSION_STRING)) 0%nat = Err TypeError
  /\ get_version_after h mix before (Some (Text (lit "latest"))) 0%nat = Err ParseVersionError
  /\ get_version_after h mix before (Some (Text (lit "1.0RC1"))) 0%nat = Err ValueError.
Proof. now vm_compute. Qed.
