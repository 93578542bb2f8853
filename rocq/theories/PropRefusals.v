(** Theorems about what refused constructors say: C112. *)

From Coq Require Import List ZArith NArith String Bool.
From Verif Require Import Py Segments Version VersionSets Operators Specifiers Groups Stepper Grammar SegmentSpec Spec Messages MessageSpec MessageFacts Refusals RefusalFacts.
Import ListNotations.
Open Scope Z_scope.

(** ** C112 What refused constructors say *)

(** Without the messages these are the constructors of the other properties. *)
Theorem C112_same :
  (forall min max imin imax, silent (told_range_new min max imin imax) = range_new min max imin imax)
  /\ (forall i, silent (told_item_version i) = item_version i)
  /\ (forall items, silent (told_union_new items) = union_new items)
  /\ (forall ss, silent (told_any_new ss) = any_new ss /\ silent (told_all_new ss) = all_new ss)
  /\ (forall s, silent (told_prepare s) = st_prepare s)
  /\ (forall s, silent (told_step s) = st_step s)
  /\ (forall s, silent (told_compute s) = st_compute s).
Proof. exact (conj silent_range (conj silent_version (conj silent_union (conj silent_groups (conj silent_prepare (conj silent_step silent_compute)))))). Qed.
Print Assumptions C112_same.

(** An infinite end that is included is reported before ends in the wrong
    order, which need two finite ends; nothing else is refused. *)
Theorem C112_range min max imin imax e t :
  told_range_new min max imin imax = Told e t <->
  e = ValueError
  /\ ((t = Some (lit "ranges can not contain infinities") /\ (min = None /\ imin = true \/ max = None /\ imax = true))
      \/ (t = Some (lit "version ranges expect `min <= max`, got `min > max`")
          /\ exists m M, min = Some m /\ max = Some M /\ v_lt M m = true)).
Proof. exact (range_refused min max imin imax e t). Qed.
Print Assumptions C112_range.

(** The only version of a range *)
Theorem C112_version i e t :
  told_item_version i = Told e t <->
  e = ValueError /\ t = Some (lit "version range is not a point") /\
  ~ (exists v, i = Point v) /\ ~ (exists m M, i = Range (Some m) (Some M) true true /\ v_eq m M = true).
Proof. exact (version_refused i e t). Qed.
Print Assumptions C112_version.

Theorem C112_union items r : told_union_new items = r <->
  (List.length items = 0%nat /\ r = Told ValueError (Some (lit "expected at least 2 items, 0 found")))
  \/ (List.length items = 1%nat /\ r = Told ValueError (Some (lit "expected at least 2 items, 1 found; consider using it directly")))
  \/ ((2 <= List.length items)%nat /\ r = Fine (Union items)).
Proof. exact (union_told items r). Qed.
Print Assumptions C112_union.

Theorem C112_groups ss r :
  (told_any_new ss = r <->
    (List.length ss = 0%nat /\ r = Told TypeError (Some (lit "expected at least 2 specifiers, 0 found")))
    \/ (List.length ss = 1%nat /\ r = Told TypeError (Some (lit "expected at least 2 specifiers, 1 found; consider using it directly")))
    \/ ((2 <= List.length ss)%nat /\ r = Fine (AnyOf ss)))
  /\ (told_all_new ss = r <->
    (List.length ss = 0%nat /\ r = Told TypeError (Some (lit "expected at least 2 specifiers, 0 found")))
    \/ (List.length ss = 1%nat /\ r = Told TypeError (Some (lit "expected at least 2 specifiers, 1 found; consider using it directly")))
    \/ ((2 <= List.length ss)%nat /\ r = Fine (AllOf ss))).
Proof. exact (groups_told ss r). Qed.
Print Assumptions C112_groups.

(** Releases and local segments *)
Theorem C112_segments :
  (forall parts r, told_release_new parts = r <->
     (parts = [] /\ r = Told ValueError (Some (lit "releases can not be empty"))) \/ (parts <> [] /\ r = Fine parts))
  /\ (forall parts r, told_local_new parts = r <->
     (parts = [] /\ r = Told ValueError (Some (lit "local can not be empty"))) \/ (parts <> [] /\ r = Fine parts)).
Proof. exact segments_told. Qed.
Print Assumptions C112_segments.

(** Tags: the message names the phase in its long form, not the word given. *)
Theorem C112_tag c w x :
  told_tag_new c w x =
    if str_in w (tag_words c) then Fine (Tag (long_form w) x)
    else Told ValueError (Some (phase_refused (long_form w) c)).
Proof. exact (tag_refused c w x). Qed.
Print Assumptions C112_tag.

(** Operators *)
Theorem C112_operator t w e m : valid_version w = true ->
  told_one_new t w = Told e m <->
  e = ValueError /\ m = Some (lit "`~=` can not be used with with a single version segment")
  /\ t = TILDE_EQUAL /\ List.length (v_release w) = 1%nat.
Proof. exact (one_refused t w e m). Qed.
Print Assumptions C112_operator.

(** [ItemsDifference]: prepared twice, computed after preparing, and stepped
    before; steps after preparing raise nothing of their own. *)
Theorem C112_prepare items others :
  let s := stepper_new items others in
  exists p, told_prepare s = Fine p
  /\ told_prepare p = Told ValueError (Some (lit "`prepare` must be called exactly once"))
  /\ told_compute p = Told ValueError (Some (lit "`prepare` must be called exactly once"))
  /\ told_step s = Told ValueError (Some (lit "`prepare` must be called before computing"))
  /\ forall e m, told_step p <> Told e (Some m).
Proof. exact (prepare_told items others). Qed.
Print Assumptions C112_prepare.

Definition n (z : Z) : version := bare 0 [z].

Example C112_case :
  told_range_new None (Some (n 1)) true true = Told ValueError (Some (lit "ranges can not contain infinities"))
  /\ told_range_new (Some (n 2)) (Some (n 1)) true true
     = Told ValueError (Some (lit "version ranges expect `min <= max`, got `min > max`"))
  /\ told_range_new (Some (n 1)) (Some (n 1)) false true = Fine (Range (Some (n 1)) (Some (n 1)) false true)
  /\ told_item_version (Range (Some (n 1)) (Some (n 1)) false true) = Told ValueError (Some (lit "version range is not a point"))
  /\ told_item_version (Range (Some (n 1)) (Some (bare 0 [1; 0])) true true) = Fine (n 1)
  /\ told_union_new [Point (n 1)] = Told ValueError (Some (lit "expected at least 2 items, 1 found; consider using it directly"))
  /\ told_any_new [] = Told TypeError (Some (lit "expected at least 2 specifiers, 0 found"))
  /\ told_all_new [Always; Never] = Fine (AllOf [Always; Never])
  /\ told_release_new [] = Told ValueError (Some (lit "releases can not be empty"))
  /\ told_tag_new PreTag (lit "r") 3 = Told ValueError (Some (lit "phase `rev` is not allowed in `PreTag`"))
  /\ told_tag_new PostTag (lit "r") 3 = Fine (Tag (lit "rev") 3)
  /\ told_one_new TILDE_EQUAL (n 1) = Told ValueError (Some (lit "`~=` can not be used with with a single version segment"))
  /\ told_one_new TILDE (n 1) = Fine (One TILDE (n 1))
  /\ valid_version (n 1) = true
  /\ told_step (stepper_new [Point (n 1)] []) = Told ValueError (Some (lit "`prepare` must be called before computing")).
Proof. now vm_compute. Qed.
