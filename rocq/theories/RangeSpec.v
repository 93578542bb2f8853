(** What the relations between ranges mean, by the versions they reach. *)

From Coq Require Import List ZArith NArith Bool.
From Verif Require Import Py Segments Version VersionSets Spec.

(** At or after the beginning of an item, and at or before its end. *)
Definition from_min (i : item) (v : version) : Prop := above_min (i_min i) (i_include_min i) v.
Definition to_max (i : item) (v : version) : Prop := below_max (i_max i) (i_include_max i) v.

(** No version of [P] lies in both. *)
Definition apart (P : version -> Prop) (s o : item) : Prop :=
  forall v, P v -> ~ (in_item s v /\ in_item o v).

(** Every version of [P] between two versions of the pair is in the pair. *)
Definition gapless (P : version -> Prop) (s o : item) : Prop :=
  forall u v w, P u -> P v -> P w -> in_item s u \/ in_item o u -> in_item s w \/ in_item o w ->
  v_le u v = true -> v_le v w = true -> in_item s v \/ in_item o v.

(** Every version of [P] between two members is a member. *)
Definition contiguous (P : version -> Prop) (a : vset) : Prop :=
  forall u v w, P u -> P v -> P w -> in_set a u -> in_set a w -> v_le u v = true -> v_le v w = true -> in_set a v.

(** The lowest and the highest among the members that are in [P]. *)
Definition least (P : version -> Prop) (i : item) (v : version) : Prop :=
  P v /\ in_item i v /\ forall w, P w -> in_item i w -> v_le v w = true.
Definition greatest (P : version -> Prop) (i : item) (v : version) : Prop :=
  P v /\ in_item i v /\ forall w, P w -> in_item i w -> v_le w v = true.

(** With a member, everything below or above it. *)
Definition downward (P : version -> Prop) (i : item) : Prop :=
  forall v w, P v -> P w -> in_item i w -> v_le v w = true -> in_item i v.
Definition upward (P : version -> Prop) (i : item) : Prop :=
  forall v w, P v -> P w -> in_item i v -> v_le v w = true -> in_item i w.
