(** Where two versions lie with respect to a third. *)

From Coq Require Import Bool.
From Verif Require Import Version.

Definition same_side (b u v : version) : Prop := v_lt u b = v_lt v b /\ v_lt b u = v_lt b v.
