(** Theorems about groups of specifiers: C103. *)

From Coq Require Import List ZArith Bool String.
From Verif Require Import Py Segments Version Operators Specifiers Spec Groups GroupFacts.
Import ListNotations.
Open Scope Z_scope.

(** ** C103 Groups of specifiers *)

(** The classes take two specifiers or more. *)
Theorem C103_constructors ss :
  any_new ss = (if (2 <=? List.length ss)%nat then Ok (AnyOf ss) else Err TypeError)
  /\ all_new ss = (if (2 <=? List.length ss)%nat then Ok (AllOf ss) else Err TypeError).
Proof. exact (conj (any_new_ok ss) (all_new_ok ss)). Qed.
Print Assumptions C103_constructors.

(** [of], [of_specifiers] and [of_iterable] take any number and never fail. *)
Theorem C103_total ss : (exists s, any_of_specifiers ss = Ok s) /\ (exists s, all_of_specifiers ss = Ok s).
Proof. exact (conj (ex_intro _ _ (any_of_ok ss)) (ex_intro _ _ (all_of_ok ss))). Qed.
Print Assumptions C103_total.

Theorem C103_any ss s v : Forall spec_made ss -> any_of_specifiers ss = Ok s ->
  spec_made s /\ exists b, accepts s v = Ok b /\ (b = true <-> exists u, In u ss /\ accepts u v = Ok true).
Proof. exact (any_of_accepts ss s v). Qed.
Print Assumptions C103_any.

Theorem C103_all ss s v : Forall spec_made ss -> all_of_specifiers ss = Ok s ->
  spec_made s /\ exists b, accepts s v = Ok b /\ (b = true <-> forall u, In u ss -> accepts u v = Ok true).
Proof. exact (all_of_accepts ss s v). Qed.
Print Assumptions C103_all.

(** Order and repetitions do not matter. *)
Theorem C103_order ss us v : Forall spec_made ss -> Forall spec_made us -> (forall s, In s ss <-> In s us) ->
  accepts (any_of ss) v = accepts (any_of us) v /\ accepts (all_of ss) v = accepts (all_of us) v.
Proof. exact (groups_same ss us v). Qed.
Print Assumptions C103_order.

(** Neither does nesting. *)
Theorem C103_nesting sss v : Forall (Forall spec_made) sss ->
  accepts (any_of (map any_of sss)) v = accepts (any_of (List.concat sss)) v /\ accepts (all_of (map all_of sss)) v = accepts (all_of (List.concat sss)) v.
Proof. exact (groups_nested sss v). Qed.
Print Assumptions C103_nesting.

(** All distributes over any, and any over all. *)
Theorem C103_distribute s us v : spec_made s -> Forall spec_made us ->
  accepts (all_of [s; any_of us]) v = accepts (any_of (map (fun u => all_of [s; u]) us)) v
  /\ accepts (any_of [s; all_of us]) v = accepts (all_of (map (fun u => any_of [s; u]) us)) v.
Proof. exact (groups_distribute s us v). Qed.
Print Assumptions C103_distribute.

Definition v_of (r : list Z) : version := Version 0 r None None None None.
Definition low : spec := One LESS (v_of [1]).
Definition high : spec := One GREATER_OR_EQUAL (v_of [2]).
Example C103_case : Forall spec_made [low; high] /\ any_of_specifiers [low; high] = Ok (AnyOf [low; high]) /\ any_of_specifiers [low] = Ok low /\ any_of_specifiers [] = Ok Never
  /\ all_of_specifiers [] = Ok Always /\ any_new [low] = Err TypeError /\ all_new [] = Err TypeError
  /\ map (accepts (any_of [low; high])) [v_of [0; 9]; v_of [1; 5]; v_of [2]] = [Ok true; Ok false; Ok true]
  /\ map (accepts (all_of [low; One GREATER (v_of [0; 5])])) [v_of [0; 9]; v_of [1; 5]; v_of [0; 1]] = [Ok true; Ok false; Ok false].
Proof.
  split; [|now vm_compute]. constructor; [split; [reflexivity|discriminate]|]. constructor; [split; [reflexivity|discriminate]|constructor].
Qed.
