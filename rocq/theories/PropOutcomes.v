(** Theorems about when conversions return: C75. *)

From Coq Require Import List ZArith NArith String Bool.
From Verif Require Import Py Segments Version VersionSets Operators SetStrings Specifiers Regex Patterns Parsers Spec Grammar Clauses Compose Outcomes.
Import ListNotations.
Open Scope Z_scope.

Definition ver (r : list Z) : version := bare 0 r.

(** ** C75 *)

Theorem C75_one t w e : op_made t w -> nonneg_release w ->
  specifier_to_version_set (One t w) = Err e <-> e = ValueError /\ op_stuck t w.
Proof. exact (one_stops t w e). Qed.
Print Assumptions C75_one.

(** A conjunction fails as its first failing member does. *)
Theorem C75_all ss e : spec_made (AllOf ss) -> each_op plain_op (AllOf ss) ->
  specifier_to_version_set (AllOf ss) = Err e <->
  exists pre s post, ss = pre ++ s :: post /\ specifier_to_version_set s = Err e
    /\ Forall (fun u => exists a, specifier_to_version_set u = Ok a) pre.
Proof. exact (all_stops ss e). Qed.
Print Assumptions C75_all.

(** A disjunction fails at the first member that fails, or whose set clashes
    with that of the members before it. *)
Theorem C75_any ss e : spec_made (AnyOf ss) -> each_op plain_op (AnyOf ss) ->
  specifier_to_version_set (AnyOf ss) = Err e <->
  exists pre s post, ss = pre ++ s :: post
    /\ ((specifier_to_version_set s = Err e /\ (pre = [] \/ exists a, specifier_to_version_set (any_of pre) = Ok a))
        \/ (e = RecursionError /\ exists a b, pre <> [] /\ specifier_to_version_set (any_of pre) = Ok a
            /\ specifier_to_version_set s = Ok b /\ union_clash a b)).
Proof. exact (any_stops ss e). Qed.
Print Assumptions C75_any.

Theorem C75_simplify s e : spec_made s -> each_op plain_op s -> simplify s = Err e <-> specifier_to_version_set s = Err e.
Proof. exact (simplify_stops s e). Qed.
Print Assumptions C75_simplify.

(** Strings: the last alternative is united with the set of the others, and the
    last clause meets the set of the others. *)
Theorem C75_or_string d s t a b : ~ In 124%N t -> parse_version_set s = Ok a -> parse_version_set t = Ok b ->
  (union_clash a b /\ parse_version_set (s ++ pipes d ++ t) = Err RecursionError)
  \/ (~ union_clash a b /\ exists c, parse_version_set (s ++ pipes d ++ t) = Ok c /\ canonical c /\ forall v, contains c v = contains a v || contains b v).
Proof. exact (or_last_exact d s t a b). Qed.
Print Assumptions C75_or_string.

Theorem C75_or_union d s t p q : ~ In 124%N t -> parse_specifier s = Ok p -> parse_specifier t = Ok q ->
  parse_version_set (s ++ pipes d ++ t) = let* a := parse_version_set s in let* b := parse_version_set t in union a b.
Proof. exact (or_last d s t p q). Qed.
Print Assumptions C75_or_union.

Theorem C75_and_intersection s t p q : ~ In 124%N s -> ~ In 124%N t -> ~ In 44%N t -> parse_specifier s = Ok p -> parse_specifier t = Ok q ->
  parse_version_set (s ++ [44%N] ++ t) = let* a := parse_version_set s in let* b := parse_version_set t in intersection a b.
Proof. exact (and_last s t p q). Qed.
Print Assumptions C75_and_intersection.

(** The order of alternatives decides: the same three clauses convert in one
    order and not in another. *)
Example C75_case : parse_version_set (lit "==1 || >1 || >=0") = Err RecursionError
  /\ exists a, parse_version_set (lit "==1 || >=0 || >1") = Ok a.
Proof. split; [now vm_compute|]. eexists. now vm_compute. Qed.

Example C75_clash : exists a b, parse_version_set (lit "<1||==2") = Ok a /\ parse_version_set (lit ">2") = Ok b
  /\ parse_version_set (lit "<1||==2" ++ pipes true ++ lit ">2") = Err RecursionError /\ ~ In 124%N (lit ">2").
Proof. do 2 eexists. split; [vm_compute; reflexivity|]. split; [vm_compute; reflexivity|]. split; [now vm_compute|]. cbn. intros [H|[H|[]]]; discriminate. Qed.

Definition part_way : version := Version 0 [0; 1] None (Some (Tag (lit "post") 1)) (Some (Tag (lit "dev") 1)) None.

(** A stuck caret after a clause that converts. *)
Example C75_stuck : spec_made (AllOf [One GREATER (ver [1]); One CARET part_way]) /\ each_op plain_op (AllOf [One GREATER (ver [1]); One CARET part_way])
  /\ op_stuck CARET part_way /\ specifier_to_version_set (AllOf [One GREATER (ver [1]); One CARET part_way]) = Err ValueError.
Proof.
  split; [|split; [|split; [|now vm_compute]]].
  - cbn. repeat split; auto; try discriminate.
  - cbn. repeat split; repeat (constructor; try discriminate).
  - cbn. repeat split; discriminate.
Qed.
