(** Theorems about padding with anything: C88. *)

From Coq Require Import List ZArith NArith String Bool.
From Verif Require Import Py Segments Version Spec OrderFacts BumpFacts Padding PadFacts.
Import ListNotations.
Open Scope Z_scope.

(** ** C88 Padding and bumping with other fillers *)

Theorem C88_pad v n p :
  pad_to v n p = Ok (set_release v (v_release v ++ repeat p (Z.to_nat n - List.length (v_release v)))).
Proof. exact (pad_exact v n p). Qed.
Print Assumptions C88_pad.

Theorem C88_pad_index v i p :
  pad_to_index v i p = Ok (set_release v (v_release v ++ repeat p (Z.to_nat (i + 1) - List.length (v_release v)))).
Proof. exact (pad_exact v (i + 1) p). Qed.
Print Assumptions C88_pad_index.

Theorem C88_pad_next v p : pad_to_next v p = Ok (set_release v (v_release v ++ [p])).
Proof. exact (pad_next_exact v p). Qed.
Print Assumptions C88_pad_next.

(** Greater when anything but zeros was added, even negative numbers. *)
Theorem C88_compare v w n p : v_release v <> [] -> pad_to v n p = Ok w ->
  v_cmp v w = if (Z.of_nat (List.length (v_release v)) <? n) && negb (p =? 0) then Lt else Eq.
Proof. intros N H. rewrite pad_exact in H. injection H as <-. exact (pad_compare v n p N). Qed.
Print Assumptions C88_compare.

(** [Release.next_at]: parts before the index are kept, later ones replaced. *)
Theorem C88_next_at r i default padding : r <> [] -> 0 <= i ->
  exists r', rel_next_at_with r i default padding = Ok r' /\ List.length r' = Nat.max (List.length r) (S (Z.to_nat i))
    /\ (forall n, (n < Z.to_nat i)%nat -> part r' n = part r n)
    /\ part r' (Z.to_nat i) = (if i <? Z.of_nat (List.length r) then part r (Z.to_nat i) else default) + 1
    /\ (forall n, (Z.to_nat i < n < List.length r)%nat -> part r' n = padding).
Proof. exact (next_at_with_spec r i default padding). Qed.
Print Assumptions C88_next_at.

Theorem C88_defaults r i : rel_next_at_with r i 0 0 = rel_next_at r i.
Proof. reflexivity. Qed.
Print Assumptions C88_defaults.

Example C88_case : let v := Version 0 [1; 0] None None None None in
  pad_to v 4 7 = Ok (Version 0 [1; 0; 7; 7] None None None None)
  /\ rmap (v_cmp v) (pad_to v 3 (-1)) = Ok Lt
  /\ rel_next_at_with [1; 2; 3; 4] 1 5 9 = Ok [1; 3; 9; 9]
  /\ rel_next_at_with [1] 2 5 9 = Ok [1; 0; 6].
Proof. now vm_compute. Qed.
