(** Property theorems about segments by themselves. *)

From Coq Require Import List ZArith NArith String Bool.
From Verif Require Import Py Segments Version Spec OrderFacts BumpFacts Padding SegmentMethods SegmentMethodFacts.
Import ListNotations.
Open Scope Z_scope.

(** ** C102 *)

(** [Release.set_major] and so on: one part changes, zeros fill the gap. *)
Theorem C102_set r x : r <> [] ->
  (exists r', rel_set_major r x = Ok r' /\ List.length r' = List.length r /\ forall n, part r' n = match n with O => x | _ => part r n end)
  /\ (exists r', rel_set_minor r x = Ok r' /\ List.length r' = Nat.max (List.length r) 2 /\ forall n, part r' n = match n with 1%nat => x | _ => part r n end)
  /\ (exists r', rel_set_micro r x = Ok r' /\ rel_set_patch r x = Ok r' /\ List.length r' = Nat.max (List.length r) 3
      /\ forall n, part r' n = match n with 2%nat => x | _ => part r n end).
Proof. exact (sets_alone r x). Qed.
Print Assumptions C102_set.

(** [Release.next_major] and so on: one part is bumped, later ones become zero,
    and the release is greater. *)
Theorem C102_next r : r <> [] -> Forall (fun x => 0 <= x) r ->
  (exists r', rel_next_major r = Ok r' /\ List.length r' = List.length r /\ rel_cmp r r' = Lt /\ forall n, part r' n = match n with O => part r 0 + 1 | _ => 0 end)
  /\ (exists r', rel_next_minor r = Ok r' /\ List.length r' = Nat.max (List.length r) 2 /\ rel_cmp r r' = Lt
      /\ forall n, part r' n = match n with O => part r 0 | 1%nat => part r 1 + 1 | _ => 0 end)
  /\ (exists r', rel_next_micro r = Ok r' /\ rel_next_patch r = Ok r' /\ List.length r' = Nat.max (List.length r) 3 /\ rel_cmp r r' = Lt
      /\ forall n, part r' n = match n with O => part r 0 | 1%nat => part r 1 | 2%nat => part r 2 + 1 | _ => 0 end).
Proof. exact (nexts_alone r). Qed.
Print Assumptions C102_next.

(** Bumping at an index from the end: the last part can not be bumped so. *)
Theorem C102_next_from_end r i default padding : i < 0 ->
  rel_next_at_with r i default padding
  = if i <? - len r then Err IndexError else if i =? -1 then Err ValueError else rel_next_at_with r (len r + i) default padding.
Proof. exact (next_back r i default padding). Qed.
Print Assumptions C102_next_from_end.

Theorem C102_version_from_end v i : i < 0 -> is_stable v = true ->
  next_at v i = if i <? - len (v_release v) then Err IndexError else if i =? -1 then Err ValueError else next_at v (len (v_release v) + i).
Proof. exact (version_next_back v i). Qed.
Print Assumptions C102_version_from_end.

(** [Tag.next_phase], for every class of tags. *)
Theorem C102_next_phase c t x : valid_tag c t = true ->
  (phase t = lit "alpha" /\ tag_next_phase_with c t x = Ok (Some (Tag (lit "beta") x)))
  \/ (phase t = lit "beta" /\ tag_next_phase_with c t x = Ok (Some (Tag (lit "rc") x)))
  \/ (phase t <> lit "alpha" /\ phase t <> lit "beta" /\ tag_next_phase_with c t x = Ok None).
Proof. exact (next_phase_alone c t x). Qed.
Print Assumptions C102_next_phase.

Theorem C102_next_phase_default c t : tag_next_phase_with c t 0 = tag_next_phase c t.
Proof. exact (next_phase_default c t). Qed.
Print Assumptions C102_next_phase_default.

(** The methods of versions do what those of their segments do. *)
Theorem C102_versions v x :
  v_set_epoch_value v x = set_epoch v x /\ v_next_epoch v = set_epoch v (v_epoch v + 1)
  /\ v_set_major v x = set_major v x /\ v_set_minor v x = set_minor v x /\ v_set_micro v x = set_micro v x /\ v_set_patch v x = set_micro v x
  /\ v_next_major v = next_major v /\ v_next_minor v = next_minor v /\ v_next_micro v = next_micro v /\ v_next_patch v = next_micro v.
Proof. exact (versions_delegate v x). Qed.
Print Assumptions C102_versions.

Theorem C102_parts r l : (r <> [] -> rel_from_parts r = Ok r /\ forall s, rel_set_parts s r = Ok r)
  /\ (l <> [] -> local_from_parts l = Ok l /\ forall m, local_set_parts m l = Ok l)
  /\ rel_from_parts [] = Err ValueError /\ rel_set_parts r [] = Err ValueError /\ local_from_parts [] = Err ValueError /\ local_set_parts l [] = Err ValueError.
Proof. exact (parts_alone r l). Qed.
Print Assumptions C102_parts.

Example C102_case : rel_set_micro [1] 5 = Ok [1; 0; 5] /\ rel_next_minor [1; 2; 3; 4] = Ok [1; 3; 0; 0] /\ rel_next_patch [1] = Ok [1; 0; 1]
  /\ rel_next_at_with [1; 2; 3] (-2) 0 0 = Ok [1; 3; 0] /\ rel_next_at_with [1; 2; 3] (-1) 0 0 = Err ValueError /\ rel_next_at_with [1; 2; 3] (-4) 0 0 = Err IndexError
  /\ valid_tag PreTag (Tag (lit "alpha") 3) = true /\ tag_next_phase_with PreTag (Tag (lit "alpha") 3) 7 = Ok (Some (Tag (lit "beta") 7)).
Proof. now vm_compute. Qed.

(** Without the condition on parts the bumped release can be smaller. *)
Example C102_negative_case : rel_next_minor [1; -1] = Ok [1; 0] /\ rel_cmp [1; -1] [1; 0] = Gt.
Proof. now vm_compute. Qed.
