(** C127: specifiers see epochs only through comparisons. *)

From Coq Require Import List ZArith NArith String Bool Lia.
From Verif Require Import Py Segments Version VersionSets Operators Specifiers Parsers MixedSpec EpochSpec CommuteFacts EpochFacts.
Import ListNotations.
Local Open Scope Z_scope.

Theorem C127_accepts g s v : increasing g -> accepts (rename_spec (reepoch g) s) (reepoch g v) = accepts s v.
Proof. exact (fun G => f_accepts _ (reepoch_in_order g G) s v (fun t w _ => f_follows g t w)). Qed.
Print Assumptions C127_accepts.

(** Converting fails alike, and gives the same set up to epochs. *)
Theorem C127_converts g s : increasing g -> specifier_to_version_set (rename_spec (reepoch g) s) = rmap (renamed (reepoch g)) (specifier_to_version_set s).
Proof. exact (fun G => f_convert _ (reepoch_in_order g G) s (fun t w _ => f_follows g t w)). Qed.
Print Assumptions C127_converts.

Theorem C127_specifier g a : increasing g -> version_set_to_specifier (renamed (reepoch g) a) = rmap (rename_spec (reepoch g)) (version_set_to_specifier a).
Proof. exact (fun G => f_specifier _ (reepoch_in_order g G) a). Qed.
Print Assumptions C127_specifier.

Theorem C127_simplify g s : increasing g -> simplify (rename_spec (reepoch g) s) = rmap (rename_spec (reepoch g)) (simplify s).
Proof. exact (fun G => f_simplify _ (reepoch_in_order g G) s (fun t w _ => f_follows g t w)). Qed.
Print Assumptions C127_simplify.

(** Bumping a version and its next breaking versions, for any change of epochs. *)
Theorem C127_bumps g v i : next_at (reepoch g v) i = rmap (reepoch g) (next_at v i)
  /\ next_caret_breaking (reepoch g v) = rmap (reepoch g) (next_caret_breaking v)
  /\ next_tilde_breaking (reepoch g v) = rmap (reepoch g) (next_tilde_breaking v)
  /\ next_tilde_equal_breaking (reepoch g v) = rmap (reepoch g) (next_tilde_equal_breaking v)
  /\ next_wildcard_breaking (reepoch g v) = rmap (option_map (reepoch g)) (next_wildcard_breaking v).
Proof. exact (conj (f_next_at g v i) (conj (f_caret g v) (conj (f_tilde g v) (conj (f_tilde_equal g v) (f_wildcard g v))))). Qed.
Print Assumptions C127_bumps.

(** Tripled epochs, with one specifier that converts and one that does not. *)
Example C127_case : let g e := 3 * e + 1 in increasing g
  /\ (exists s u v w, parse_specifier (lit "^1.2 || >=2!3.0, !=2!3.5") = Ok s /\ parse_specifier (lit "^1!1.2 || >=7!3.0, !=7!3.5") = Ok u /\ rename_spec (reepoch g) s = u
      /\ parse_version (lit "1.5") = Ok v /\ parse_version (lit "1!1.5") = Ok w /\ reepoch g v = w /\ accepts s v = Ok true /\ accepts u w = Ok true /\ accepts u v = Ok false
      /\ exists s' u', simplify s = Ok s' /\ simplify u = Ok u' /\ rename_spec (reepoch g) s' = u' /\ u' <> s')
  /\ exists s u, parse_specifier (lit "==1||>1||>=0") = Ok s /\ parse_specifier (lit "==1!1||>1!1||>=1!0") = Ok u /\ rename_spec (reepoch g) s = u
      /\ simplify s = Err RecursionError /\ simplify u = Err RecursionError.
Proof.
  cbv zeta. split; [intros a b H; lia|]. split.
  - do 4 eexists. do 6 (split; [vm_compute; reflexivity|]). do 3 (split; [vm_compute; reflexivity|]). do 2 eexists. do 3 (split; [vm_compute; reflexivity|]). discriminate.
  - do 2 eexists. do 4 (split; [vm_compute; reflexivity|]). vm_compute; reflexivity.
Qed.

(** An order of epochs that is not kept. *)
Example C127_needed : exists s v, parse_specifier (lit "<1!1") = Ok s /\ parse_version (lit "2") = Ok v
  /\ accepts s v = Ok true /\ accepts (rename_spec (reepoch (fun _ => 0)) s) (reepoch (fun _ => 0) v) = Ok false.
Proof. do 2 eexists. split; [vm_compute; reflexivity|]. split; [vm_compute; reflexivity|]. split; vm_compute; reflexivity. Qed.
