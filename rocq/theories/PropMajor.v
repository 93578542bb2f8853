(** C130: specifiers see major numbers only through comparisons and counting
    one up. *)

From Coq Require Import List ZArith NArith String Bool Lia.
From Verif Require Import Py Segments Version VersionSets Operators Specifiers Parsers Spec MixedSpec SpecifierFacts Normal EpochSpec ShapeFacts CommuteFacts MajorSpec MajorFacts.
Import ListNotations.
Local Open Scope Z_scope.

Theorem C130_accepts g s v : increasing g -> (forall t w, leaf t w s -> v_release w <> [] /\ counts g t w) ->
  accepts (rename_spec (remajor g) s) (remajor g v) = accepts s v.
Proof. exact (fun G H => f_accepts _ (remajor_in_order g G) s v (fun t w L => f_follows g t w (proj1 (H t w L)) (proj2 (H t w L)))). Qed.
Print Assumptions C130_accepts.

(** Converting fails alike, and gives the same set up to major numbers. *)
Theorem C130_converts g s : increasing g -> (forall t w, leaf t w s -> v_release w <> [] /\ counts g t w) ->
  specifier_to_version_set (rename_spec (remajor g) s) = rmap (renamed (remajor g)) (specifier_to_version_set s).
Proof. exact (fun G H => f_convert _ (remajor_in_order g G) s (fun t w L => f_follows g t w (proj1 (H t w L)) (proj2 (H t w L)))). Qed.
Print Assumptions C130_converts.

Theorem C130_specifier g a : increasing g -> version_set_to_specifier (renamed (remajor g) a) = rmap (rename_spec (remajor g)) (version_set_to_specifier a).
Proof. exact (fun G => f_specifier _ (remajor_in_order g G) a). Qed.
Print Assumptions C130_specifier.

Theorem C130_simplify g s : increasing g -> (forall t w, leaf t w s -> v_release w <> [] /\ counts g t w) ->
  simplify (rename_spec (remajor g) s) = rmap (rename_spec (remajor g)) (simplify s).
Proof. exact (fun G H => f_simplify _ (remajor_in_order g G) s (fun t w L => f_follows g t w (proj1 (H t w L)) (proj2 (H t w L)))). Qed.
Print Assumptions C130_simplify.

(** Adding to all major numbers of a parsed specifier, where ^ names no major
    number zero, and gets none. *)
Theorem C130_shift k text s v : parse_specifier text = Ok s ->
  (forall w, leaf CARET w s -> part (v_release w) 0 <> 0 /\ part (v_release w) 0 + k <> 0) ->
  accepts (rename_spec (remajor (fun a => a + k)) s) (remajor (fun a => a + k) v) = accepts s v.
Proof. exact (shifted k text s v). Qed.
Print Assumptions C130_shift.

(** Years as major numbers: the century is taken off. *)
Example C130_case : let g a := a - 2000 in increasing g
  /\ exists s u v w, parse_specifier (lit "^2022.2 || >=2030.1, !=2030.*") = Ok s /\ parse_specifier (lit "^22.2 || >=30.1, !=30.*") = Ok u
      /\ (forall t w, leaf t w s -> v_release w <> [] /\ counts g t w) /\ rename_spec (remajor g) s = u
      /\ parse_version (lit "2022.5") = Ok v /\ parse_version (lit "22.5") = Ok w /\ remajor g v = w /\ accepts s v = Ok true /\ accepts u w = Ok true /\ accepts u v = Ok true
      /\ exists s' u', simplify s = Ok s' /\ simplify u = Ok u' /\ rename_spec (remajor g) s' = u' /\ u' <> s'.
Proof.
  cbv zeta. split; [intros a b H; lia|]. do 4 eexists. do 2 (split; [vm_compute; reflexivity|]).
  split. { refine (proj1 (each_leaf (fun t w => v_release w <> [] /\ counts _ t w) _) _). vm_compute. repeat split; try discriminate; intros; discriminate. }
  do 7 (split; [vm_compute; reflexivity|]). do 2 eexists. do 3 (split; [vm_compute; reflexivity|]). discriminate.
Qed.

(** Neither condition can be left out: ^ at zero, and doubled numbers. *)
Example C130_needed : (exists s v, parse_specifier (lit "^0.1") = Ok s /\ parse_version (lit "0.2") = Ok v
    /\ accepts s v = Ok false /\ accepts (rename_spec (remajor (fun a => a + 1)) s) (remajor (fun a => a + 1) v) = Ok true)
  /\ increasing (fun a => 2 * a)
  /\ exists s v, parse_specifier (lit "~1") = Ok s /\ parse_version (lit "2a1") = Ok v
    /\ accepts s v = Ok true /\ accepts (rename_spec (remajor (fun a => 2 * a)) s) (remajor (fun a => 2 * a) v) = Ok false.
Proof.
  split; [|split; [intros a b H; lia|]]; do 2 eexists; (split; [vm_compute; reflexivity|]); (split; [vm_compute; reflexivity|]); split; vm_compute; reflexivity.
Qed.
