(** Theorems about comparison operators on objects, segments on their own,
    accessors and constructors, Python's version, the command line and [repr]:
    C58-C66. *)

From Coq Require Import List ZArith NArith String Bool.
From Verif Require Import Py Segments Version Spec Grammar SegmentSpec Regex Patterns Parsers Rich Meta
  OrderFacts BumpFacts RichFacts AccessFacts MetaFacts.
Import ListNotations.
Open Scope Z_scope.

(** ** C58 *)

(** The operators run on the objects never raise between versions, and give
    the answers of the single three-way comparison. *)
Theorem C58_operators v w :
  rich OpLt (version_value v) (version_value w) = Ok (v_lt v w)
  /\ rich OpLe (version_value v) (version_value w) = Ok (v_le v w)
  /\ rich OpGt (version_value v) (version_value w) = Ok (v_gt v w)
  /\ rich OpGe (version_value v) (version_value w) = Ok (v_ge v w)
  /\ rich OpEq (version_value v) (version_value w) = Ok (v_eq v w)
  /\ rich OpNe (version_value v) (version_value w) = Ok (v_ne v w).
Proof. exact (version_operators v w). Qed.
Print Assumptions C58_operators.

Theorem C58_order v w : ordinary v -> ordinary w ->
  (rich OpLt (version_value v) (version_value w) = Ok true <-> before v w)
  /\ (rich OpEq (version_value v) (version_value w) = Ok true <-> same v w).
Proof. exact (rich_before v w). Qed.
Print Assumptions C58_order.

(** The infinities are the ends of the order of any objects, from either side. *)
Theorem C58_infinities x :
  rich OpLe VNegInfinity x = Ok true /\ rich OpGe x VNegInfinity = Ok true
  /\ rich OpLe x VInfinity = Ok true /\ rich OpGe VInfinity x = Ok true
  /\ (rich OpEq x VInfinity = Ok true <-> x = VInfinity)
  /\ (rich OpEq x VNegInfinity = Ok true <-> x = VNegInfinity)
  /\ forall o, (exists b, rich o x VInfinity = Ok b /\ rich (reflected o) VInfinity x = Ok b)
            /\ (exists b, rich o x VNegInfinity = Ok b /\ rich (reflected o) VNegInfinity x = Ok b).
Proof. exact (infinity_ends x). Qed.
Print Assumptions C58_infinities.

(** A version is unequal to what is not a version, and is not ordered with it. *)
Theorem C58_others v y :
  match y with VInfinity | VNegInfinity | VObject CVersion _ => False | _ => True end ->
  rich OpEq (version_value v) y = Ok false /\ rich OpNe (version_value v) y = Ok true
  /\ rich OpLt (version_value v) y = Err TypeError /\ rich OpGt (version_value v) y = Err TypeError
  /\ rich OpLe (version_value v) y = Err TypeError /\ rich OpGe (version_value v) y = Err TypeError.
Proof. exact (version_other v y). Qed.
Print Assumptions C58_others.

(** 1.0.dev0 < 1.0a1: the pre-release tag is compared with negative infinity. *)
Example C58_case :
  let v := Version 0 [1; 0] None None (Some (Tag (lit "dev") 0)) None in
  let w := Version 0 [1] (Some (Tag (lit "alpha") 1)) None None None in
  rich OpLt (version_value v) (version_value w) = Ok true
  /\ rich OpGt (version_value w) (version_value v) = Ok true
  /\ rich OpEq (version_value v) (VInt 1) = Ok false
  /\ rich OpLt (VTuple [VInt 1; VInfinity]) (VTuple [VInt 1; VStr []]) = Ok false
  /\ rich OpLt (VTuple [VInt 1]) (VTuple [VStr []]) = Err TypeError.
Proof. now vm_compute. Qed.

(** ** C59 *)

Theorem C59_segments o v :
  (forall e f, rich o (epoch_value e) (epoch_value f)
     = rich o (version_value (set_epoch v e)) (version_value (set_epoch v f)))
  /\ (forall r s, rich o (release_value r) (release_value s)
     = rich o (version_value (set_release v r)) (version_value (set_release v s)))
  /\ (forall t u, rich o (tag_value PreTag t) (tag_value PreTag u)
     = rich o (version_value (with_pre v t)) (version_value (with_pre v u)))
  /\ (forall t u, rich o (tag_value PostTag t) (tag_value PostTag u)
     = rich o (version_value (with_post v t)) (version_value (with_post v u)))
  /\ (forall t u, rich o (tag_value DevTag t) (tag_value DevTag u)
     = rich o (version_value (with_dev v t)) (version_value (with_dev v u)))
  /\ (forall l m, rich o (local_value l) (local_value m)
     = rich o (version_value (with_local v l)) (version_value (with_local v m))).
Proof. exact (segments_alone o v). Qed.
Print Assumptions C59_segments.

Theorem C59_release r s : r <> [] -> s <> [] -> Forall (fun x => 0 <= x) r -> Forall (fun x => 0 <= x) s ->
  (rich OpLt (release_value r) (release_value s) = Ok true <-> rel_before r s)
  /\ (rich OpEq (release_value r) (release_value s) = Ok true <-> rel_same r s).
Proof. exact (release_rich r s). Qed.
Print Assumptions C59_release.

Theorem C59_tags t u :
  (valid_tag PreTag t = true -> valid_tag PreTag u = true ->
     rich OpLt (tag_value PreTag t) (tag_value PreTag u) = Ok true <-> tag_before PHASE_ORDER t u)
  /\ (valid_tag PostTag t = true -> valid_tag PostTag u = true ->
     rich OpLt (tag_value PostTag t) (tag_value PostTag u) = Ok true <-> tag_before POST_ORDER t u)
  /\ (valid_tag DevTag t = true -> valid_tag DevTag u = true ->
     rich OpLt (tag_value DevTag t) (tag_value DevTag u) = Ok true <-> tag_before [] t u)
  /\ forall c, rich OpEq (tag_value c t) (tag_value c u) = Ok true <-> t = u.
Proof. exact (tag_rich t u). Qed.
Print Assumptions C59_tags.

Theorem C59_tags_apart c d t u : c <> d ->
  rich OpEq (tag_value c t) (tag_value d u) = Ok false /\ rich OpLt (tag_value c t) (tag_value d u) = Err TypeError.
Proof. exact (tags_apart c d t u). Qed.
Print Assumptions C59_tags_apart.

Theorem C59_local l m :
  (rich OpLt (local_value l) (local_value m) = Ok true <-> dict_before part_before l m)
  /\ (rich OpEq (local_value l) (local_value m) = Ok true <-> l = m).
Proof. exact (local_rich l m). Qed.
Print Assumptions C59_local.

Example C59_case :
  rich OpEq (release_value [1; 0]) (release_value [1; 0; 0]) = Ok true
  /\ rich OpLt (release_value [1; 9]) (release_value [1; 10]) = Ok true
  /\ rich OpLt (tag_value PreTag (Tag (lit "beta") 7)) (tag_value PreTag (Tag (lit "rc") 0)) = Ok true
  /\ rich OpLt (local_value [LStr (lit "a")]) (local_value [LInt 0]) = Ok true.
Proof. now vm_compute. Qed.

(** ** C60 *)

Theorem C60_order mj mn mc ph x mj' mn' mc' ph' x' :
  python_tuple mj mn mc ph x -> python_tuple mj' mn' mc' ph' x' ->
  exists v w, python_version_info mj mn mc ph x = Ok v /\ python_version_info mj' mn' mc' ph' x' = Ok w
    /\ (v_lt v w = true <-> dict_before Z.lt (numbered mj mn mc ph x) (numbered mj' mn' mc' ph' x'))
    /\ (v_eq v w = true <-> (mj, mn, mc, ph, x) = (mj', mn', mc', ph', x')).
Proof. exact (python_order mj mn mc ph x mj' mn' mc' ph' x'). Qed.
Print Assumptions C60_order.

Example C60_case :
  python_tuple 3 12 0 (lit "candidate") 2 /\ python_tuple 3 12 0 (lit "final") 0
  /\ python_version_info 3 12 0 (lit "candidate") 2
     = Ok (Version 0 [3; 12; 0] (Some (Tag (lit "rc") 2)) None None None)
  /\ python_version_info 3 12 0 (lit "final") 0 = Ok (bare 0 [3; 12; 0])
  /\ v_lt (Version 0 [3; 12; 0] (Some (Tag (lit "rc") 2)) None None None) (bare 0 [3; 12; 0]) = true.
Proof.
  split; [|split; [|now vm_compute]]; (do 4 (split; [discriminate|])); (split; [cbn; tauto|]); [discriminate|reflexivity].
Qed.

(** ** C61 *)

Theorem C61_main mj mn mc ph x : python_tuple mj mn mc ph x ->
  exists info py, version_info = Ok info /\ python_version_info mj mn mc ph x = Ok py
    /\ forall python normal, exists s,
      main info py true python normal = Ok s
      /\ parse_version s = Ok (if python then py else info)
      /\ main info py false python normal = Ok ((if python then lit "python" else lit "versions") ++ lit " " ++ s).
Proof. exact (main_prints mj mn mc ph x). Qed.
Print Assumptions C61_main.

Example C61_case :
  version_info = Ok (bare 0 [2; 1; 2])
  /\ main (bare 0 [2; 1; 2]) (bare 0 [3; 11; 4]) false true false = Ok (lit "python 3.11.4")
  /\ main (bare 0 [2; 1; 2]) (Version 0 [3; 13; 0] (Some (Tag (lit "rc") 1)) None None None) true true true
     = Ok (lit "3.13.0rc1").
Proof. now vm_compute. Qed.

(** ** C62 *)

Theorem C62_repr v w : wf v -> wf w -> version_repr v = version_repr w <-> v = w.
Proof. exact (version_repr_inj v w). Qed.
Print Assumptions C62_repr.

Theorem C62_string v w : wf v -> wf w -> to_string v = to_string w -> v = w.
Proof. exact (to_string_inj v w). Qed.
Print Assumptions C62_string.

(** The name of the class, which contains no space, and the string can be
    read off any representation. *)
Theorem C62_names (wrap : pstr -> bool) n m s t : ~ In 32%N n -> ~ In 32%N m ->
  represent (wrap n) n s = represent (wrap m) m t -> n = m /\ s = t.
Proof. exact (represent_inj wrap n m s t). Qed.
Print Assumptions C62_names.

Example C62_case :
  version_repr (Version 0 [1; 0] (Some (Tag (lit "candidate") 1)) None None None) = lit "<Version (1.0-candidate.1)>"
  /\ represent false (lit "SpecifierAny") (lit "x") = lit "<SpecifierAny x>".
Proof. now vm_compute. Qed.

(** ** C63 *)

Theorem C63_reading v : v_release v <> [] ->
  major v = Ok (part (v_release v) 0) /\ minor v = Ok (part (v_release v) 1) /\ micro v = Ok (part (v_release v) 2)
  /\ precision v = Z.of_nat (List.length (v_release v)) /\ last_index v = precision v - 1
  /\ get_at v (last_index v) 0 = get_at v (-1) 0.
Proof. exact (reading_parts v). Qed.
Print Assumptions C63_reading.

Theorem C63_extra v : exists head, v_release v = head ++ extra v
  /\ List.length head = Nat.min 3 (List.length (v_release v)).
Proof. exact (extra_parts v). Qed.
Print Assumptions C63_extra.

Theorem C63_has v i :
  (has_at v i = true <-> i < Z.of_nat (List.length (v_release v)))
  /\ (has_major v = true <-> (0 < List.length (v_release v))%nat)
  /\ (has_minor v = true <-> (1 < List.length (v_release v))%nat)
  /\ (has_micro v = true <-> (2 < List.length (v_release v))%nat)
  /\ (has_extra v = true <-> (3 < List.length (v_release v))%nat)
  /\ (has_extra v = true <-> extra v <> []).
Proof. exact (has_parts v i). Qed.
Print Assumptions C63_has.

(** Indices count from either end; the others raise. *)
Theorem C63_get_unchecked v :
  (forall k, (k < List.length (v_release v))%nat ->
     get_at_unchecked v (Z.of_nat k) = Ok (part (v_release v) k)
     /\ get_at_unchecked v (Z.of_nat k - len (v_release v)) = Ok (part (v_release v) k))
  /\ (forall i, i < - len (v_release v) \/ len (v_release v) <= i -> get_at_unchecked v i = Err IndexError).
Proof. exact (get_unchecked v). Qed.
Print Assumptions C63_get_unchecked.

Theorem C63_set_unchecked v x : v_release v <> [] ->
  (forall k, (k < List.length (v_release v))%nat -> exists r,
     set_at_unchecked v (Z.of_nat k) x = Ok (set_release v r)
     /\ set_at_unchecked v (Z.of_nat k - len (v_release v)) x = Ok (set_release v r)
     /\ List.length r = List.length (v_release v)
     /\ forall n, part r n = if (n =? k)%nat then x else part (v_release v) n)
  /\ (forall i, i < - len (v_release v) \/ len (v_release v) <= i -> set_at_unchecked v i x = Err IndexError).
Proof. exact (set_unchecked v x). Qed.
Print Assumptions C63_set_unchecked.

Theorem C63_negative v i x : v_release v <> [] -> i < 0 ->
  get_at v i x = get_at_unchecked v i /\ set_at v i x = set_at_unchecked v i x.
Proof. exact (negative_index v i x). Qed.
Print Assumptions C63_negative.

Theorem C63_slice v :
  (forall k, (0 < k)%nat -> v_release v <> [] -> slice v (Z.of_nat k) = Ok (set_release v (firstn k (v_release v))))
  /\ (forall k, (0 < k < List.length (v_release v))%nat ->
        slice v (Z.of_nat k - len (v_release v)) = Ok (set_release v (firstn k (v_release v))))
  /\ (forall i, i = 0 \/ i <= - len (v_release v) -> slice v i = Err ValueError).
Proof. exact (slice_parts v). Qed.
Print Assumptions C63_slice.

Theorem C63_determine v w :
  (forall i, 0 <= i -> get_at v i 0 = get_at w i 0) <-> rel_same (v_release v) (v_release w).
Proof. exact (parts_determine v w). Qed.
Print Assumptions C63_determine.

Example C63_case :
  let v := bare 0 [1; 2; 3; 4; 5] in
  extra v = [4; 5] /\ has_extra v = true /\ get_at_unchecked v (-2) = Ok 4 /\ get_at_unchecked v 5 = Err IndexError
  /\ get_at v 5 9 = Ok 9 /\ get_at v (-6) 9 = Err IndexError
  /\ slice v 2 = Ok (bare 0 [1; 2]) /\ slice v (-1) = Ok (bare 0 [1; 2; 3; 4]) /\ slice v 0 = Err ValueError
  /\ set_at v (-1) 7 = Ok (bare 0 [1; 2; 3; 4; 7]) /\ minor (bare 0 [1]) = Ok 0.
Proof. now vm_compute. Qed.

(** ** C64 *)

Theorem C64_tags c o x :
  tag_create c o x =
    match o with
    | None => Ok (Tag (match c with AnyTag | PreTag => lit "alpha" | PostTag => lit "post" | DevTag => lit "dev" end) x)
    | Some w => if str_in w (tag_words c) then Ok (Tag (long_form w) x) else Err ValueError
    end.
Proof. exact (tag_create_exact c o x). Qed.
Print Assumptions C64_tags.

Theorem C64_tags_valid c o x t : tag_create c o x = Ok t -> valid_tag c t = true /\ value t = x.
Proof. exact (tag_created_valid c o x t). Qed.
Print Assumptions C64_tags_valid.

Theorem C64_tag_updates c t : valid_tag c t = true ->
  (forall x, tag_set_value c t x = Ok (Tag (phase t) x))
  /\ (forall w, tag_set_phase c t w = if str_in w (tag_words c) then Ok (Tag (long_form w) (value t)) else Err ValueError)
  /\ tag_next c t = Ok (Tag (phase t) (value t + 1)).
Proof. exact (tag_updates c t). Qed.
Print Assumptions C64_tag_updates.

Theorem C64_versions e r p q d l :
  create e r p q d l = Version (match e with None => 0 | Some e => e end) (match r with None => [0; 0; 0] | Some r => r end) p q d l
  /\ from_parts [] e p q d l = Err ValueError
  /\ (forall x xs, from_parts (x :: xs) e p q d l = Ok (create e (Some (x :: xs)) p q d l)).
Proof. exact (created e r p q d l). Qed.
Print Assumptions C64_versions.

Theorem C64_again v : v_release v <> [] ->
  from_parts (v_release v) (Some (v_epoch v)) (v_pre v) (v_post v) (v_dev v) (v_local v) = Ok v
  /\ create (Some (v_epoch v)) (Some (v_release v)) (v_pre v) (v_post v) (v_dev v) (v_local v) = v.
Proof. exact (recreated v). Qed.
Print Assumptions C64_again.

Theorem C64_valid e r p q d l : r <> Some [] -> l <> Some [] ->
  valid_otag PreTag p = true -> valid_otag PostTag q = true -> valid_otag DevTag d = true ->
  valid_version (create e r p q d l) = true.
Proof. exact (created_valid e r p q d l). Qed.
Print Assumptions C64_valid.

Example C64_case :
  tag_create PreTag (Some (lit "c")) 3 = Ok (Tag (lit "candidate") 3)
  /\ tag_create PostTag (Some (lit "alpha")) 3 = Err ValueError
  /\ tag_create AnyTag (Some (lit "r")) 1 = Ok (Tag (lit "rev") 1)
  /\ tag_create PreTag (Some (lit "Alpha")) 3 = Err ValueError
  /\ tag_create DevTag None 4 = Ok (Tag (lit "dev") 4).
Proof. now vm_compute. Qed.

(** ** C65 *)

Theorem C65_weaken v w : weaken v w =
  Version (v_epoch w) (v_release w) (v_pre w)
    (match v_post v with None => None | Some _ => v_post w end) (v_dev w)
    (match v_local v with None => None | Some _ => v_local w end).
Proof. exact (weaken_shape v w). Qed.
Print Assumptions C65_weaken.

(** Weakening lowers a version, strictly if it drops anything. *)
Theorem C65_lowers v w : v_le (weaken v w) w = true /\ (v_eq (weaken v w) w = true <-> weaken v w = w).
Proof. exact (weaken_le v w). Qed.
Print Assumptions C65_lowers.

Theorem C65_laws v w x :
  weaken v (weaken v w) = weaken v w
  /\ weaken v (weaken x w) = weaken x (weaken v w)
  /\ weaken v v = v
  /\ (v_post v <> None -> v_local v <> None -> weaken v w = w).
Proof. exact (weaken_laws v w x). Qed.
Print Assumptions C65_laws.

Example C65_case :
  let w := Version 0 [1] None (Some (Tag (lit "post") 1)) None (Some [LInt 5]) in
  weaken (bare 0 [2]) w = bare 0 [1] /\ v_lt (weaken (bare 0 [2]) w) w = true
  /\ weaken (Version 0 [2] None (Some (Tag (lit "rev") 0)) None None) w
     = Version 0 [1] None (Some (Tag (lit "post") 1)) None None.
Proof. now vm_compute. Qed.

(** ** C66 *)

Theorem C66_tags c t : wf_tag c t -> parse_tag c (tag_to_string t) = Ok t /\ parse_tag c (tag_to_short_string t) = Ok t.
Proof. exact (tag_strings c t). Qed.
Print Assumptions C66_tags.

(** Exactly what [Tag.from_string] does with any string. *)
Theorem C66_tags_exact c s :
  (forall w n, spelled_tag s w n ->
     parse_tag c s = if str_in w (tag_words c) then Ok (Tag (long_form w) n) else Err ValueError)
  /\ ((forall w n, ~ spelled_tag s w n) -> parse_tag c s = Err ParseTagError).
Proof. exact (parse_tag_exact c s). Qed.
Print Assumptions C66_tags_exact.

Theorem C66_releases r : r <> [] -> Forall (fun x => 0 <= x) r -> rel_from_string (rel_to_string r) = Ok r.
Proof. exact (release_strings r). Qed.
Print Assumptions C66_releases.

Theorem C66_locals l : l <> [] -> Forall wf_part l -> local_from_string (local_to_string l) = Ok l.
Proof. exact (local_strings l). Qed.
Print Assumptions C66_locals.

Theorem C66_epochs e : 0 <= e -> py_int (str_int e) = Ok e.
Proof. exact (epoch_string e). Qed.
Print Assumptions C66_epochs.

Example C66_case :
  parse_tag AnyTag (lit "candidate.2") = Ok (Tag (lit "candidate") 2)
  /\ parse_tag PreTag (lit "rc") = Ok (Tag (lit "rc") 0)
  /\ parse_tag PreTag (lit "r1") = Err ValueError
  /\ parse_tag PreTag (lit "1") = Err ParseTagError
  /\ rel_from_string (lit "1.0.10") = Ok [1; 0; 10]
  /\ local_from_string (lit "ubuntu-1_02") = Ok [LStr (lit "ubuntu"); LInt 1; LInt 2].
Proof. now vm_compute. Qed.
