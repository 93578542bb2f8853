(** Theorems about classes, operators as objects, the boundaries of ranges and
    [ItemsDifference]: C76-C80. *)

From Coq Require Import List ZArith NArith String Bool.
From Verif Require Import Py Segments Version VersionSets Operators SetStrings Specifiers Parsers Spec OrderFacts Clauses
  SetVersions SetTheorems RangeSpec Classes ClassSpec Stepper ClassFacts RangeShape StepperFacts.
Import ListNotations.
Open Scope Z_scope.

Definition ver (r : list Z) : version := bare 0 r.

(** ** C76 Representations tell objects apart *)

Theorem C76_total o : written_obj o -> exists s r, obj_str o = Ok s /\ obj_repr o = Ok r.
Proof. exact (repr_total o). Qed.
Print Assumptions C76_total.

(** Sets that exclude a single version are equal, but one bound may have been
    built with that version spelled differently. *)
Theorem C76_names o o' : written_obj o -> written_obj o' -> obj_repr o = obj_repr o' ->
  o = o' \/ exists a b, o = OSet a /\ o' = OSet b /\ set_eqb a b = true /\ hole a /\ hole b.
Proof. exact (repr_names o o'). Qed.
Print Assumptions C76_names.

(** The empty set and the set of version 0 have the same string. *)
Example C76_case :
  obj_str (OSet Empty) = obj_str (OSet (Item (Point (ver [0]))))
  /\ obj_repr (OSet Empty) = Ok (lit "<VersionEmpty (0)>")
  /\ obj_repr (OVersion (ver [1; 0])) = Ok (lit "<Version (1.0)>")
  /\ obj_repr (ORelease [1; 0]) = Ok (lit "<Release (1.0)>")
  /\ obj_repr (OOperator EQUAL (ver [1; 0])) = Ok (lit "<Operator (= 1.0)>")
  /\ obj_repr (OSpec (One EQUAL (ver [1; 0]))) = Ok (lit "<SpecifierOne (= 1.0)>")
  /\ obj_repr (OSet (Item (Point (ver [0])))) = Ok (lit "<VersionPoint (0)>").
Proof. repeat split; vm_compute; reflexivity. Qed.

(** ** C77 Guards tell kinds apart *)

Theorem C77_sets o :
  (is_version_set o = true <-> exists a, o = OSet a)
  /\ (is_version_empty o = true <-> o = OSet Empty)
  /\ (is_version_point o = true <-> exists v, o = OSet (Item (Point v)))
  /\ (is_version_range o = true <-> exists i, o = OSet (Item i))
  /\ (is_version_item o = true <-> exists i, o = OSet (Item i))
  /\ (is_version_union o = true <-> exists items, o = OSet (Union items)).
Proof. exact (set_guards o). Qed.
Print Assumptions C77_sets.

Theorem C77_specifiers o :
  (is_specifier o = true <-> exists s, o = OSpec s)
  /\ (is_specifier_never o = true <-> o = OSpec Never)
  /\ (is_specifier_always o = true <-> o = OSpec Always)
  /\ (is_specifier_one o = true <-> exists t v, o = OSpec (One t v))
  /\ (is_specifier_any o = true <-> exists ss, o = OSpec (AnyOf ss))
  /\ (is_specifier_all o = true <-> exists ss, o = OSpec (AllOf ss)).
Proof. exact (specifier_guards o). Qed.
Print Assumptions C77_specifiers.

(** A specification is what has [accepts]. *)
Theorem C77_specifications o v : (forall s, o = OSpec s -> spec_made s) ->
  (is_specification o = true <-> exists b, obj_accepts o v = Ok b)
  /\ (is_specification o = false <-> obj_accepts o v = Err AttributeError)
  /\ is_specification o = is_specifier o || is_version_set o.
Proof. exact (specification_guard o v). Qed.
Print Assumptions C77_specifications.

(** An operator has [matches] but not [accepts]; a specifier made of it has both. *)
Example C77_case :
  is_specification (OOperator EQUAL (ver [1])) = false /\ obj_accepts (OOperator EQUAL (ver [1])) (ver [1]) = Err AttributeError
  /\ is_specification (OSpec (One EQUAL (ver [1]))) = true /\ obj_accepts (OSpec (One EQUAL (ver [1]))) (ver [1]) = Ok true
  /\ is_version_range (OSet (Item (Point (ver [1])))) = true /\ is_version_union (OSet (Item (Point (ver [1])))) = false.
Proof. repeat split; vm_compute; reflexivity. Qed.

(** ** C78 Operator class methods and predicates *)

(** Each class method makes the operator that its name stands for, fails where
    that operator cannot be built, and goes with one predicate. *)
Theorem C78_methods n new is : In (n, new, is) op_methods -> exists t,
  In (n, op_value t) SYMBOLS
  /\ (forall one v, op_made t v -> new one v = Ok (if one : bool then OSpec (One t v) else OOperator t v))
  /\ (forall one v, valid_version v = true -> ~ op_made t v -> new one v = Err ValueError)
  /\ is t = true /\ (forall u, is u = true -> u = t).
Proof. exact (methods_symbols n new is). Qed.
Print Assumptions C78_methods.

(** Every operator type has a class method and a predicate, and only one. *)
Theorem C78_all t : exists n new is, In (n, new, is) op_methods /\ is t = true
  /\ forall n' new' is', In (n', new', is') op_methods -> is' t = true -> n' = n.
Proof. exact (methods_all t). Qed.
Print Assumptions C78_all.

Theorem C78_kinds t :
  (op_is_wildcard t = true <-> exists s, op_value t = s ++ lit "*")
  /\ (op_is_unary t = true <-> List.length (op_string t) = 1%nat /\ In (op_string t) [lit "^"; lit "~"])
  /\ (op_value t = op_string t \/ op_value t = op_string t ++ lit "*").
Proof. exact (kinds t). Qed.
Print Assumptions C78_kinds.

(** An operator type is found by its symbol, and by nothing else. *)
Theorem C78_lookup s : (forall t, op_of_value s = Ok t <-> op_value t = s)
  /\ ((forall n, ~ In (n, s) SYMBOLS) -> op_of_value s = Err ValueError) /\ (forall n, In (n, s) SYMBOLS -> exists t, op_of_value s = Ok t).
Proof. exact (lookup s). Qed.
Print Assumptions C78_lookup.

Example C78_lookup_case : op_of_value (lit "~=") = Ok TILDE_EQUAL /\ op_of_value (lit "!=*") = Ok WILDCARD_NOT_EQUAL /\ op_of_value (lit "=<") = Err ValueError
  /\ In (lit "tilde_equal", lit "~=") SYMBOLS /\ forall n, ~ In (n, lit "=<") SYMBOLS.
Proof. repeat split; try (vm_compute; reflexivity); [cbn; tauto|]. intros n I. cbn [SYMBOLS In] in I. repeat destruct I as [[=]|I]; destruct I. Qed.

(** The predicates are there on operators and on specifiers made of one, only. *)
Theorem C78_predicates p o : ((exists b, op_predicate p o = Ok b) <-> is_instance o KOperator = true)
  /\ (is_instance o KOperator = false -> op_predicate p o = Err AttributeError).
Proof. exact (predicates p o). Qed.
Print Assumptions C78_predicates.

(** What a class method makes answers yes to the predicate of the same name and
    no to the others. *)
Theorem C78_predicate_answers n new is n' new' is' one v o :
  In (n, new, is) op_methods -> In (n', new', is') op_methods -> new one v = Ok o ->
  exists b, op_predicate is' o = Ok b /\ (b = true <-> n' = n).
Proof. exact (predicate_answers n new is n' new' is' one v o). Qed.
Print Assumptions C78_predicate_answers.

(** [partial_matches] and [matches] decide what the operator stands for. *)
Theorem C78_matches t w v : op_made t w -> exists b,
  partial_matches t w v = Ok b /\ operator_matches t v w = Ok b /\ (b = true <-> op_sat t w v).
Proof. exact (partial_sat t w v). Qed.
Print Assumptions C78_matches.

(** So does the set that [translate] gives, unless it fails (C35). *)
Theorem C78_translate t w : ordinary w -> op_made t w -> ~ op_stuck t w ->
  exists a, operator_translate t w = Ok a /\ canonical a /\ forall v, contains a v = true <-> op_sat t w v.
Proof. exact (translate_sat t w). Qed.
Print Assumptions C78_translate.

Example C78_case :
  new_caret true (ver [1; 2]) = Ok (OSpec (One CARET (ver [1; 2])))
  /\ new_tilde_equal false (ver [1; 2]) = Ok (OOperator TILDE_EQUAL (ver [1; 2]))
  /\ new_tilde_equal false (ver [1]) = Err ValueError
  /\ partial_matches TILDE_EQUAL (ver [1; 2]) (ver [1; 5]) = Ok true
  /\ partial_matches TILDE_EQUAL (ver [1; 2]) (ver [2; 0]) = Ok false
  /\ operator_translate TILDE_EQUAL (ver [1; 2]) = Ok (Item (Range (Some (ver [1; 2])) (Some (ver [2; 0])) true false)).
Proof. repeat split; vm_compute; reflexivity. Qed.

(** ** C79 What the boundary predicates of ranges say *)

(** A range is closed on a side iff its members have a lowest, a highest one. *)
Theorem C79_closed i : good_item i -> Forall worded (item_bounds i) ->
  (is_left_closed i = true <-> exists v, least worded i v) /\ (is_right_closed i = true <-> exists v, greatest worded i v)
  /\ (is_closed i = true <-> (exists v, least worded i v) /\ exists v, greatest worded i v)
  /\ (is_left_open i = true <-> ~ exists v, least worded i v) /\ (is_right_open i = true <-> ~ exists v, greatest worded i v)
  /\ (is_open i = true <-> (~ exists v, least worded i v) /\ ~ exists v, greatest worded i v).
Proof. exact (shape i). Qed.
Print Assumptions C79_closed.

(** It is unbounded on a side iff everything on that side of a member is one. *)
Theorem C79_bounded i : good_item i -> Forall worded (item_bounds i) ->
  (is_left_unbounded i = true <-> downward worded i) /\ (is_right_unbounded i = true <-> upward worded i)
  /\ (is_unbounded i = true <-> downward worded i /\ upward worded i)
  /\ (is_left_bounded i = true <-> ~ downward worded i) /\ (is_right_bounded i = true <-> ~ upward worded i)
  /\ (is_bounded i = true <-> ~ downward worded i /\ ~ upward worded i).
Proof. exact (bounded i). Qed.
Print Assumptions C79_bounded.

Theorem C79_single i : made i -> Forall worded (item_bounds i) ->
  is_empty_or_point i = true <-> forall u v, worded u -> worded v -> in_item i u -> in_item i v -> v_eq u v = true.
Proof. exact (empty_or_point i). Qed.
Print Assumptions C79_single.

(** Which ranges the constructor accepts are points, which are empty, and what
    [version] gives. *)
Theorem C79_point i : made i -> Forall worded (item_bounds i) ->
  (item_is_point i = true <-> exists u, worded u /\ forall v, worded v -> (in_item i v <-> v_eq u v = true))
  /\ (item_is_empty i = true <-> forall v, worded v -> ~ in_item i v)
  /\ (forall u, item_version i = Ok u -> worded u /\ item_is_point i = true /\ in_item i u)
  /\ (forall e, item_version i = Err e <-> e = ValueError /\ item_is_point i = false).
Proof. exact (point_or_empty i). Qed.
Print Assumptions C79_point.

Lemma ver_worded r : r <> [] -> worded (ver r).
Proof. intros N. split; [|exact I]. destruct r; [congruence|reflexivity]. Qed.

(** [>= 1, < 2] has a lowest member and no highest one. *)
Example C79_case : let i := Range (Some (ver [1])) (Some (ver [2])) true false in
  is_left_closed i = true /\ is_right_open i = true
  /\ (exists v, least worded i v) /\ ~ (exists v, greatest worded i v) /\ ~ downward worded i.
Proof.
  intros i. assert (W : Forall worded (item_bounds i)) by (constructor; [apply ver_worded; discriminate|constructor; [apply ver_worded; discriminate|constructor]]).
  assert (G : good_item i) by (split; [discriminate|split; [discriminate|reflexivity]]).
  destruct (C79_closed i G W) as (A & _ & _ & _ & B & _), (C79_bounded i G W) as (_ & _ & _ & D & _).
  split; [reflexivity|]. split; [reflexivity|]. split; [now apply A|]. split; [now apply B|now apply D].
Qed.

Example C79_point_case : let i c d := Range (Some (ver [1])) (Some (ver [1; 0])) c d in
  made (i true true) /\ item_is_point (i true true) = true /\ item_version (i true true) = Ok (ver [1])
  /\ made (i true false) /\ item_is_empty (i true false) = true /\ item_version (i true false) = Err ValueError
  /\ ~ in_item (i true false) (ver [1]).
Proof.
  intros i. repeat (split; [reflexivity|]). intros [_ X]. vm_compute in X. discriminate.
Qed.

(** ** C80 The life cycle of [ItemsDifference] *)

(** [compute] gives the difference (see C28) once; afterwards it refuses, and
    so does [prepare]. *)
Theorem C80_compute items others :
  rmap snd (st_compute (stepper_new items others)) = items_difference items others
  /\ forall s q r, st_compute s = Ok (q, r) -> st_prepared s = false /\ r = st_result q /\ st_compute q = Err ValueError /\ st_prepare q = Err ValueError.
Proof. exact (conj (compute_new items others) compute_once). Qed.
Print Assumptions C80_compute.

(** Before [prepare] nothing can be computed, and it can be called once. *)
Theorem C80_prepare items others : let s := stepper_new items others in
  st_step s = Err ValueError /\ (forall n, st_loop (S n) s = Err ValueError)
  /\ exists p, st_prepare s = Ok p /\ is_prepared p = true /\ st_prepare p = Err ValueError.
Proof. exact (unprepared items others). Qed.
Print Assumptions C80_prepare.

(** Stepping by hand until the first [False] gives the same. *)
Theorem C80_steps items others p q r : st_prepare (stepper_new items others) = Ok p -> steps p q -> st_step q = Ok (r, false) ->
  items_difference items others = Ok (st_result r).
Proof. exact (by_hand items others p q r). Qed.
Print Assumptions C80_steps.

(** The steps before that are at most as many as there are items. *)
Theorem C80_bound items others p q n : st_prepare (stepper_new items others) = Ok p -> step_count p q n ->
  (n < List.length items + List.length others \/ n = 0)%nat.
Proof. exact (steps_bound items others p q n). Qed.
Print Assumptions C80_bound.

(** One more step after the end may add an item again. *)
Theorem C80_again_refuted : exists items others q r q', st_compute (stepper_new items others) = Ok (q, r)
  /\ st_step q = Ok (q', false) /\ st_result q' <> r.
Proof.
  exists [Point (ver [1])], [Point (ver [2])]. do 3 eexists. split; [vm_compute; reflexivity|]. split; [vm_compute; reflexivity|].
  vm_compute. discriminate.
Qed.
Print Assumptions C80_again_refuted.

Example C80_case : let i := Range (Some (ver [1])) (Some (ver [5])) true false in
  st_compute (stepper_new [i] [Point (ver [2])])
  = Ok (Stepper (DState [] [] (Some (Range (Some (ver [2])) (Some (ver [5])) false false)) None
                        [Range (Some (ver [1])) (Some (ver [2])) true false; Range (Some (ver [2])) (Some (ver [5])) false false]) true,
        [Range (Some (ver [1])) (Some (ver [2])) true false; Range (Some (ver [2])) (Some (ver [5])) false false]).
Proof. vm_compute. reflexivity. Qed.
