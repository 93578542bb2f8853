(** Lemmas for C105. *)

From Coq Require Import List ZArith NArith String Bool Lia.
From Verif Require Import Py Segments Version VersionSets Operators Specifiers Parsers Spec Clauses OperatorFacts SpecifierFacts SpecMeaning Cuts SetChains SetVersions SetAlgebra Rich RichFacts Classes Compare Dispatch
  Typed TypedSpec TypedFacts Foreign.
Import ListNotations.

(** ** Sets and versions *)

Lemma of_sets sets : obj_of (map OSet sets) = merge sets.
Proof.
  unfold obj_of, merge, merge_with. rewrite flat_map_extract_items.
  replace (flat_map obj_extract (map OSet sets)) with (flat_map extract sets); [reflexivity |].
  induction sets as [| a sets IH]; cbn; [reflexivity | now rewrite IH].
Qed.

Lemma on_sets a b :
  obj_includes a (OSet b) = Ok (includes a b) /\ obj_intersects a (OSet b) = Ok (intersects a b)
  /\ obj_intersection a (OSet b) = rmap OSet (intersection a b) /\ obj_union a (OSet b) = rmap OSet (union a b)
  /\ obj_difference a (OSet b) = rmap OSet (difference a b)
  /\ obj_symmetric_difference a (OSet b) = rmap OSet (symmetric_difference a b).
Proof.
  assert (I : obj_intersection a (OSet b) = rmap OSet (intersection a b)).
  { destruct a as [| [v | min max x y] | selfs]; try reflexivity.
    cbn. unfold union_intersection. destruct (intersection_loop selfs (extract b)); reflexivity. }
  assert (U : obj_union a (OSet b) = rmap OSet (union a b)).
  { destruct a as [| [v | min max x y] | selfs]; try reflexivity.
    cbn [obj_union union]. change [OSet (Union selfs); OSet b] with (map OSet [Union selfs; b]). now rewrite of_sets. }
  assert (D : forall c d, obj_difference c (OSet d) = rmap OSet (difference c d)).
  { intros c d. destruct c as [| [v | min max x y] | selfs]; try reflexivity.
    cbn. destruct (items_difference selfs (extract d)); reflexivity. }
  split; [| split; [| split; [exact I | split; [exact U | split; [apply D |]]]]].
  - destruct a as [| [v | min max x y] | selfs]; try reflexivity.
    cbn. destruct (is_empty b); [reflexivity |]. destruct b as [| [w |] |]; reflexivity.
  - destruct a as [| [v | min max x y] | selfs]; reflexivity.
  - destruct a as [| i | selfs]; try reflexivity. unfold obj_symmetric_difference, symmetric_difference. rewrite U, I.
    destruct (union (Item i) b) as [u | e]; cbn [bind rmap]; [| reflexivity].
    destruct (intersection (Item i) b) as [j | e]; cbn [bind rmap]; [apply D | reflexivity].
Qed.

Lemma version_contained i v : obj_item_contains i (OVersion v) = Ok (item_contains i v).
Proof.
  assert (R : forall w, obj_rich OpLt (OVersion v) (OVersion w) = Ok (v_lt v w) /\ obj_rich OpGt (OVersion v) (OVersion w) = Ok (v_gt v w)
    /\ obj_rich OpEq (OVersion v) (OVersion w) = Ok (v_eq v w)).
  { intros w. destruct (version_operators v w) as (A & _ & B & _ & C & _). now repeat split. }
  destruct i as [w | min max x y].
  - cbn [obj_item_contains item_contains]. destruct (version_operators w v) as (_ & _ & _ & _ & C & _). exact C.
  - unfold obj_item_contains, item_contains, comparable_min, comparable_max, i_exclude_min, i_exclude_max.
    cbn [i_min i_max i_include_min i_include_max].
    destruct min as [m |], max as [M |]; cbn [obj_min obj_max];
      rewrite ?(proj1 (R m)), ?(proj2 (proj2 (R m))), ?(proj1 (proj2 (R M))), ?(proj2 (proj2 (R M)));
      unfold v_lt, v_gt, v_eq; cbn -[v_cmp];
      destruct x, y; cbn -[v_cmp];
      repeat match goal with |- context [v_cmp ?a ?b] => destruct (v_cmp a b); cbn end; reflexivity.
Qed.

Lemma on_versions a v : obj_contains a (OVersion v) = Ok (contains a v).
Proof.
  destruct a as [| i | items]; cbn [obj_contains contains]; [reflexivity | apply version_contained |].
  induction items as [| i items IH]; cbn [obj_any existsb]; [reflexivity |].
  rewrite version_contained. cbn [bind]. now destruct (item_contains i v).
Qed.

(** ** Other objects *)

Definition no_set (x : obj) : Prop := forall a, x <> OSet a.
Definition no_version (x : obj) : Prop := forall v, x <> OVersion v.

Ltac foreign x H := destruct x; try (exfalso; now apply (H _ eq_refl)).

Lemma empty_foreign x : no_set x ->
  obj_includes Empty x = Err AttributeError /\ obj_intersects Empty x = Ok false
  /\ obj_intersection Empty x = Ok (OSet Empty) /\ obj_union Empty x = Ok x
  /\ obj_difference Empty x = Ok (OSet Empty) /\ obj_symmetric_difference Empty x = Ok x.
Proof. intros H. foreign x H; now repeat split. Qed.

Lemma point_foreign v x : no_set x ->
  obj_includes (Item (Point v)) x = Err AttributeError /\ obj_intersects (Item (Point v)) x = Err AttributeError
  /\ obj_intersection (Item (Point v)) x = Err AttributeError /\ obj_union (Item (Point v)) x = Err AttributeError
  /\ obj_difference (Item (Point v)) x = Err AttributeError /\ obj_symmetric_difference (Item (Point v)) x = Err AttributeError.
Proof. intros H. foreign x H; now repeat split. Qed.

Lemma range_foreign min max imin imax x : no_set x -> let a := Item (Range min max imin imax) in
  obj_includes a x = Err TypeError /\ obj_intersects a x = Err TypeError
  /\ obj_intersection a x = Err TypeError /\ obj_union a x = Err TypeError
  /\ obj_difference a x = Err TypeError /\ obj_symmetric_difference a x = Err TypeError.
Proof. intros H. foreign x H; now repeat split. Qed.

Lemma extract_foreign x : no_set x -> obj_extract x = [].
Proof. intros H. foreign x H; reflexivity. Qed.

Lemma union_foreign items x : canonical (Union items) -> no_set x ->
  obj_includes (Union items) x = Ok true /\ obj_intersects (Union items) x = Ok false
  /\ obj_intersection (Union items) x = Ok (OSet Empty) /\ obj_union (Union items) x = Ok (OSet (Union items))
  /\ obj_difference (Union items) x = Ok (OSet Empty) /\ obj_symmetric_difference (Union items) x = Err AttributeError.
Proof.
  intros C H. pose proof (extract_foreign x H) as E. pose proof (proj2 C) as L.
  destruct items as [| i [| j items]]; cbn in L; try lia.
  cbn [obj_includes obj_intersects obj_intersection obj_difference obj_symmetric_difference]. rewrite E.
  repeat split; try reflexivity.
  unfold obj_union, obj_of. cbn [flat_map]. rewrite E. cbn [obj_extract extract]. rewrite !app_nil_r.
  unfold merge. rewrite merge_with_chain; rewrite flat_map_extract_items; [reflexivity |].
  now apply canonical_canon in C as [C _].
Qed.

Lemma of_foreign xs ys x : no_set x -> obj_of (xs ++ x :: ys) = obj_of (xs ++ ys).
Proof. intros H. unfold obj_of. rewrite !flat_map_app. cbn [flat_map]. now rewrite (extract_foreign x H). Qed.

(** ** [contains] *)

(** Ranges and points, which have an order of their own. *)
Definition an_item (x : obj) : Prop := exists i, x = OSet (Item i).

Lemma item_or_not x : an_item x \/ ~ an_item x.
Proof. destruct x as [| | | | | | | [| i |]]; try (right; intros [j E]; discriminate). left. now exists i. Qed.

Lemma point_contains_other v x : no_version x -> obj_item_contains (Point v) x = Ok false.
Proof. intros H. destruct x as [| | [] | | | | | [| i |]]; try reflexivity. exfalso. now apply (H v0 eq_refl). Qed.

Lemma range_contains_item min max imin imax x : an_item x -> obj_item_contains (Range min max imin imax) x = Err AttributeError.
Proof. intros [[v | a b c d] ->]; destruct min; reflexivity. Qed.

Lemma range_contains_other min max imin imax x : no_version x -> ~ an_item x ->
  obj_item_contains (Range min max imin imax) x = match min, max with None, None => Ok true | _, _ => Err TypeError end.
Proof.
  intros H N. destruct x as [| | [] | | v | | | [| i |]]; try (exfalso; now apply (H v eq_refl)); try (exfalso; apply N; now exists i);
    destruct min as [m |], max as [M |], imin, imax; reflexivity.
Qed.

Definition a_point (i : item) : Prop := exists v, i = Point v.

Lemma point_or_range i : a_point i \/ exists min max imin imax, i = Range min max imin imax.
Proof. destruct i as [v | min max imin imax]; [left; now exists v | right; now exists min, max, imin, imax]. Qed.

Lemma all_points items : Forall a_point items \/ ~ Forall a_point items.
Proof.
  induction items as [| i items [F | F]]; [left; constructor | | right; intros X; inversion X; auto].
  destruct i as [v | min max imin imax]; [left; constructor; [now exists v | exact F] |].
  right. intros X. inversion X as [| ? ? [v E]]. discriminate.
Qed.

Lemma points_contain items x : no_version x -> Forall a_point items -> obj_any items x = Ok false.
Proof.
  intros H. induction 1 as [| i items [v ->] F IH]; [reflexivity |]. cbn [obj_any]. rewrite (point_contains_other v x H). exact IH.
Qed.

Lemma separated_bounds i j : separated i j -> i_max i <> None /\ i_min j <> None.
Proof. unfold separated. destruct (i_max i), (i_min j); try easy; now split. Qed.

(** In a canonical union every range has a bound. *)
Lemma bounded_items items : good_items items -> forall p, In p items ->
  i_min p <> None \/ (exists rest, items = p :: rest).
Proof.
  induction items as [| i items IH]; intros G p I; [easy |]. destruct I as [<- | I]; [right; now exists items |].
  destruct items as [| j items]; [easy |]. destruct G as (_ & S & G). apply separated_bounds in S as [_ S]. left.
  destruct (IH G p I) as [X | [rest X]]; [exact X |]. injection X as -> _. exact S.
Qed.

Lemma bounded_union items p : canonical (Union items) -> In p items -> i_min p <> None \/ i_max p <> None.
Proof.
  intros [G L] I. destruct (bounded_items items G p I) as [X | [rest X]]; [now left |].
  subst items. destruct rest as [| j rest]; [cbn in L; lia |]. right. destruct G as (_ & S & _). now apply separated_bounds in S.
Qed.

Lemma ranges_contain items x : no_version x -> (forall p, In p items -> i_min p <> None \/ i_max p <> None) -> ~ Forall a_point items ->
  obj_any items x = Err (match x with OSet (Item _) => AttributeError | _ => TypeError end).
Proof.
  intros H B N. induction items as [| i items IH]; [exfalso; apply N; constructor |]. cbn [obj_any].
  destruct (point_or_range i) as [[v ->] | (min & max & imin & imax & ->)].
  - rewrite (point_contains_other v x H). cbn [bind]. apply IH; [intros p I; apply B; now right |].
    intros F. apply N. constructor; [now exists v | exact F].
  - specialize (B _ (or_introl eq_refl)). cbn in B. destruct (item_or_not x) as [A | A].
    + rewrite (range_contains_item _ _ _ _ _ A). destruct A as [j ->]. reflexivity.
    + rewrite (range_contains_other _ _ _ _ _ H A). destruct min, max; try (now destruct B);
        destruct x as [| | | | | | | [| j |]]; try reflexivity; exfalso; apply A; now exists j.
Qed.

(** What a set says of an object that is no version. *)
Lemma contains_other a x : canonical a -> no_version x ->
  (obj_contains a x = Ok false <-> Forall a_point (extract a))
  /\ (obj_contains a x = Ok true <-> a = UNIVERSAL_SET /\ ~ an_item x)
  /\ (obj_contains a x = Err AttributeError <-> ~ Forall a_point (extract a) /\ an_item x)
  /\ (obj_contains a x = Err TypeError <-> ~ Forall a_point (extract a) /\ a <> UNIVERSAL_SET /\ ~ an_item x)
  /\ (obj_contains a x = Ok false \/ obj_contains a x = Ok true \/ obj_contains a x = Err AttributeError \/ obj_contains a x = Err TypeError).
Proof.
  intros C H. destruct a as [| i | items]; cbn [obj_contains extract].
  - repeat split; try discriminate; auto; try (intros [X _]; exfalso; now apply X); try now intros [X _].
  - destruct (point_or_range i) as [[v ->] | (min & max & imin & imax & ->)].
    + rewrite (point_contains_other v x H). assert (P : Forall a_point [Point v]) by (constructor; [now exists v | constructor]).
      repeat split; try discriminate; auto; try (intros [X _]; exfalso; now apply X); try (now intros [X _]).
    + assert (P : ~ Forall a_point [Range min max imin imax]) by (intros X; inversion X as [| ? ? [v E]]; discriminate).
      destruct (item_or_not x) as [A | A].
      * rewrite (range_contains_item _ _ _ _ _ A). repeat split; try discriminate; auto; try tauto.
      * rewrite (range_contains_other _ _ _ _ _ H A). destruct C as (C1 & C2 & _).
        destruct min as [m |], max as [M |]; [| | |rewrite (C1 eq_refl), (C2 eq_refl) in *];
          repeat split; try discriminate; try tauto; auto; intros (X & _); discriminate.
  - destruct (all_points items) as [P | P].
    + rewrite (points_contain items x H P). repeat split; try discriminate; auto; try tauto. now intros [X _].
    + rewrite (ranges_contain items x H (fun p => bounded_union items p C) P).
      destruct x as [| | | | | | | [| j |]]; repeat split; try discriminate; auto; try tauto;
        try (intros [j E]; discriminate); try (now intros [X _]); try (intros [_ [j E]]; discriminate); try (now exists j);
        try (intros [_ [_ E]]; exfalso; apply E; now exists j).
Qed.

Lemma operators_any a x :
  ((forall items, a <> Union items) -> obj_and a x = obj_intersection a x /\ obj_or a x = obj_union a x
     /\ obj_sub a x = obj_difference a x /\ obj_xor a x = obj_symmetric_difference a x)
  /\ (forall items, a = Union items -> obj_and a x = Err TypeError /\ obj_or a x = Err TypeError
     /\ obj_sub a x = Err TypeError /\ obj_xor a x = Err TypeError).
Proof.
  split.
  - intros N. destruct a as [| i | items]; [now repeat split | now repeat split |]. exfalso. now apply (N items).
  - intros items ->. now repeat split.
Qed.

Lemma convert_any x :
  (forall s, x = OSpec s -> obj_to_version_set x = specifier_to_version_set s /\ obj_simplify x = simplify s)
  /\ ((forall s, x <> OSpec s) -> obj_to_version_set x = Err TypeError /\ obj_simplify x = Err TypeError)
  /\ (forall a, x = OSet a -> obj_to_specifier x = version_set_to_specifier a)
  /\ (no_set x -> obj_to_specifier x = Err TypeError).
Proof.
  split; [now intros s -> |]. split; [| split; [now intros a -> |]].
  - intros N. destruct x; try (now split). exfalso. now apply (N s).
  - intros N. destruct x; try reflexivity. exfalso. now apply (N a).
Qed.

(** ** Specifiers *)

Lemma matches_version t v w : obj_matches t (OVersion v) w = op_matches t v w.
Proof.
  assert (R : forall a b, obj_rich OpLt (OVersion a) (OVersion b) = Ok (v_lt a b) /\ obj_rich OpLe (OVersion a) (OVersion b) = Ok (v_le a b)
    /\ obj_rich OpGt (OVersion a) (OVersion b) = Ok (v_gt a b) /\ obj_rich OpGe (OVersion a) (OVersion b) = Ok (v_ge a b)
    /\ obj_rich OpEq (OVersion a) (OVersion b) = Ok (v_eq a b) /\ obj_rich OpNe (OVersion a) (OVersion b) = Ok (v_ne a b)).
  { intros a b. exact (version_operators a b). }
  assert (B : forall u, obj_between w (OVersion v) u = between w v u).
  { intros u. unfold obj_between, between. destruct (R w v) as (_ & -> & _). cbn [bind]. destruct (v_le w v); [| reflexivity].
    destruct u as [u | e]; [| reflexivity]. cbn [bind]. now destruct (R v u) as (-> & _). }
  assert (W : obj_matches_wildcard_equal (OVersion v) w = matches_wildcard_equal v w).
  { unfold obj_matches_wildcard_equal, matches_wildcard_equal. destruct (next_wildcard_breaking w) as [[u |] | e]; [| reflexivity..].
    cbn [bind]. apply B. }
  destruct (R v w) as (R1 & R2 & R3 & R4 & R5 & R6).
  destruct t; cbn [obj_matches op_matches]; rewrite ?B, ?W, ?R1, ?R2, ?R3, ?R4, ?R5, ?R6; reflexivity.
Qed.

Lemma accepts_version s v : obj_accepts s (OVersion v) = accepts s v.
Proof.
  induction s as [| | t w | ss IH | ss IH] using spec_members; try reflexivity.
  - apply matches_version.
  - cbn [obj_accepts accepts]. induction IH as [| s ss H _ IH]; [reflexivity |]. cbn [any_r]. now rewrite H, IH.
  - cbn [obj_accepts accepts]. induction IH as [| s ss H _ IH]; [reflexivity |]. cbn [all_r]. now rewrite H, IH.
Qed.

(** What comparing the order of a version and this object raises. *)
Definition complaint (x : obj) : error := match x with OSet (Item _) => AttributeError | _ => TypeError end.

Lemma rich_other o x v : no_version x ->
  obj_rich o x (OVersion v) = match o with OpEq => Ok false | OpNe => Ok true | _ => Err (complaint x) end.
Proof.
  intros H. destruct x as [| | [] | | w | | | [| [p | a b c d] |]]; try (exfalso; now apply (H w eq_refl)); destruct o; reflexivity.
Qed.

Lemma rich_version_other o x v : no_version x ->
  obj_rich o (OVersion v) x = match o with OpEq => Ok false | OpNe => Ok true | _ => Err (complaint x) end.
Proof.
  intros H. destruct x as [| | [] | | w | | | [| [p | a b c d] |]]; try (exfalso; now apply (H w eq_refl)); destruct o; reflexivity.
Qed.

Lemma between_other x v u : no_version x -> obj_between v x u = Err (complaint x).
Proof. intros H. unfold obj_between. now rewrite (rich_version_other OpLe x v H). Qed.

Lemma wildcard_other x v : valid_version v = true -> no_version x ->
  (wildcard_any v /\ obj_matches_wildcard_equal x v = Ok true) \/ (~ wildcard_any v /\ obj_matches_wildcard_equal x v = Err (complaint x)).
Proof.
  intros V H. unfold obj_matches_wildcard_equal. destruct (wildcard_bound v V) as [[A ->] | [A (w & -> & _)]]; cbn [bind]; [now left |].
  right. split; [exact A | now apply between_other].
Qed.

Lemma matches_other t v x : valid_version v = true -> no_version x ->
  (passes t v /\ obj_matches t x v = Ok true) \/ (fails t v /\ obj_matches t x v = Ok false) \/ (orders t v /\ obj_matches t x v = Err (complaint x)).
Proof.
  intros V H. pose proof (wildcard_other x v V H) as W. unfold orders, passes, fails.
  destruct t; cbn [obj_matches]; rewrite ?(rich_other _ x v H), ?(between_other x v _ H).
  all: try (right; right; split; [|reflexivity]; split; intros P; decompose [and or] P; discriminate).
  all: try (right; left; split; [|reflexivity]; now auto).
  all: try (left; split; [|reflexivity]; now auto).
  1, 2: destruct W as [[A E]|[A E]]; rewrite E; [left; split; [|reflexivity]; now auto 6
    | right; right; split; [|reflexivity]; split; intros P; decompose [and or] P; try discriminate; contradiction].
  destruct W as [[A E]|[A E]]; rewrite E; cbn [bind negb].
  - right. left. split; [|reflexivity]. auto.
  - right. right. split; [|reflexivity]. split; intros P; decompose [and or] P; try discriminate; contradiction.
Qed.

Lemma matches_any t v x : valid_version v = true -> no_version x ->
  (obj_matches t x v = Ok true <-> passes t v) /\ (obj_matches t x v = Ok false <-> fails t v)
  /\ (obj_matches t x v = Err (complaint x) <-> orders t v).
Proof.
  intros V H. pose proof (passes_fails t v) as D. destruct (matches_other t v x V H) as [[A E]|[[A E]|[[A B] E]]]; rewrite E; unfold orders;
    repeat split; intros; try discriminate; try tauto.
Qed.

(** Like a version of another class, apart from the error. *)
Lemma accepts_any s x w : spec_made s -> no_version x ->
  obj_accepts s x = match t_accepts (retype_spec 0%nat s) (Typed 1%nat w) with Ok b => Ok b | Err _ => Err (complaint x) end.
Proof.
  intros M H. induction s as [| | t v | ss IH | ss IH] using spec_members; try reflexivity.
  - destruct M as [V _]. cbn [retype_spec t_accepts obj_accepts]. pose proof (passes_fails t v) as D.
    destruct (matches_other t v x V H) as [[A ->]|[[A ->]|[[A B] ->]]],
      (matches_foreign t (Typed 1%nat w) (Typed 0%nat v) V ltac:(discriminate)) as [[A' ->]|[[A' ->]|[[A' B'] ->]]]; cbn [t_version] in *; tauto.
  - apply made_any in M as [_ M]. cbn [retype_spec t_accepts obj_accepts]. induction IH as [| s ss K _ IH]; [reflexivity |].
    inversion M; subst. cbn [map any_r]. rewrite K by assumption.
    destruct (t_accepts (retype_spec 0%nat s) (Typed 1%nat w)) as [[|] | e]; cbn [bind]; [reflexivity | now apply IH | reflexivity].
  - apply made_all in M as [_ M]. cbn [retype_spec t_accepts obj_accepts]. induction IH as [| s ss K _ IH]; [reflexivity |].
    inversion M; subst. cbn [map all_r]. rewrite K by assumption.
    destruct (t_accepts (retype_spec 0%nat s) (Typed 1%nat w)) as [[|] | e]; cbn [bind]; [now apply IH | reflexivity | reflexivity].
Qed.
