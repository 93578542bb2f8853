(** Sets of any class of versions whose comparisons are those of [Version]. *)

From Coq Require Import List ZArith NArith String Bool Lia.
From Verif Require Import Py Segments Version VersionSets Specifiers GenericSets.
Import ListNotations.
Local Opaque v_cmp.

Lemma flat_map_map {A B C} (f : A -> B) (g : B -> list C) l : flat_map g (map f l) = flat_map (fun x => g (f x)) l.
Proof. induction l as [|x l IH]; cbn; [|rewrite IH]; reflexivity. Qed.

Lemma map_flat_map {A B C} (f : B -> C) (g : A -> list B) l : map f (flat_map g l) = flat_map (fun x => map f (g x)) l.
Proof. induction l as [|x l IH]; cbn; [|rewrite map_app, IH]; reflexivity. Qed.

Lemma bind_map {A B C D} (f : A -> B) (g : C -> D) (r : result A) (k : B -> result D) (h : A -> result C) :
  (forall a, k (f a) = rmap g (h a)) -> bind (rmap f r) k = rmap g (bind r h).
Proof. intros H. destruct r; cbn; auto. Qed.

Section Carried.
  Context {X : Type} (f : version -> X) (cmp : X -> X -> result comparison) (same : X -> X -> bool).
  Context (C : forall v w, cmp (f v) (f w) = Ok (v_cmp v w)) (E : forall v w, same (f v) (f w) = v_eq v w).

  Definition ext_map (x : ext version) : ext X :=
    match x with NegInf => NegInf | Fin v => Fin (f v) | PosInf => PosInf end.

  Notation I := (carry_item f).
  Notation V := (carry_set f).

  Lemma c_cmp x y : g_cmp cmp (ext_map x) (ext_map y) = Ok (b_cmp x y).
  Proof. destruct x, y; cbn; auto. Qed.
  Lemma c_eq x y : g_eq same (ext_map x) (ext_map y) = is_eq (b_cmp x y).
  Proof. destruct x, y; try reflexivity; apply E. Qed.
  Lemma c_oeq x y : g_oeq same (option_map f x) (option_map f y) = o_eq x y.
  Proof. destruct x, y; cbn; auto. Qed.
  Lemma c_lower m : g_lower (option_map f m) = ext_map (lower_bound m).
  Proof. now destruct m. Qed.
  Lemma c_upper m : g_upper (option_map f m) = ext_map (upper_bound m).
  Proof. now destruct m. Qed.
  Lemma c_min i : g_min (I i) = option_map f (i_min i).
  Proof. now destruct i. Qed.
  Lemma c_max i : g_max (I i) = option_map f (i_max i).
  Proof. now destruct i. Qed.
  Lemma c_imin i : g_include_min (I i) = i_include_min i.
  Proof. now destruct i. Qed.
  Lemma c_imax i : g_include_max (I i) = i_include_max i.
  Proof. now destruct i. Qed.
  Lemma c_emin i : g_exclude_min (I i) = i_exclude_min i.
  Proof. now destruct i. Qed.
  Lemma c_emax i : g_exclude_max (I i) = i_exclude_max i.
  Proof. now destruct i. Qed.

  Lemma c_range_new min max a b : g_range_new cmp (option_map f min) (option_map f max) a b = rmap I (range_new min max a b).
  Proof.
    unfold g_range_new, range_new. rewrite c_lower, c_upper, c_cmp. cbn [bind].
    destruct min, max, a, b; cbn [option_map]; try reflexivity; destruct (is_gt _); reflexivity.
  Qed.

  Ltac relation := rewrite ?c_min, ?c_max, ?c_lower, ?c_upper, ?c_cmp, ?c_imin, ?c_imax, ?c_emin, ?c_emax; cbn [bind]; reflexivity.

  Lemma c_is_lower s o : g_is_lower cmp (I s) (I o) = Ok (is_lower s o).
  Proof. unfold g_is_lower. relation. Qed.
  Lemma c_is_higher s o : g_is_higher cmp (I s) (I o) = Ok (is_higher s o).
  Proof. unfold g_is_higher. relation. Qed.
  Lemma c_is_strictly_lower s o : g_is_strictly_lower cmp (I s) (I o) = Ok (is_strictly_lower s o).
  Proof. unfold g_is_strictly_lower. relation. Qed.
  Lemma c_is_strictly_higher s o : g_is_strictly_higher cmp (I s) (I o) = Ok (is_strictly_higher s o).
  Proof. unfold g_is_strictly_higher. relation. Qed.
  Lemma c_is_adjacent s o : g_is_adjacent same (I s) (I o) = is_adjacent s o.
  Proof. unfold g_is_adjacent. rewrite !c_min, !c_max, !c_oeq, !c_imin, !c_imax, !c_emin, !c_emax. reflexivity. Qed.

  Lemma c_item_eqb s o : g_item_eqb same (I s) (I o) = item_eqb s o.
  Proof. unfold g_item_eqb. rewrite !c_min, !c_max, !c_oeq, !c_imin, !c_imax. reflexivity. Qed.
  Lemma c_items_eqb xs : forall ys, g_items_eqb same (map I xs) (map I ys) = items_eqb xs ys.
  Proof. induction xs as [|x xs IH]; intros [|y ys]; cbn; auto. now rewrite c_item_eqb, IH. Qed.
  Lemma c_set_eqb a b : g_set_eqb same (V a) (V b) = set_eqb a b.
  Proof. destruct a, b; cbn; auto using c_item_eqb, c_items_eqb. Qed.

  Lemma c_item_compare s o : g_item_compare cmp (I s) (I o) = Ok (item_compare s o).
  Proof.
    unfold g_item_compare, item_compare. rewrite !c_min, !c_max, !c_lower, !c_upper, !c_imin, !c_imax, !c_emin, !c_emax, c_cmp. cbn [bind].
    fold (comparable_min s) (comparable_min o) (comparable_max s) (comparable_max o).
    destruct (b_cmp (comparable_min s) (comparable_min o)); try reflexivity.
    destruct (Bool.eqb (i_include_min s) (i_exclude_min o)); [reflexivity|].
    rewrite c_cmp. reflexivity.
  Qed.
  Lemma c_item_lt s o : g_item_lt cmp (I s) (I o) = Ok (item_lt s o).
  Proof. unfold g_item_lt. now rewrite c_item_compare. Qed.

  Lemma c_is_closed i : g_is_closed (I i) = is_closed i.
  Proof. now destruct i. Qed.
  Lemma c_is_empty_or_point i : g_is_empty_or_point same (I i) = is_empty_or_point i.
  Proof. unfold g_is_empty_or_point. now rewrite c_min, c_max, c_lower, c_upper, c_eq. Qed.
  Lemma c_item_is_empty i : g_item_is_empty same (I i) = item_is_empty i.
  Proof. destruct i; [reflexivity|]. unfold g_item_is_empty, item_is_empty. rewrite <- c_is_closed, <- c_is_empty_or_point. reflexivity. Qed.
  Lemma c_item_is_point i : g_item_is_point same (I i) = item_is_point i.
  Proof. destruct i; [reflexivity|]. unfold g_item_is_point, item_is_point. rewrite <- c_is_closed, <- c_is_empty_or_point. reflexivity. Qed.
  Lemma c_item_is_universal i : g_item_is_universal (I i) = item_is_universal i.
  Proof. destruct i as [v|[?|] [?|] ? ?]; reflexivity. Qed.
  Lemma c_is_empty a : g_is_empty same (V a) = is_empty a.
  Proof. destruct a; cbn; auto using c_item_is_empty. Qed.

  Lemma c_item_version i : g_item_version same (I i) = rmap f (item_version i).
  Proof.
    destruct i as [v|min max a b]; [reflexivity|]. unfold g_item_version, item_version.
    change (GRange (option_map f min) (option_map f max) a b) with (I (Range min max a b)). rewrite c_item_is_point.
    cbn [carry_item]. destruct (item_is_point _); [|reflexivity]. destruct min, max; reflexivity.
  Qed.

  Lemma c_item_contains i v : g_item_contains cmp same (I i) (f v) = Ok (item_contains i v).
  Proof.
    destruct i as [w|min max a b]; cbn [carry_item g_item_contains item_contains]; [now rewrite E|].
    rewrite c_lower, c_upper. change (Fin (f v)) with (ext_map (Fin v)). rewrite !c_cmp, !c_eq. cbn [bind].
    unfold comparable_min, comparable_max, i_exclude_min, i_exclude_max. cbn [i_min i_max i_include_min i_include_max].
    destruct (is_lt _); [reflexivity|]. destruct (negb a && _); [reflexivity|]. destruct (is_gt _); [reflexivity|].
    destruct (negb b && _); reflexivity.
  Qed.

  Lemma any_ok {A} (p : A -> bool) l : any_r (fun x => Ok (p x)) l = Ok (existsb p l).
  Proof. induction l as [|x l IH]; cbn; auto. destruct (p x); auto. Qed.
  Lemma all_ok {A} (p : A -> bool) l : all_r (fun x => Ok (p x)) l = Ok (forallb p l).
  Proof. induction l as [|x l IH]; cbn; auto. destruct (p x); auto. Qed.
  Lemma any_map {A B} (g : A -> B) (p : B -> result bool) (q : A -> bool) l : (forall x, p (g x) = Ok (q x)) -> any_r p (map g l) = Ok (existsb q l).
  Proof. intros H. induction l as [|x l IH]; cbn; auto. rewrite H. cbn. destruct (q x); auto. Qed.
  Lemma all_map {A B} (g : A -> B) (p : B -> result bool) (q : A -> bool) l : (forall x, p (g x) = Ok (q x)) -> all_r p (map g l) = Ok (forallb q l).
  Proof. intros H. induction l as [|x l IH]; cbn; auto. rewrite H. cbn. destruct (q x); auto. Qed.

  Lemma c_contains a v : g_contains cmp same (V a) (f v) = Ok (contains a v).
  Proof. destruct a; cbn; auto using c_item_contains. apply any_map. intros i. apply c_item_contains. Qed.

  Lemma c_extract a : g_extract (V a) = map I (extract a).
  Proof. now destruct a. Qed.

  Lemma c_item_includes s o : g_item_includes cmp same (I s) (I o) = Ok (item_includes s o).
  Proof.
    assert (L := c_is_lower o s). assert (H := c_is_higher o s).
    destruct s as [v|? ? ? ?]; unfold g_item_includes, item_includes; cbn [carry_item].
    - change (Ok (g_item_is_empty same (I o) || match I o with GPoint y => same (f v) y | _ => false end) = Ok (item_is_empty o || match o with Point w => v_eq v w | _ => false end)).
      rewrite c_item_is_empty. destruct o; cbn; [rewrite E|]; reflexivity.
    - destruct o as [w|? ? ? ?]; cbn [carry_item].
      + apply (c_item_contains (Range _ _ _ _)).
      + cbn [carry_item] in L, H. rewrite L, H. cbn. destruct (is_lower _ _); reflexivity.
  Qed.

  Lemma c_includes_loop ss : forall items, g_includes_loop cmp same (map I ss) (map I items) = Ok (includes_loop ss items).
  Proof.
    induction ss as [|s ss IH]; intros items; [now destruct items|]. induction items as [|i items IH2]; [reflexivity|].
    cbn [map]. change (g_includes_loop cmp same (I s :: map I ss) (I i :: map I items)) with
      (let* b := g_item_includes cmp same (I s) (I i) in
       if b : bool then g_includes_loop cmp same (I s :: map I ss) (map I items) else g_includes_loop cmp same (map I ss) (I i :: map I items)).
    rewrite c_item_includes. cbn [bind]. cbn [includes_loop]. destruct (item_includes s i); [exact IH2|apply (IH (i :: items))].
  Qed.

  Lemma c_includes a b : g_includes cmp same (V a) (V b) = Ok (includes a b).
  Proof.
    destruct a as [|[v|? ? ? ?]|items]; cbn [carry_set carry_item g_includes includes].
    - now rewrite c_is_empty.
    - rewrite c_is_empty. destruct b as [|[w|? ? ? ?]|?]; cbn; try reflexivity. now rewrite E.
    - destruct b as [|o|items]; cbn [carry_set]; auto.
      + apply (c_item_includes (Range _ _ _ _)).
      + apply all_map. intros i. apply (c_item_includes (Range _ _ _ _)).
    - rewrite c_extract. apply c_includes_loop.
  Qed.

  Lemma c_item_intersects s o : g_item_intersects cmp same (I s) (I o) = Ok (item_intersects s o).
  Proof.
    assert (L := c_is_strictly_lower o s). assert (H := c_is_strictly_higher o s).
    destruct s as [v|? ? ? ?]; unfold g_item_intersects, item_intersects; cbn [carry_item]; [apply c_item_contains|].
    destruct o as [w|? ? ? ?]; cbn [carry_item].
    - apply (c_item_contains (Range _ _ _ _)).
    - cbn [carry_item] in L, H. unfold g_intersects_range, intersects_range. rewrite L, H. cbn. destruct (is_strictly_lower _ _); reflexivity.
  Qed.

  Lemma c_intersects_loop ss : forall items, g_intersects_loop cmp same (map I ss) (map I items) = Ok (intersects_loop ss items).
  Proof.
    induction ss as [|s ss IH]; intros items; [reflexivity|]. induction items as [|i items IH2]; [reflexivity|].
    cbn [map]. change (g_intersects_loop cmp same (I s :: map I ss) (I i :: map I items)) with
      (let* b := g_item_intersects cmp same (I s) (I i) in
       if b : bool then Ok true else
       let* h := g_is_higher cmp (I i) (I s) in
       if h : bool then g_intersects_loop cmp same (map I ss) (I i :: map I items) else g_intersects_loop cmp same (I s :: map I ss) (map I items)).
    rewrite c_item_intersects. cbn [bind]. cbn [intersects_loop]. destruct (item_intersects s i); [reflexivity|].
    rewrite c_is_higher. cbn [bind]. destruct (is_higher i s); [apply (IH (i :: items))|exact IH2].
  Qed.

  Lemma c_intersects a b : g_intersects cmp same (V a) (V b) = Ok (intersects a b).
  Proof.
    destruct a as [|[v|? ? ? ?]|items]; cbn [carry_set carry_item g_intersects intersects]; auto.
    - apply c_contains.
    - destruct b as [|o|items]; cbn [carry_set]; auto.
      + apply (c_item_intersects (Range _ _ _ _)).
      + apply any_map. intros i. apply (c_item_intersects (Range _ _ _ _)).
    - rewrite c_extract. apply c_intersects_loop.
  Qed.

  Lemma c_insert x ys : g_insert cmp (I x) (map I ys) = Ok (map I (insert x ys)).
  Proof.
    induction ys as [|y ys IH]; [reflexivity|]. cbn [map g_insert insert]. rewrite c_item_lt. cbn [bind].
    destruct (item_lt y x); [|reflexivity]. rewrite IH. reflexivity.
  Qed.

  Lemma c_sort xs : g_sort cmp (map I xs) = Ok (map I (sort xs)).
  Proof. induction xs as [|x xs IH]; [reflexivity|]. cbn [map g_sort]. rewrite IH. cbn [bind]. apply c_insert. Qed.

  Lemma c_merge_loop u' u : (forall s o, u' (I s) (I o) = rmap V (u s o)) ->
    forall rest cur, g_merge_loop cmp same u' (I cur) (map I rest) = rmap (map I) (merge_loop u cur rest).
  Proof.
    intros U. induction rest as [|x rest IH]; intros cur; [reflexivity|]. cbn [map g_merge_loop merge_loop].
    rewrite c_item_intersects, c_is_adjacent. cbn [or_r bind].
    assert (B : (if item_intersects cur x then Ok true else Ok (is_adjacent cur x)) = Ok (item_intersects cur x || is_adjacent cur x)) by now destruct (item_intersects cur x).
    unfold or_r. cbn [bind]. rewrite B. cbn [bind]. destruct (_ || _).
    - rewrite U. apply bind_map. intros [|i|l]; cbn [carry_set]; auto.
    - rewrite IH. apply bind_map. reflexivity.
  Qed.

  Lemma c_merge_with u' u : (forall s o, u' (I s) (I o) = rmap V (u s o)) ->
    forall sets, g_merge_with cmp same u' (map V sets) = rmap V (merge_with u sets).
  Proof.
    intros U sets. unfold g_merge_with, merge_with.
    assert (X0 : flat_map g_extract (map V sets) = map I (flat_map extract sets)).
    { rewrite flat_map_map, map_flat_map. apply flat_map_ext. apply c_extract. }
    rewrite X0. clear X0. destruct (flat_map extract sets) as [|x l] eqn:L; [reflexivity|]. cbn [map]. rewrite <- L.
    change (I x :: map I l) with (map I (x :: l)). rewrite <- L.
    assert (X1 : existsb g_item_is_universal (map I (flat_map extract sets)) = existsb item_is_universal (flat_map extract sets)).
    { clear L. induction (flat_map extract sets) as [|y m IH]; [reflexivity|]. cbn. now rewrite c_item_is_universal, IH. }
    rewrite X1. clear X1. destruct (existsb item_is_universal (flat_map extract sets)); [reflexivity|]. rewrite c_sort. cbn [bind].
    destruct (sort (flat_map extract sets)) as [|y m]; [reflexivity|]. cbn [map]. rewrite (c_merge_loop u' u U).
    apply bind_map. intros [|a [|b c]]; reflexivity.
  Qed.

  Lemma c_item_union n : forall s o, g_item_union cmp same n (I s) (I o) = rmap V (item_union n s o).
  Proof.
    induction n as [|n IH]; intros s o; [reflexivity|]. assert (M := c_merge_with _ _ IH). cbn [g_item_union item_union].
    assert (P : forall x y, g_merge_with cmp same (g_item_union cmp same n) [GItem (I x); GItem (I y)] = rmap V (merge_with (item_union n) [Item x; Item y]))
      by (intros x y; apply (M [Item x; Item y])).
    assert (CS := c_item_contains s). assert (CO := c_item_contains o). assert (A := c_is_adjacent s o). assert (N := c_item_intersects s o).
    assert (L := c_is_lower s o). assert (H := c_is_higher s o). specialize (P s o).
    destruct s as [v|smin smax sa sb], o as [w|omin omax oa ob]; cbn [carry_item] in *.
    - rewrite E. destruct (v_eq v w); [reflexivity|exact P].
    - rewrite CO. cbn [bind]. destruct (item_contains _ v); [reflexivity|exact P].
    - rewrite CS. cbn [bind]. destruct (item_contains _ w); [reflexivity|]. change (Some (f w)) with (option_map f (Some w)). rewrite !c_oeq.
      destruct (o_eq (Some w) smin); [rewrite c_range_new; apply bind_map; reflexivity|].
      destruct (o_eq (Some w) smax); [rewrite c_range_new; apply bind_map; reflexivity|exact P].
    - rewrite A, N. unfold and_r, not_r. cbn [bind rmap].
      assert (B : (if negb (is_adjacent (Range smin smax sa sb) (Range omin omax oa ob)) then Ok (negb (item_intersects (Range smin smax sa sb) (Range omin omax oa ob))) else Ok false)
        = Ok (negb (is_adjacent (Range smin smax sa sb) (Range omin omax oa ob)) && negb (item_intersects (Range smin smax sa sb) (Range omin omax oa ob)))) by now destruct (is_adjacent _ _).
      rewrite B. cbn [bind]. destruct (_ && _); [exact P|]. rewrite L, H. cbn [bind].
      destruct (is_lower _ _), (is_higher _ _); rewrite c_range_new; apply bind_map; reflexivity.
  Qed.

  Lemma c_merge sets : g_merge cmp same (map V sets) = rmap V (merge sets).
  Proof. apply c_merge_with, c_item_union. Qed.

  Lemma c_union a b : g_union cmp same (V a) (V b) = rmap V (union a b).
  Proof.
    destruct a as [|s|xs], b as [|o|ys]; try reflexivity.
    - apply c_item_union.
    - assert (K := fun v => c_contains (Union ys) v). assert (M1 := c_merge [Item s; Union ys]). assert (M2 := c_merge [Union ys; Item s]).
      destruct s as [v|? ? ? ?]; cbn [carry_set carry_item g_union union map] in *; [|exact M2].
      rewrite K. cbn [bind]. destruct (contains (Union ys) v); [reflexivity|exact M1].
    - exact (c_merge [Union xs; Empty]).
    - exact (c_merge [Union xs; Item o]).
    - exact (c_merge [Union xs; Union ys]).
  Qed.

  Lemma c_item_intersection s o : g_item_intersection cmp same (I s) (I o) = rmap V (item_intersection s o).
  Proof.
    assert (CS := c_item_contains s). assert (CO := c_item_contains o).
    assert (L := c_is_lower s o). assert (H := c_is_higher s o). assert (SL := c_is_strictly_lower s o). assert (SH := c_is_strictly_higher s o).
    destruct s as [v|smin smax sa sb]; cbn [carry_item g_item_intersection item_intersection] in *.
    - rewrite CO. cbn [bind rmap]. now destruct (item_contains o v).
    - destruct o as [w|omin omax oa ob]; cbn [carry_item] in *; [rewrite CS; cbn [bind rmap]; now destruct (item_contains _ w)|].
      rewrite L, SL, SH, H. cbn [bind].
      assert (R : forall min max a b, (let* r := g_range_new cmp (option_map f min) (option_map f max) a b in
          if g_item_is_point same r then let* v := g_item_version same r in Ok (GItem (GPoint v)) else Ok (GItem r))
        = rmap V (let* r := range_new min max a b in if item_is_point r then let* v := item_version r in Ok (Item (Point v)) else Ok (Item r))).
      { intros min max a b. rewrite c_range_new. apply bind_map. intros r. rewrite c_item_is_point. destruct (item_is_point r); [|reflexivity].
        rewrite c_item_version. apply bind_map. reflexivity. }
      destruct (is_lower _ _); cbn [andb negb bind].
      + destruct (is_strictly_lower _ _); [reflexivity|]. destruct (is_higher _ _); apply R.
      + destruct (is_strictly_higher _ _); [reflexivity|]. destruct (is_higher _ _); apply R.
  Qed.

  Lemma c_intersection_loop ss : forall items, g_intersection_loop cmp same (map I ss) (map I items) = rmap (map I) (intersection_loop ss items).
  Proof.
    induction ss as [|s ss IH]; intros items; [reflexivity|]. induction items as [|i items IH2]; [reflexivity|].
    cbn [map]. change (g_intersection_loop cmp same (I s :: map I ss) (I i :: map I items)) with
      (let* r := g_item_intersection cmp same (I s) (I i) in
       let* h := g_is_higher cmp (I i) (I s) in
       let* rest := (if h : bool then g_intersection_loop cmp same (map I ss) (I i :: map I items) else g_intersection_loop cmp same (I s :: map I ss) (map I items)) in
       Ok (match r with GItem x => x :: rest | _ => rest end)).
    change (intersection_loop (s :: ss) (i :: items)) with
      (let* r := item_intersection s i in
       let* rest := (if is_higher i s then intersection_loop ss (i :: items) else intersection_loop (s :: ss) items) in
       Ok (match r with Item x => x :: rest | _ => rest end)).
    rewrite c_item_intersection. apply bind_map. intros r. rewrite c_is_higher. cbn [bind].
    assert (R : (if is_higher i s then g_intersection_loop cmp same (map I ss) (I i :: map I items) else g_intersection_loop cmp same (I s :: map I ss) (map I items))
      = rmap (map I) (if is_higher i s then intersection_loop ss (i :: items) else intersection_loop (s :: ss) items))
      by (destruct (is_higher i s); [apply (IH (i :: items))|exact IH2]).
    rewrite R. apply bind_map. intros rest. destruct r; reflexivity.
  Qed.

  Lemma c_union_intersection ss b : g_union_intersection cmp same (map I ss) (V b) = rmap V (union_intersection ss b).
  Proof.
    unfold g_union_intersection, union_intersection. rewrite c_extract, c_intersection_loop. apply bind_map. intros l.
    rewrite <- c_merge, !map_map. reflexivity.
  Qed.

  Lemma c_intersection a b : g_intersection cmp same (V a) (V b) = rmap V (intersection a b).
  Proof.
    destruct a as [|[v|min max x y]|items]; [reflexivity| | |apply c_union_intersection].
    - cbn [carry_set carry_item g_intersection intersection]. rewrite c_contains. cbn [bind rmap]. now destruct (contains b v).
    - destruct b as [|o|items]; [reflexivity|apply (c_item_intersection (Range min max x y))|].
      apply (c_union_intersection items (Item (Range min max x y))).
  Qed.

  Lemma c_item_difference s o : g_item_difference cmp same (I s) (I o) = rmap V (item_difference s o).
  Proof.
    assert (CS := c_item_contains s). assert (CO := c_item_contains o).
    assert (L := c_is_lower s o). assert (H := c_is_higher s o). assert (N := c_item_intersects s o).
    assert (P : forall x y, g_merge cmp same [GItem (I x); GItem (I y)] = rmap V (merge [Item x; Item y])) by (intros x y; apply (c_merge [Item x; Item y])).
    destruct s as [v|smin smax sa sb]; cbn [carry_item g_item_difference item_difference] in *.
    - rewrite CO. cbn [bind rmap]. now destruct (item_contains o v).
    - destruct o as [w|omin omax oa ob]; cbn [carry_item] in *.
      + rewrite CS. cbn [bind]. destruct (item_contains _ w); [|reflexivity]. cbn [negb].
        change (Some (f w)) with (option_map f (Some w)). rewrite !c_oeq.
        destruct (o_eq (Some w) smin); [destruct sa; [|reflexivity]; cbn [negb]; rewrite c_range_new; apply bind_map; reflexivity|].
        destruct (o_eq (Some w) smax); [destruct sb; [|reflexivity]; cbn [negb]; rewrite c_range_new; apply bind_map; reflexivity|].
        rewrite c_range_new. apply bind_map. intros l. rewrite c_range_new. apply bind_map. intros r. apply P.
      + rewrite N. cbn [bind]. destruct (item_intersects _ _); [|reflexivity]. cbn [negb]. rewrite L, H. cbn [bind]. rewrite !c_oeq.
        assert (B : forall k (r0 : result item), (if negb k then Ok None else if o_eq smin omin then match option_map f smin with Some x => Ok (Some (GPoint x)) | None => Err ValueError end
            else let* r := rmap I r0 in Ok (Some r))
          = rmap (option_map I) (if negb k then Ok None else if o_eq smin omin then match smin with Some v => Ok (Some (Point v)) | None => Err ValueError end else let* r := r0 in Ok (Some r))).
        { intros [|] r0; cbn [negb]; [|reflexivity]. destruct (o_eq smin omin); [now destruct smin|]. now destruct r0. }
        assert (A : forall k (r0 : result item), (if negb k then Ok None else if o_eq smax omax then match option_map f smax with Some x => Ok (Some (GPoint x)) | None => Err ValueError end
            else let* r := rmap I r0 in Ok (Some r))
          = rmap (option_map I) (if negb k then Ok None else if o_eq smax omax then match smax with Some v => Ok (Some (Point v)) | None => Err ValueError end else let* r := r0 in Ok (Some r))).
        { intros [|] r0; cbn [negb]; [|reflexivity]. destruct (o_eq smax omax); [now destruct smax|]. now destruct r0. }
        rewrite !c_range_new, B. apply bind_map. intros before. rewrite A. apply bind_map. intros after.
        destruct before, after; cbn [option_map]; try reflexivity. apply P.
  Qed.

  Lemma c_difference_iterator items : forall cur, g_difference_iterator cmp same (I cur) (map I items) = rmap (map I) (difference_iterator cur items).
  Proof.
    induction items as [|i items IH]; intros cur; [reflexivity|]. cbn [map g_difference_iterator difference_iterator].
    rewrite c_is_strictly_lower, c_is_strictly_higher. cbn [bind]. destruct (is_strictly_lower i cur); [apply IH|].
    destruct (is_strictly_higher i cur); [reflexivity|]. rewrite c_item_difference. apply bind_map.
    intros [|c|[|l [|r [|x k]]]]; cbn [carry_set map]; auto. rewrite IH. apply bind_map. reflexivity.
  Qed.

  (** The states of ItemsDifference. *)
  Definition carry_state (st : dstate) : gstate X :=
    GState (map I (d_items st)) (map I (d_others st)) (option_map I (d_current st)) (option_map I (d_other st)) (map I (d_result st)).
  Definition carry_move (p : dstate * bool) : gstate X * bool := (carry_state (fst p), snd p).

  Lemma c_next_other_current st : g_next_other_current (carry_state st) = carry_move (next_other_current st).
  Proof.
    destruct st as [is os c o r]. destruct os as [|x os]; cbn; [|reflexivity].
    unfold carry_move, carry_state. cbn. rewrite !map_app. destruct c; reflexivity.
  Qed.

  Lemma c_next_current k st : g_next_current k (carry_state st) = carry_move (next_current k st).
  Proof.
    destruct st as [is os c o r]. destruct is as [|x is], k; cbn; unfold carry_move, carry_state; cbn; rewrite ?map_app; destruct c; reflexivity.
  Qed.

  Lemma c_step st : g_step cmp same (carry_state st) = rmap carry_move (d_step st).
  Proof.
    destruct st as [is os [c|] [o|] r]; try reflexivity. unfold g_step, d_step. cbn [carry_state gd_current gd_other d_current d_other option_map].
    rewrite c_is_strictly_lower, c_is_strictly_higher. cbn [bind]. destruct (is_strictly_lower o c).
    { cbn [rmap]. f_equal. apply (c_next_other_current (DState is os (Some c) (Some o) r)). }
    destruct (is_strictly_higher o c).
    { cbn [rmap]. f_equal. apply (c_next_current true (DState is os (Some c) (Some o) r)). }
    rewrite c_item_difference. apply bind_map. intros [|i|[|a [|b [|x k]]]]; cbn [carry_set map]; try reflexivity.
    - cbn [rmap]. f_equal. apply (c_next_current false (DState is os (Some c) (Some o) r)).
    - rewrite c_is_higher. cbn [bind]. destruct (is_higher i o); cbn [rmap]; f_equal.
      + apply (c_next_other_current (DState is os (Some i) (Some o) r)).
      + apply (c_next_current true (DState is os (Some i) (Some o) r)).
    - cbn [rmap]. f_equal. rewrite <- c_next_other_current. f_equal. unfold g_set_current, g_append, d_set_current, d_append, carry_state. cbn.
      rewrite map_app. reflexivity.
  Qed.

  Lemma c_loop n : forall st, g_loop cmp same n (carry_state st) = rmap carry_state (d_loop n st).
  Proof.
    induction n as [|n IH]; intros st; [reflexivity|]. cbn [g_loop d_loop]. rewrite c_step. apply bind_map.
    intros [st' [|]]; cbn [carry_move fst snd]; auto.
  Qed.

  Lemma c_items_difference xs ys : g_items_difference cmp same (map I xs) (map I ys) = rmap (map I) (items_difference xs ys).
  Proof.
    unfold g_items_difference, items_difference.
    assert (N : forall l, g_next_or_none (map I l) = (option_map I (fst (next_or_none l)), map I (snd (next_or_none l)))) by now destruct l.
    rewrite !N, !map_length. destruct (next_or_none xs) as [c is], (next_or_none ys) as [o os]. cbn [fst snd].
    change (GState (map I is) (map I os) (option_map I c) (option_map I o) []) with (carry_state (DState is os c o [])).
    rewrite c_loop. apply bind_map. reflexivity.
  Qed.

  Lemma c_difference a b : g_difference cmp same (V a) (V b) = rmap V (difference a b).
  Proof.
    assert (M : forall ds, g_merge cmp same (map GItem (map I ds)) = rmap V (merge (map Item ds))).
    { intros ds. rewrite <- c_merge, !map_map. reflexivity. }
    destruct a as [|[v|min max x y]|items]; [reflexivity| | |].
    - cbn [carry_set carry_item g_difference difference]. rewrite c_contains. cbn [bind rmap]. now destruct (contains b v).
    - destruct b as [|o|items]; [reflexivity|apply (c_item_difference (Range min max x y))|].
      change (V (Item (Range min max x y))) with (GItem (I (Range min max x y))). unfold g_difference, difference. cbn [carry_set carry_item].
      change (GRange (option_map f min) (option_map f max) x y) with (I (Range min max x y)).
      rewrite c_difference_iterator. apply bind_map. exact M.
    - cbn [carry_set g_difference difference]. rewrite c_extract, c_items_difference. apply bind_map. exact M.
  Qed.

  Lemma c_universal : V UNIVERSAL_SET = g_universal.
  Proof. reflexivity. Qed.

  Lemma c_complement a : g_complement cmp same (V a) = rmap V (complement a).
  Proof. destruct a; [reflexivity| |]; cbn [carry_set g_complement complement]; rewrite <- c_difference; reflexivity. Qed.

  Lemma c_symmetric_difference a b : g_symmetric_difference cmp same (V a) (V b) = rmap V (symmetric_difference a b).
  Proof.
    destruct a as [|s|xs]; [reflexivity| |reflexivity]. cbn [carry_set g_symmetric_difference symmetric_difference].
    change (GItem (I s)) with (V (Item s)). rewrite c_union. apply bind_map. intros u. rewrite c_intersection. apply bind_map. intros i. apply c_difference.
  Qed.
End Carried.
