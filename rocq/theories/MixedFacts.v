(** Sets of versions of two classes. *)

From Coq Require Import List ZArith NArith String Bool Lia.
From Verif Require SetChains SetVersions.
From Verif Require Import Py Segments Version VersionSets Specifiers Rich Spec Typed TypedSpec TypedFacts GenericSets GenericFacts TypedSets MixedSpec.
Import ListNotations.
Local Open Scope nat_scope.
Local Opaque v_cmp v_eq v_lt.

Lemma t_cmp_same T v w : t_cmp (Typed T v) (Typed T w) = Ok (v_cmp v w).
Proof. unfold t_cmp. cbn. now rewrite Nat.eqb_refl. Qed.
Lemma t_same_same T v w : t_same (Typed T v) (Typed T w) = v_eq v w.
Proof. unfold t_same. cbn. now rewrite Nat.eqb_refl. Qed.

Definition bounded (i : item) : Prop := good_item i /\ (i_min i <> None \/ i_max i <> None).

Lemma good_items_all is : good_items is -> Forall good_item is.
Proof.
  induction is as [|x is IH]; [constructor|]. destruct is as [|y is]; intros H.
  - constructor; [exact H|constructor].
  - destruct H as (G & _ & R). constructor; auto.
Qed.

Lemma proper_bounded a : canonical a -> proper a -> Forall bounded (members a).
Proof.
  intros C (NE & NU). apply Forall_forall. intros i H. split.
  - destruct a as [|j|is]; [contradiction|destruct H as [<-|[]]; exact C|].
    destruct C as [G _]. exact (proj1 (Forall_forall _ _) (good_items_all is G) i H).
  - destruct i as [v|min max x y]; [left; discriminate|]. destruct min; [left; discriminate|]. destruct max; [right; discriminate|].
    exfalso. apply NU. apply (canonical_unlimited a (Range None None x y) C H). now exists x, y.
Qed.

Lemma leads_first i a : leads i a -> exists rest, members a = i :: rest.
Proof. destruct a; cbn; [tauto| |]; [intros ->; eauto|eauto]. Qed.

(** All items but the lowest have a minimum. *)
Lemma later_min x is : good_items (x :: is) -> Forall (fun i => i_min i <> None) is.
Proof.
  revert x. induction is as [|y is IH]; intros x; [constructor|]. intros (_ & S1 & R). constructor; [|exact (IH y R)].
  unfold separated in S1. destruct (i_max x), (i_min y); (discriminate || contradiction).
Qed.

Section Mixed.
  Context (T U : vtype) (D : T <> U).
  Notation IT := (carry_item (Typed T)).
  Notation IU := (carry_item (Typed U)).

  Lemma apart v w : t_cmp (Typed T v) (Typed U w) = Err TypeError.
  Proof. unfold t_cmp. cbn. apply Nat.eqb_neq in D. now rewrite D. Qed.
  Lemma apart_eq v w : t_same (Typed T v) (Typed U w) = false.
  Proof. unfold t_same. cbn. apply Nat.eqb_neq in D. now rewrite D. Qed.

  Lemma m_contains i v : bounded i -> g_item_contains t_cmp t_same (IU i) (Typed T v) = match i with Point _ => Ok false | _ => Err TypeError end.
  Proof.
    intros (G & B). destruct i as [w|min max x y]; cbn.
    - f_equal. unfold t_same. cbn. assert (N := D). apply not_eq_sym, Nat.eqb_neq in N. now rewrite N.
    - destruct min as [m|]; cbn; [now rewrite apart|]. rewrite andb_false_r. destruct max as [M|]; cbn; [now rewrite apart|].
      destruct B as [B|B]; now destruct B.
  Qed.

  (** Comparing the ends of two ranges. *)
  Lemma m_is_lower s o : g_is_lower t_cmp (IT s) (IU o) =
    match i_min s, i_min o with
    | Some _, Some _ => Err TypeError
    | None, Some _ => Ok true
    | Some _, None => Ok false
    | None, None => Ok (i_include_min s && i_exclude_min o)
    end.
  Proof. unfold g_is_lower. destruct s as [v|[v|] smax x y], o as [w|[w|] omax z t]; cbn; rewrite ?apart; reflexivity. Qed.
  Lemma m_is_higher s o : g_is_higher t_cmp (IT s) (IU o) =
    match i_max s, i_max o with
    | Some _, Some _ => Err TypeError
    | None, Some _ => Ok true
    | Some _, None => Ok false
    | None, None => Ok (i_include_max s && i_exclude_max o)
    end.
  Proof. unfold g_is_higher. destruct s as [v|smin [v|] x y], o as [w|omin [w|] z t]; cbn; rewrite ?apart; reflexivity. Qed.
  Lemma m_is_strictly_lower s o : g_is_strictly_lower t_cmp (IT s) (IU o) =
    match i_max s, i_min o with Some _, Some _ => Err TypeError | _, _ => Ok false end.
  Proof. unfold g_is_strictly_lower. destruct s as [v|smin [v|] x y], o as [w|[w|] omax z t]; cbn; rewrite ?apart; reflexivity. Qed.
  Lemma m_is_strictly_higher s o : g_is_strictly_higher t_cmp (IT s) (IU o) =
    match i_min s, i_max o with Some _, Some _ => Err TypeError | _, _ => Ok false end.
  Proof. unfold g_is_strictly_higher. destruct s as [v|[v|] smax x y], o as [w|omin [w|] z t]; cbn; rewrite ?apart; reflexivity. Qed.

  Lemma m_eqb s o : bounded s -> bounded o -> g_item_eqb t_same (IT s) (IU o) = false.
  Proof.
    intros (_ & A) (_ & B). unfold g_item_eqb.
    destruct s as [v|[v|] [v'|] x y], o as [w|[w|] [w'|] z t]; cbn; rewrite ?apart_eq; cbn; auto;
      cbn in A, B; destruct A as [A|A], B as [B|B]; congruence.
  Qed.

  Lemma m_not_adjacent s o : bounded s -> bounded o -> g_is_adjacent t_same (IT s) (IU o) = false.
  Proof.
    intros (Gs & _) (Go & _). unfold g_is_adjacent.
    destruct s as [v|[v|] [v'|] x y], o as [w|[w|] [w'|] z t]; cbn in *; rewrite ?apart_eq; cbn; auto;
      repeat match goal with H : _ /\ _ |- _ => destruct H end;
      repeat match goal with H : None = None -> _ |- _ => specialize (H eq_refl) end; subst; reflexivity.
  Qed.
End Mixed.

(** [same_way] and [misses] as tests. *)
Definition same_way_b (s o : item) : bool :=
  match i_min s, i_min o, i_max s, i_max o with
  | None, None, _, _ => true
  | _, _, None, None => true
  | _, _, _, _ => false
  end.
Definition misses_b (s o : item) : bool :=
  match s with
  | Point _ => true
  | _ =>
      match i_min s, i_min o, i_max o with
      | Some _, None, _ => true
      | None, _, None => true
      | _, _, _ => false
      end
  end.

Lemma same_way_iff s o : same_way s o <-> same_way_b s o = true.
Proof.
  unfold same_way, same_way_b. destruct (i_min s), (i_min o), (i_max s), (i_max o); split; auto; try discriminate; intros [[A B]|[A B]]; discriminate.
Qed.
Lemma misses_iff s o : misses s o <-> misses_b s o = true.
Proof.
  unfold misses, misses_b. destruct s as [v|m M x y]; [split; eauto|].
  cbn [i_min]. destruct m, (i_min o), (i_max o); split; try reflexivity; try (intros X; discriminate X).
  all: try (intros [[v' A]|[[A B]|[A B]]]; congruence).
  all: intros _; right; first [left; split; congruence|right; split; congruence].
Qed.

Section Mixed_items.
  Context (T U : vtype) (D : T <> U).
  Notation IT := (carry_item (Typed T)).
  Notation IU := (carry_item (Typed U)).
  Let D' : U <> T := not_eq_sym D.

  Ltac shape := repeat match goal with
    | H : bounded (Range ?m ?M _ _) |- _ => destruct H as [H ?]; cbn [i_min i_max] in *
    | H : None <> None \/ None <> None |- _ => destruct H as [H|H]; now destruct H
    | H : good_item (Range _ _ _ _) |- _ => cbn [good_item] in H
    | H : _ /\ _ |- _ => destruct H
    | H : None = None -> _ |- _ => specialize (H eq_refl); subst
    end.

  Lemma m_item_intersects s o : bounded s -> bounded o -> g_item_intersects t_cmp t_same (IT s) (IU o) =
    match s, o with
    | Point _, Point _ => Ok false
    | _, _ => if same_way_b s o then Ok true else Err TypeError
    end.
  Proof.
    intros A B. destruct s as [v|smin smax x y].
    - change (g_item_intersects t_cmp t_same (IT (Point v)) (IU o)) with (g_item_contains t_cmp t_same (IU o) (Typed T v)).
      rewrite (m_contains T U D o v B). destruct o as [w|[w|] [w'|] z t]; try reflexivity.
    - destruct o as [w|omin omax z t].
      + change (g_item_intersects t_cmp t_same (IT (Range smin smax x y)) (IU (Point w))) with (g_item_contains t_cmp t_same (IT (Range smin smax x y)) (Typed U w)).
        rewrite (m_contains U T D' _ w A). destruct smin, smax; reflexivity.
      + change (g_item_intersects t_cmp t_same (IT (Range smin smax x y)) (IU (Range omin omax z t))) with (g_intersects_range t_cmp (IT (Range smin smax x y)) (IU (Range omin omax z t))).
        unfold g_intersects_range. rewrite (m_is_strictly_lower U T D'), (m_is_strictly_higher U T D'). shape.
        destruct smin, smax, omin, omax; cbn; try reflexivity; shape.
  Qed.

  Lemma m_item_includes s o : bounded s -> bounded o -> g_item_includes t_cmp t_same (IT s) (IU o) = if misses_b s o then Ok false else Err TypeError.
  Proof.
    intros A B. destruct s as [v|smin smax x y].
    - cbn [carry_item g_item_includes misses_b]. rewrite (c_item_is_empty (Typed U) t_same (t_same_same U)). destruct o as [w|omin omax z t]; cbn [carry_item].
      + now rewrite (apart_eq T U D).
      + destruct B as [G _]. cbn in G. unfold item_is_empty, is_empty_or_point. destruct omin as [m|], omax as [M|]; try reflexivity.
        destruct G as (_ & _ & L). cbn. unfold comparable_min, comparable_max. cbn. Transparent v_lt. unfold v_lt in L. Opaque v_lt.
        destruct (v_cmp m M); try discriminate; reflexivity.
    - destruct o as [w|omin omax z t].
      + change (g_item_includes t_cmp t_same (IT (Range smin smax x y)) (IU (Point w))) with (g_item_contains t_cmp t_same (IT (Range smin smax x y)) (Typed U w)).
        rewrite (m_contains U T D' _ w A). destruct smin, smax; reflexivity.
      + change (g_item_includes t_cmp t_same (IT (Range smin smax x y)) (IU (Range omin omax z t))) with
          (and_r (not_r (g_is_lower t_cmp (IU (Range omin omax z t)) (IT (Range smin smax x y)))) (not_r (g_is_higher t_cmp (IU (Range omin omax z t)) (IT (Range smin smax x y))))).
        rewrite (m_is_lower U T D'), (m_is_higher U T D'). shape. destruct smin, smax, omin, omax; cbn; shape; try reflexivity.
  Qed.

  Lemma m_item_intersection s o : bounded s -> bounded o -> g_item_intersection t_cmp t_same (IT s) (IU o) =
    match s, o with Point _, Point _ => Ok GEmpty | _, _ => Err TypeError end.
  Proof.
    intros A B. destruct s as [v|smin smax x y].
    - cbn [carry_item g_item_intersection]. rewrite (m_contains T U D o v B). destruct o; reflexivity.
    - destruct o as [w|omin omax z t].
      + change (g_item_intersection t_cmp t_same (IT (Range smin smax x y)) (IU (Point w))) with
          (let* b := g_item_contains t_cmp t_same (IT (Range smin smax x y)) (Typed U w) in Ok (if b : bool then GItem (GPoint (Typed U w)) else GEmpty)).
        rewrite (m_contains U T D' _ w A). reflexivity.
      + cbn [carry_item g_item_intersection].
        change (GRange (option_map (Typed T) smin) (option_map (Typed T) smax) x y) with (IT (Range smin smax x y)).
        change (GRange (option_map (Typed U) omin) (option_map (Typed U) omax) z t) with (IU (Range omin omax z t)).
        rewrite (m_is_lower T U D), (m_is_higher T U D), (m_is_strictly_lower T U D), (m_is_strictly_higher T U D). shape.
        destruct smin, smax, omin, omax; cbn; shape; try reflexivity.
  Qed.

  Lemma m_item_difference s o : bounded s -> bounded o -> g_item_difference t_cmp t_same (IT s) (IU o) =
    match s, o with Point _, Point _ => Ok (GItem (IT s)) | _, _ => Err TypeError end.
  Proof.
    intros A B. destruct s as [v|smin smax x y].
    - cbn [carry_item g_item_difference]. rewrite (m_contains T U D o v B). destruct o; reflexivity.
    - destruct o as [w|omin omax z t].
      + assert (X := m_contains U T D' _ w A). cbn [carry_item] in X. cbn [carry_item g_item_difference]. rewrite X. reflexivity.
      + assert (X := m_item_intersects _ _ A B). cbn [carry_item] in X. cbn [carry_item g_item_difference]. rewrite X. clear X.
        destruct (same_way_b _ _) eqn:W; [|reflexivity]. cbn [bind negb].
        change (GRange (option_map (Typed T) smin) (option_map (Typed T) smax) x y) with (IT (Range smin smax x y)).
        change (GRange (option_map (Typed U) omin) (option_map (Typed U) omax) z t) with (IU (Range omin omax z t)).
        rewrite (m_is_lower T U D), (m_is_higher T U D). shape. unfold same_way_b in W. unfold i_exclude_min, i_exclude_max.
        destruct smin, smax, omin, omax; cbn [i_min i_max i_include_min i_include_max] in *; try discriminate; shape; reflexivity.
  Qed.

  Lemma m_item_lt s o : bounded s -> bounded o -> g_item_lt t_cmp (IT s) (IU o) =
    match i_min s, i_min o with None, Some _ => Ok true | Some _, None => Ok false | _, _ => Err TypeError end.
  Proof.
    intros A B. unfold g_item_lt, g_item_compare.
    destruct s as [v|[v|] [v'|] x y], o as [w|[w|] [w'|] z t]; cbn; rewrite ?(apart T U D); cbn; shape; rewrite ?(apart T U D); reflexivity.
  Qed.
End Mixed_items.

Lemma sorted_good is : good_items is -> sort is = is.
Proof. intros G. apply SetChains.sort_chain, SetVersions.good_items_chain, G. Qed.

Lemma insert_all (P : item -> Prop) x is : P x -> Forall P is -> Forall P (insert x is).
Proof. intros H F. revert x H. induction F as [|y is Y F IH]; intros x H; cbn; [auto|]. destruct (item_lt y x); constructor; auto. Qed.
Lemma insert_some x is : insert x is <> [].
Proof. destruct is as [|y is]; cbn; [discriminate|]. destruct (item_lt y x); discriminate. Qed.

Section Mixed_sets.
  Context (T U : vtype) (D : T <> U).
  Notation IT := (carry_item (Typed T)).
  Notation IU := (carry_item (Typed U)).
  Let D' : U <> T := not_eq_sym D.
  Let finite_min (i : item) : Prop := i_min i <> None.

  (** Sorting gets stuck, or puts a range without minimum of one class before
      the items of the other. *)
  Let below_all (l : list (gitem typed)) : Prop := exists q ps,
    l = IU q :: map IT ps /\ bounded q /\ i_min q = None /\ Forall bounded ps /\ Forall finite_min ps /\ ps <> [].
  Let above_all (l : list (gitem typed)) : Prop := exists p qs,
    l = IT p :: map IU qs /\ bounded p /\ i_min p = None /\ Forall bounded qs /\ Forall finite_min qs /\ qs <> [].

  Lemma m_insert_first p qs : bounded p -> Forall bounded qs -> Forall finite_min (tl qs) -> qs <> [] ->
    g_insert t_cmp (IT p) (map IU qs) = Err TypeError
    \/ (exists l, g_insert t_cmp (IT p) (map IU qs) = Ok l /\ (below_all l \/ above_all l /\ i_min p = None)).
  Proof.
    intros B F M N. destruct qs as [|q qs]; [now destruct N|]. inversion_clear F as [|? ? Q F']. cbn [tl] in M. cbn [map g_insert].
    rewrite (m_item_lt U T D' q p Q B). destruct (i_min q) as [m|] eqn:Mq, (i_min p) as [n|] eqn:Mp; auto; cbn [bind].
    - right. eexists. split; [reflexivity|]. right. split; [|reflexivity]. exists p, (q :: qs). split; [reflexivity|]. split; [exact B|]. split; [exact Mp|].
      split; [constructor; auto|]. split; [|discriminate]. constructor; [|exact M]. unfold finite_min. congruence.
    - destruct qs as [|r qs].
      + right. eexists. split; [reflexivity|]. left. exists q, [p]. split; [reflexivity|]. split; [exact Q|]. split; [exact Mq|]. split; [auto|].
        split; [|discriminate]. constructor; [|constructor]. unfold finite_min. congruence.
      + cbn [map g_insert]. inversion_clear F' as [|? ? R F'']. inversion_clear M as [|? ? Mr M'].
        rewrite (m_item_lt U T D' r p R B), Mp. unfold finite_min in Mr. destruct (i_min r); [auto|now destruct Mr].
  Qed.

  Lemma m_sort_finite ps qs : Forall bounded ps -> Forall finite_min ps -> ps <> [] -> Forall bounded qs -> good_items qs -> qs <> [] ->
    g_sort t_cmp (map IT ps ++ map IU qs) = Err TypeError \/ exists l, g_sort t_cmp (map IT ps ++ map IU qs) = Ok l /\ below_all l.
  Proof.
    intros B M N F G N'. induction B as [|p ps P B IH]; [now destruct N|]. inversion_clear M as [|? ? Mp M'].
    cbn [map app g_sort]. destruct ps as [|p' ps].
    - cbn [map app]. rewrite (c_sort (Typed U) t_cmp (t_cmp_same U)), (sorted_good qs G). cbn [bind].
      assert (L : Forall finite_min (tl qs)) by (destruct qs; [constructor|exact (later_min _ _ G)]).
      destruct (m_insert_first p qs P F L N') as [H|(l & H & [K|[_ K]])]; [auto|eauto|contradiction].
    - destruct (IH M' ltac:(discriminate)) as [H|(l & H & q & rs & -> & Q & Mq & R & Mr & Nr)]; rewrite H; [auto|]. cbn [bind g_insert].
      rewrite (m_item_lt U T D' q p Q P), Mq. unfold finite_min in Mp. destruct (i_min p) eqn:Ep; [|now destruct Mp]. cbn [bind].
      rewrite (c_insert (Typed T) t_cmp (t_cmp_same T)). cbn [bind]. right. eexists. split; [reflexivity|]. exists q, (insert p rs).
      split; [reflexivity|]. split; [exact Q|]. split; [exact Mq|]. split; [now apply insert_all|]. split; [|apply insert_some].
      apply insert_all; auto. unfold finite_min. congruence.
  Qed.

  Lemma m_sort ps qs : Forall bounded ps -> good_items ps -> ps <> [] -> Forall bounded qs -> good_items qs -> qs <> [] ->
    g_sort t_cmp (map IT ps ++ map IU qs) = Err TypeError \/ exists l, g_sort t_cmp (map IT ps ++ map IU qs) = Ok l /\ (below_all l \/ above_all l).
  Proof.
    intros B Gp N F G N'. destruct ps as [|p ps]; [now destruct N|]. inversion_clear B as [|? ? P B']. assert (L := later_min _ _ Gp).
    cbn [map app g_sort]. destruct ps as [|p' ps].
    - cbn [map app]. rewrite (c_sort (Typed U) t_cmp (t_cmp_same U)), (sorted_good qs G). cbn [bind].
      assert (L' : Forall finite_min (tl qs)) by (destruct qs; [constructor|exact (later_min _ _ G)]).
      destruct (m_insert_first p qs P F L' N') as [H|(l & H & [K|[K _]])]; eauto.
    - destruct (m_sort_finite (p' :: ps) qs B' L ltac:(discriminate) F G N') as [H|(l & H & q & rs & -> & Q & Mq & R & Mr & Nr)]; rewrite H; [auto|]. cbn [bind g_insert].
      rewrite (m_item_lt U T D' q p Q P), Mq. destruct (i_min p) eqn:Ep; auto. cbn [bind].
      rewrite (c_insert (Typed T) t_cmp (t_cmp_same T)). cbn [bind]. right. eexists. split; [reflexivity|]. left. exists q, (insert p rs).
      split; [reflexivity|]. split; [exact Q|]. split; [exact Mq|]. split; [now apply insert_all|]. split; [|apply insert_some].
      apply insert_all; auto. unfold finite_min. congruence.
  Qed.
End Mixed_sets.

(** Then the loop compares the first two. *)
Lemma m_loop T U (D : T <> U) u s o rest : bounded s -> i_min s = None -> bounded o -> i_min o <> None ->
  g_merge_loop t_cmp t_same u (carry_item (Typed T) s) (carry_item (Typed U) o :: rest) = Err TypeError.
Proof.
  intros A M B N. cbn [g_merge_loop]. rewrite (m_item_intersects T U D s o A B).
  assert (W : same_way_b s o = false).
  { unfold same_way_b. rewrite M. destruct A as [_ [A|A]]; [now destruct A|]. destruct (i_min o); [|now destruct N]. destruct (i_max s); [reflexivity|now destruct A]. }
  rewrite W. destruct s; [discriminate|reflexivity].
Qed.

Lemma bounded_not_universal T is : Forall bounded is -> existsb g_item_is_universal (map (carry_item (Typed T)) is) = false.
Proof.
  induction 1 as [|i is B F IH]; [reflexivity|]. cbn [map existsb]. rewrite IH, orb_false_r.
  destruct B as [_ B]. destruct i as [v|[v|] [w|] x y]; try reflexivity. destruct B as [B|B]; now destruct B.
Qed.

Lemma m_merge_items T U (D : T <> U) u sets ps qs : flat_map g_extract sets = map (carry_item (Typed T)) ps ++ map (carry_item (Typed U)) qs ->
  Forall bounded ps -> good_items ps -> ps <> [] -> Forall bounded qs -> good_items qs -> qs <> [] -> g_merge_with t_cmp t_same u sets = Err TypeError.
Proof.
  intros X B Gp N F G N'. unfold g_merge_with. rewrite X. rewrite existsb_app, (bounded_not_universal T ps B), (bounded_not_universal U qs F). cbn [orb].
  assert (S1 := m_sort T U D ps qs B Gp N F G N'). set (l := map (carry_item (Typed T)) ps ++ map (carry_item (Typed U)) qs) in *.
  assert (L : exists x y, l = x :: y).
  { destruct ps as [|p ps]; [now destruct N|]. unfold l. cbn. eauto. }
  destruct L as (x & y & L). clearbody l. rewrite L at 1. destruct S1 as [H|(l' & H & K)]; rewrite H; [reflexivity|]. cbn [bind].
  destruct K as [(q & rs & -> & Q & M & R & F' & Nr)|(q & rs & -> & Q & M & R & F' & Nr)];
    (destruct rs as [|r rs]; [now destruct Nr|]); cbn [map]; inversion_clear R; inversion_clear F'.
  - rewrite (m_loop U T (not_eq_sym D)); auto.
  - rewrite (m_loop T U D); auto.
Qed.

Lemma members_good a : canonical a -> good_items (members a).
Proof. destruct a; cbn [canonical members good_items]; tauto. Qed.
Lemma members_some a : canonical a -> proper a -> members a <> [].
Proof. destruct a as [|i|[|x is]]; cbn; intros C [N _]; try discriminate; [now destruct N|]. destruct C as [_ C]. cbn in C. lia. Qed.
Lemma extract_members T a : g_extract (carry_set (Typed T) a) = map (carry_item (Typed T)) (members a).
Proof. now destruct a. Qed.

Section Mixed_operations.
  Context (T U : vtype) (D : T <> U).
  Notation IT := (carry_item (Typed T)).
  Notation IU := (carry_item (Typed U)).
  Notation VT := (carry_set (Typed T)).
  Notation VU := (carry_set (Typed U)).

  Lemma m_merge a b : canonical a -> canonical b -> proper a -> proper b -> g_merge t_cmp t_same [VT a; VU b] = Err TypeError /\ g_merge t_cmp t_same [VU b; VT a] = Err TypeError.
  Proof.
    intros Ca Cb Pa Pb. assert (Ba := proper_bounded a Ca Pa). assert (Bb := proper_bounded b Cb Pb).
    assert (Na := members_some a Ca Pa). assert (Nb := members_some b Cb Pb). assert (Ga := members_good a Ca). assert (Gb := members_good b Cb).
    split; unfold g_merge.
    - apply (m_merge_items T U D _ _ (members a) (members b)); auto. cbn [flat_map]. now rewrite !extract_members, app_nil_r.
    - apply (m_merge_items U T (not_eq_sym D) _ _ (members b) (members a)); auto. cbn [flat_map]. now rewrite !extract_members, app_nil_r.
  Qed.

  Lemma any_contains v is : Forall bounded is ->
    any_r (fun i => g_item_contains t_cmp t_same i (Typed T v)) (map IU is) = Ok false /\ Forall is_a_point is
    \/ any_r (fun i => g_item_contains t_cmp t_same i (Typed T v)) (map IU is) = Err TypeError /\ ~ Forall is_a_point is.
  Proof.
    induction 1 as [|i is X F IH]; [left; split; [reflexivity|constructor]|]. cbn [map any_r]. rewrite (m_contains T U D i v X).
    destruct i as [w|m M x y].
    - cbn [bind]. destruct IH as [[H K]|[H K]]; rewrite H; [left|right]; split; auto.
      + constructor; [now exists w|exact K].
      + intros Z. inversion_clear Z. auto.
    - right. split; [reflexivity|]. intros Z. inversion_clear Z as [|? ? [w E] _]. discriminate.
  Qed.
  Lemma m_set_contains b v : canonical b -> proper b -> g_contains t_cmp t_same (VU b) (Typed T v) = Ok false /\ Forall is_a_point (members b)
    \/ g_contains t_cmp t_same (VU b) (Typed T v) = Err TypeError /\ ~ Forall is_a_point (members b).
  Proof.
    intros Cb Pb. assert (X := any_contains v (members b) (proper_bounded b Cb Pb)). destruct b as [|i|is]; [destruct Pb as [N _]; now destruct N| |exact X].
    cbn [members map any_r carry_set g_contains] in *. destruct (g_item_contains t_cmp t_same (IU i) (Typed T v)) as [[|]|]; exact X.
  Qed.

  Theorem mixed_equal a b : canonical a -> canonical b -> proper a -> proper b -> t_set_eqb (VT a) (VU b) = false.
  Proof.
    intros Ca Cb Pa Pb. assert (Ba := proper_bounded a Ca Pa). assert (Bb := proper_bounded b Cb Pb).
    unfold t_set_eqb. destruct a as [|i|is], b as [|j|js]; try reflexivity.
    - destruct Pa as [N _]. now destruct N.
    - cbn [carry_set g_set_eqb members] in *. apply (m_eqb T U D); [inversion_clear Ba|inversion_clear Bb]; assumption.
    - cbn [carry_set g_set_eqb members] in *. destruct is as [|i is]; [destruct Ca as [_ L]; cbn in L; lia|]. destruct js as [|j js]; [reflexivity|].
      cbn [map g_items_eqb]. rewrite (m_eqb T U D); [reflexivity|inversion_clear Ba|inversion_clear Bb]; assumption.
  Qed.

  Theorem mixed_union a b : canonical a -> canonical b -> proper a -> proper b -> t_union (VT a) (VU b) = Err TypeError.
  Proof.
    intros Ca Cb Pa Pb. assert (Ba := proper_bounded a Ca Pa). assert (Bb := proper_bounded b Cb Pb).
    unfold t_union. destruct (m_merge a b Ca Cb Pa Pb) as [M1 M2]. assert (S1 := fun v => m_set_contains b v Cb Pb). assert (Xa := Ba). assert (Xb := Bb). clear Ba Bb.
    destruct a as [|s|xs]; [destruct Pa as [N _]; now destruct N| |].
    - destruct b as [|o|ys]; [destruct Pb as [N _]; now destruct N| |].
      + inversion_clear Xa as [|? ? Hs _]. inversion_clear Xb as [|? ? Ho _]. cbn [carry_set g_union].
        assert (F : forall n, g_merge_with t_cmp t_same (g_item_union t_cmp t_same n) [GItem (IT s); GItem (IU o)] = Err TypeError).
        { intros n. apply (m_merge_items T U D _ _ [s] [o]); cbn; auto; try discriminate. }
        assert (Dep : exists n, depth = S n) by (exists 299; reflexivity). destruct Dep as [n Dep]. rewrite Dep. clear Dep M1 M2. cbn [g_item_union]. specialize (F n).
        assert (K1 := m_contains T U D o). assert (K2 := m_contains U T (not_eq_sym D) s).
        assert (K3 := m_not_adjacent T U D s o Hs Ho). assert (K4 := m_item_intersects T U D s o Hs Ho).
        assert (K5 := m_is_lower T U D s o). assert (K6 := m_is_higher T U D s o).
        destruct s as [v|smin smax x y], o as [w|omin omax z t]; cbn [carry_item] in *.
        * rewrite (apart_eq T U D). exact F.
        * rewrite (K1 v Ho). reflexivity.
        * rewrite (K2 w Hs). reflexivity.
        * rewrite K3, K4. cbn [negb and_r bind]. destruct (same_way_b _ _) eqn:W; [|reflexivity]. cbn [not_r rmap bind negb]. rewrite K5, K6.
          clear K1 K2 K3 K4 K5 K6 F. unfold i_exclude_min, i_exclude_max.
          destruct Hs as [_ Hs], Ho as [_ Ho]. unfold same_way_b in W. destruct smin, smax, omin, omax; cbn [i_min i_max i_include_min i_include_max] in *;
            try discriminate; try reflexivity; first [destruct Hs as [Hs|Hs]; now destruct Hs|destruct Ho as [Ho|Ho]; now destruct Ho].
      + cbn [carry_set g_union]. destruct s as [v|smin smax x y]; [|exact M2]. cbn [carry_item]. destruct (S1 v) as [[H _]|[H _]]; cbn [carry_set] in H; rewrite H; [|reflexivity].
        exact M1.
    - exact M1.
  Qed.

  Theorem mixed_symmetric_difference a b : canonical a -> canonical b -> proper a -> proper b -> t_symmetric_difference (VT a) (VU b) = Err (match a with Union _ => AttributeError | _ => TypeError end).
  Proof.
    intros Ca Cb Pa Pb. assert (Ba := proper_bounded a Ca Pa). assert (Bb := proper_bounded b Cb Pb).
    assert (X := mixed_union a b Ca Cb Pa Pb). unfold t_symmetric_difference, t_union in *. destruct a as [|s|xs]; [destruct Pa as [N _]; now destruct N| |reflexivity].
    cbn [carry_set g_symmetric_difference] in *. rewrite X. reflexivity.
  Qed.

  Theorem mixed_intersection a b : canonical a -> canonical b -> proper a -> proper b ->
    ((exists v, a = Item (Point v)) /\ Forall is_a_point (members b) -> t_intersection (VT a) (VU b) = Ok GEmpty)
    /\ (~ ((exists v, a = Item (Point v)) /\ Forall is_a_point (members b)) -> t_intersection (VT a) (VU b) = Err TypeError).
  Proof.
    intros Ca Cb Pa Pb. assert (Ba := proper_bounded a Ca Pa). assert (Bb := proper_bounded b Cb Pb).
    unfold t_intersection. assert (S1 := fun v => m_set_contains b v Cb Pb). assert (Xa := Ba). assert (Xb := Bb). clear Ba Bb.
    assert (L : forall W V' (DD : W <> V') x xs y ys, bounded x -> bounded y ->
      g_intersection_loop t_cmp t_same (carry_item (Typed W) x :: xs) (carry_item (Typed V') y :: ys) = Err TypeError).
    { intros W V' DD x xs y ys Hx Hy. change ((let* r := g_item_intersection t_cmp t_same (carry_item (Typed W) x) (carry_item (Typed V') y) in
        let* h := g_is_higher t_cmp (carry_item (Typed V') y) (carry_item (Typed W) x) in
        let* rest := (if h : bool then g_intersection_loop t_cmp t_same xs (carry_item (Typed V') y :: ys) else g_intersection_loop t_cmp t_same (carry_item (Typed W) x :: xs) ys) in
        Ok (match r with GItem x => x :: rest | _ => rest end)) = Err TypeError).
      rewrite (m_item_intersection W V' DD x y Hx Hy), (m_is_higher V' W (not_eq_sym DD)). destruct x, y; reflexivity. }
    destruct a as [|s|xs]; [destruct Pa as [N _]; now destruct N| |].
    - destruct s as [v|smin smax x y].
      + cbn [carry_set carry_item g_intersection]. destruct (S1 v) as [[H K]|[H K]]; rewrite H; (split; [intros [_ Z]|intros Z]); try reflexivity; [|contradiction].
        destruct Z. split; [now exists v|exact K].
      + assert (N0 : ~ ((exists v, Item (Range smin smax x y) = Item (Point v)) /\ Forall is_a_point (members b))) by (intros [[v E] _]; discriminate).
        split; [intros Z; contradiction|intros _]. clear N0. inversion_clear Xa as [|? ? Hs _].
        destruct b as [|o|ys]; [destruct Pb as [N _]; now destruct N| |].
        * inversion_clear Xb as [|? ? Ho _]. change (g_item_intersection t_cmp t_same (IT (Range smin smax x y)) (IU o) = Err TypeError).
          rewrite (m_item_intersection T U D _ _ Hs Ho). reflexivity.
        * destruct ys as [|o ys]; [destruct Cb as [_ L']; cbn in L'; lia|]. inversion_clear Xb as [|? ? Ho _].
          change (g_union_intersection t_cmp t_same (IU o :: map IU ys) (GItem (IT (Range smin smax x y))) = Err TypeError).
          unfold g_union_intersection. cbn [g_extract]. rewrite (L U T (not_eq_sym D)); auto.
    - split; [intros [[v E] _]; discriminate|intros _]. destruct xs as [|s xs]; [destruct Ca as [_ L']; cbn in L'; lia|]. inversion_clear Xa as [|? ? Hs _].
      cbn [carry_set map g_intersection]. unfold g_union_intersection. rewrite extract_members.
      destruct (members b) as [|o ys] eqn:E; [destruct (members_some b Cb Pb E)|]. inversion_clear Xb as [|? ? Ho _]. cbn [map]. rewrite (L T U D); auto.
  Qed.

  Theorem mixed_difference a b : canonical a -> canonical b -> proper a -> proper b ->
    ((exists v, a = Item (Point v)) /\ Forall is_a_point (members b) -> t_difference (VT a) (VU b) = Ok (VT a))
    /\ (~ ((exists v, a = Item (Point v)) /\ Forall is_a_point (members b)) -> t_difference (VT a) (VU b) = Err TypeError).
  Proof.
    intros Ca Cb Pa Pb. assert (Ba := proper_bounded a Ca Pa). assert (Bb := proper_bounded b Cb Pb).
    unfold t_difference. assert (S1 := fun v => m_set_contains b v Cb Pb). assert (Xa := Ba). assert (Xb := Bb). clear Ba Bb.
    destruct a as [|s|xs]; [destruct Pa as [N _]; now destruct N| |].
    - destruct s as [v|smin smax x y].
      + cbn [carry_set carry_item g_difference]. destruct (S1 v) as [[H K]|[H K]]; rewrite H; (split; [intros [_ Z]|intros Z]); try reflexivity; [|contradiction].
        destruct Z. split; [now exists v|exact K].
      + assert (N0 : ~ ((exists v, Item (Range smin smax x y) = Item (Point v)) /\ Forall is_a_point (members b))) by (intros [[v E] _]; discriminate).
        split; [intros Z; contradiction|intros _]. clear N0. inversion_clear Xa as [|? ? Hs _].
        destruct b as [|o|ys]; [destruct Pb as [N _]; now destruct N| |].
        * inversion_clear Xb as [|? ? Ho _]. change (g_item_difference t_cmp t_same (IT (Range smin smax x y)) (IU o) = Err TypeError).
          rewrite (m_item_difference T U D _ _ Hs Ho). reflexivity.
        * destruct ys as [|o ys]; [destruct Cb as [_ L']; cbn in L'; lia|]. inversion_clear Xb as [|? ? Ho _].
          change (bind (g_difference_iterator t_cmp t_same (IT (Range smin smax x y)) (IU o :: map IU ys)) (fun ds => g_merge t_cmp t_same (map GItem ds)) = Err TypeError).
          cbn [g_difference_iterator]. rewrite (m_is_strictly_lower U T (not_eq_sym D)), (m_is_strictly_higher U T (not_eq_sym D)), (m_item_difference T U D _ _ Hs Ho).
          destruct (i_max o), (i_min o); cbn [i_min i_max]; destruct smin, smax; reflexivity.
    - split; [intros [[v E] _]; discriminate|intros _]. destruct xs as [|s xs]; [destruct Ca as [_ L']; cbn in L'; lia|]. inversion_clear Xa as [|? ? Hs _].
      cbn [carry_set map g_difference]. rewrite extract_members.
      destruct (members b) as [|o ys] eqn:E; [destruct (members_some b Cb Pb E)|]. inversion_clear Xb as [|? ? Ho _]. cbn [map].
      unfold g_items_difference. cbn [g_next_or_none]. cbn [g_loop]. unfold g_step at 1. cbn [gd_current gd_other].
      rewrite (m_is_strictly_lower U T (not_eq_sym D)), (m_is_strictly_higher U T (not_eq_sym D)), (m_item_difference T U D _ _ Hs Ho).
      destruct s as [v|smin smax x y], o as [w|omin omax z t]; cbn [i_min i_max]; try reflexivity.
      + destruct omin, omax; reflexivity.
      + destruct smin, smax; reflexivity.
      + destruct smin, smax, omin, omax; reflexivity.
  Qed.

  Theorem mixed_intersects a b s o : canonical a -> canonical b -> proper a -> proper b -> leads s a -> leads o b ->
    (t_intersects (VT a) (VU b) = Ok true <-> same_way s o)
    /\ (t_intersects (VT a) (VU b) = Ok false <-> (exists v, a = Item (Point v)) /\ Forall is_a_point (members b))
    /\ (t_intersects (VT a) (VU b) = Ok true \/ t_intersects (VT a) (VU b) = Ok false \/ t_intersects (VT a) (VU b) = Err TypeError).
  Proof.
    intros Ca Cb Pa Pb. assert (Ba := proper_bounded a Ca Pa). assert (Bb := proper_bounded b Cb Pb). intros La Lb. unfold t_intersects. assert (S1 := fun v => m_set_contains b v Cb Pb). assert (Xa := Ba). assert (Xb := Bb). clear Ba Bb.
    assert (R : forall v, ~ same_way (Point v) o) by (intros v [[E _]|[E _]]; discriminate).
    assert (K0 : bounded s /\ bounded o).
    { destruct (leads_first _ _ La) as [r E]. rewrite E in Xa. destruct (leads_first _ _ Lb) as [r' E']. rewrite E' in Xb. inversion Xa. inversion Xb. auto. }
    destruct K0 as [Hs Ho].
    assert (Y : forall r : result bool, (r = if same_way_b s o then Ok true else Err TypeError) -> ~ ((exists v, a = Item (Point v)) /\ Forall is_a_point (members b)) ->
      (r = Ok true <-> same_way s o) /\ (r = Ok false <-> (exists v, a = Item (Point v)) /\ Forall is_a_point (members b)) /\ (r = Ok true \/ r = Ok false \/ r = Err TypeError)).
    { intros r -> N. rewrite same_way_iff. destruct (same_way_b s o); (split; [split; congruence|]); (split; [|auto]); (split; [discriminate|contradiction]). }
    destruct a as [|s'|xs]; [contradiction| |].
    - cbn in La. subst s'. destruct s as [v|smin smax x y].
      + cbn [carry_set carry_item g_intersects]. destruct (S1 v) as [[H K]|[H K]]; rewrite H.
        * split; [split; [discriminate|intros Z; destruct (R v Z)]|]. split; [|auto]. split; [intros _; split; [now exists v|exact K]|reflexivity].
        * split; [split; [discriminate|intros Z; destruct (R v Z)]|]. split; [|auto]. split; [discriminate|intros [_ Z]; contradiction].
      + apply Y; [|intros [[v E] _]; discriminate]. destruct b as [|o'|ys]; [contradiction| |].
        * cbn in Lb. subst o'. change (g_item_intersects t_cmp t_same (IT (Range smin smax x y)) (IU o) = if same_way_b (Range smin smax x y) o then Ok true else Err TypeError).
          now rewrite (m_item_intersects T U D _ _ Hs Ho).
        * destruct Lb as [rest ->]. cbn [carry_set carry_item g_intersects map any_r].
          change (GRange (option_map (Typed T) smin) (option_map (Typed T) smax) x y) with (IT (Range smin smax x y)).
          rewrite (m_item_intersects T U D _ _ Hs Ho). destruct (same_way_b _ _); reflexivity.
    - destruct La as [rest ->]. apply Y; [|intros [[v E] _]; discriminate]. destruct (leads_first _ _ Lb) as [r' E'].
      cbn [carry_set map g_intersects]. rewrite extract_members, E'. cbn [map].
      change (bind (g_item_intersects t_cmp t_same (IT s) (IU o)) (fun b => if b : bool then Ok true else
        let* h := g_is_higher t_cmp (IU o) (IT s) in
        if h : bool then g_intersects_loop t_cmp t_same (map IT rest) (IU o :: map IU r') else g_intersects_loop t_cmp t_same (IT s :: map IT rest) (map IU r'))
        = if same_way_b s o then Ok true else Err TypeError).
      rewrite (m_item_intersects T U D _ _ Hs Ho), (m_is_higher U T (not_eq_sym D)). destruct s, o; try reflexivity; destruct (same_way_b _ _); reflexivity.
  Qed.

  Theorem mixed_includes a b o : canonical a -> canonical b -> proper a -> proper b -> leads o b ->
    (Forall (fun s => misses s o) (members a) -> t_includes (VT a) (VU b) = Ok false)
    /\ (~ Forall (fun s => misses s o) (members a) -> t_includes (VT a) (VU b) = Err TypeError).
  Proof.
    intros Ca Cb Pa Pb. assert (Ba := proper_bounded a Ca Pa). assert (Bb := proper_bounded b Cb Pb). intros Lb. unfold t_includes. assert (Xa := Ba). assert (Xb := Bb). clear Ba Bb.
    destruct (leads_first _ _ Lb) as [r' E']. assert (Ho : bounded o) by (rewrite E' in Xb; now inversion Xb).
    assert (Y : forall s, bounded s -> members a = [s] -> forall r : result bool, (r = if misses_b s o then Ok false else Err TypeError) ->
      (Forall (fun s => misses s o) (members a) -> r = Ok false) /\ (~ Forall (fun s => misses s o) (members a) -> r = Err TypeError)).
    { intros s Hs -> r ->. split; intros F.
      - inversion_clear F as [|? ? M _]. apply misses_iff in M. now rewrite M.
      - destruct (misses_b s o) eqn:M; [|reflexivity]. destruct F. constructor; [now apply misses_iff|constructor]. }
    destruct a as [|s|xs]; [destruct Pa as [N _]; now destruct N| |].
    - inversion_clear Xa as [|? ? Hs _]. apply (Y s Hs eq_refl). clear Y. destruct s as [v|smin smax x y].
      + assert (Z := m_item_includes T U D (Point v) o Hs Ho). cbn [carry_set carry_item g_includes g_item_includes misses_b] in *.
        destruct b as [|o'|ys]; [contradiction| |]; cbn [carry_set g_is_empty] in *; [cbn in Lb; subst o'; exact Z|reflexivity].
      + destruct b as [|o'|ys]; [contradiction| |].
        * cbn in Lb. subst o'. exact (m_item_includes T U D _ _ Hs Ho).
        * destruct Lb as [rest ->]. cbn [carry_set carry_item g_includes map all_r].
          change (GRange (option_map (Typed T) smin) (option_map (Typed T) smax) x y) with (IT (Range smin smax x y)).
          rewrite (m_item_includes T U D _ _ Hs Ho). destruct (misses_b _ _); reflexivity.
    - clear Y. cbn [carry_set g_includes members] in *. rewrite extract_members, E'. cbn [map]. clear Ca Pa. induction Xa as [|s xs Hs F IH].
      + split; [reflexivity|intros N; destruct N; constructor].
      + cbn [map].
        assert (Q : g_includes_loop t_cmp t_same (IT s :: map IT xs) (IU o :: map IU r') = if misses_b s o then g_includes_loop t_cmp t_same (map IT xs) (IU o :: map IU r') else Err TypeError).
        { change (bind (g_item_includes t_cmp t_same (IT s) (IU o)) (fun b => if b : bool then g_includes_loop t_cmp t_same (IT s :: map IT xs) (map IU r')
            else g_includes_loop t_cmp t_same (map IT xs) (IU o :: map IU r')) = if misses_b s o then g_includes_loop t_cmp t_same (map IT xs) (IU o :: map IU r') else Err TypeError).
          rewrite (m_item_includes T U D _ _ Hs Ho). destruct (misses_b s o); reflexivity. }
        rewrite Q. destruct (misses_b s o) eqn:M.
        * apply misses_iff in M. destruct IH as [I1 I2]. split; intros Z; [apply I1; now inversion_clear Z|apply I2]. intros Z'. apply Z. now constructor.
        * split; [|reflexivity]. intros Z. inversion_clear Z as [|? ? M' _]. apply misses_iff in M'. congruence.
  Qed.
End Mixed_operations.
