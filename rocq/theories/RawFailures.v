(** How operations on unions made without checks may fail. *)

From Coq Require Import List ZArith NArith String Bool Lia Permutation.
From Verif Require Import Py Segments Version VersionSets Operators Specifiers Orders Spec OrderFacts Cuts SetItems SetChains SetMerge SetOps SetVersions SetTheorems SetAlgebra LooseSpec LooseFacts RawFacts SetStrings.
Import ListNotations.
Open Scope Z_scope.

(** A set of items the constructors accept, or RecursionError. *)
Definition fair (r : result vset) : Prop := (exists a, r = Ok a /\ Forall made (extract a)) \/ r = Err RecursionError.
Definition fair_items (r : result (list item)) : Prop := (exists xs, r = Ok xs /\ Forall made xs) \/ r = Err RecursionError.

Definition touching (s o : item) : bool := item_intersects s o || is_adjacent s o.

Definition joins (u : item -> item -> result vset) : Prop :=
  forall s o, made s -> made o -> touching s o = true -> (exists i, u s o = Ok (Item i) /\ made i) \/ u s o = Err RecursionError.

Lemma touching_sym s o : made s -> made o -> touching s o = touching o s.
Proof. intros A B. apply made_valid in A, B. unfold touching. rewrite (intersects_sym s o), (adjacent_sym s o); auto. Qed.

Lemma merge_loop_fair u rest : joins u -> forall cur, Forall made (cur :: rest) ->
  (exists ys, merge_loop u cur rest = Ok ys /\ Forall made ys /\ ys <> [] /\ (List.length ys <= S (List.length rest))%nat) \/ merge_loop u cur rest = Err RecursionError.
Proof.
  intros U. induction rest as [|x rest IH]; intros cur F; cbn [merge_loop].
  - left. exists [cur]. split; [reflexivity|]. split; [exact F|]. split; [discriminate|cbn; lia].
  - inversion F as [|? ? Mc F']; subst. inversion F' as [|? ? Mx Fr]; subst. fold (touching cur x). destruct (touching cur x) eqn:T.
    + destruct (U cur x Mc Mx T) as [(i & -> & Mi)| ->]; [|now right]. cbn [bind]. destruct (IH i) as [(ys & -> & Y & N & L)| ->]; [now constructor| |now right].
      left. exists ys. split; [reflexivity|]. split; [exact Y|]. split; [exact N|cbn [List.length]; lia].
    + destruct (IH x F') as [(ys & -> & Y & N & L)| ->]; [|now right]. left. exists (cur :: ys). split; [reflexivity|]. split; [now constructor|]. split; [discriminate|cbn [List.length]; lia].
Qed.

Lemma merge_with_fair u sets : joins u -> Forall made (flat_map extract sets) ->
  (exists a, merge_with u sets = Ok a /\ Forall made (extract a) /\ (List.length (extract a) <= List.length (flat_map extract sets))%nat) \/ merge_with u sets = Err RecursionError.
Proof.
  intros U. unfold merge_with. generalize (flat_map extract sets). intros xs F. destruct xs as [|x0 xs0] eqn:EX; [left; exists Empty; repeat split; [constructor|cbn; lia]|].
  rewrite <- EX in *. assert (LX : (1 <= List.length xs)%nat) by (rewrite EX; cbn; lia). clear EX.
  destruct (existsb item_is_universal xs); [left; exists UNIVERSAL_SET; split; [reflexivity|]; split; [constructor; [reflexivity|constructor]|exact LX]|].
  pose proof (sort_perm xs) as P. destruct (sort xs) as [|x rest] eqn:S; [left; exists Empty; repeat split; [constructor|cbn; lia]|].
  assert (F' : Forall made (x :: rest)) by (eapply Permutation_Forall; [apply Permutation_sym, P|exact F]). apply Permutation_length in P. cbn [List.length] in P.
  destruct (merge_loop_fair u rest U x F') as [(ys & -> & Y & N & L)| ->]; [|now right]. cbn [bind]. left.
  destruct ys as [|y [|z ys]]; [now destruct N|..].
  - exists (Item y). split; [reflexivity|]. split; [exact Y|]. cbn in *. lia.
  - exists (Union (y :: z :: ys)). split; [reflexivity|]. split; [exact Y|]. cbn [extract]. lia.
Qed.

(** Two items that touch. *)
Lemma pair_joined u s o : joins u -> made s -> made o -> touching s o = true ->
  (exists i, merge_with u [Item s; Item o] = Ok (Item i) /\ made i) \/ merge_with u [Item s; Item o] = Err RecursionError.
Proof.
  intros U Ms Mo T. unfold merge_with. cbn [flat_map extract app]. destruct (existsb item_is_universal [s; o]); [left; exists UNIVERSAL; split; reflexivity|].
  cbn [sort fold_right insert]. destruct (item_lt o s).
  - cbn [merge_loop]. fold (touching o s). rewrite <- touching_sym, T by auto. destruct (U o s Mo Ms) as [(i & -> & Mi)| ->]; [now rewrite <- touching_sym| |now right].
    left. exists i. split; [reflexivity|exact Mi].
  - cbn [merge_loop]. fold (touching s o). rewrite T. destruct (U s o Ms Mo T) as [(i & -> & Mi)| ->]; [|now right]. left. exists i. split; [reflexivity|exact Mi].
Qed.

Lemma range_again min max imin imax : made (Range min max imin imax) -> range_new min max imin imax = Ok (Range min max imin imax).
Proof. exact (fun H => H). Qed.

Lemma item_union_joins n : joins (item_union n).
Proof.
  induction n as [|n IH]; intros s o Ms Mo T; [now right|].
  pose proof (pair_joined (item_union n) s o IH Ms Mo T) as P.
  destruct s as [v|smin smax simin simax], o as [w|omin omax oimin oimax].
  - cbn [item_union]. destruct (v_eq v w); [left; eauto|exact P].
  - cbn [item_union]. destruct (item_contains _ v); [left; eauto|exact P].
  - destruct (range_point_union n (Range smin smax simin simax) w I) as [A B]; [now apply made_valid|].
    assert (X : exists i, item_union (S n) (Range smin smax simin simax) (Point w) = Ok (Item i)).
    { assert (D : union_lost (Range smin smax simin simax) (Point w) \/ ~ union_lost (Range smin smax simin simax) (Point w)).
      { destruct smin as [m|], smax as [M|], simax; cbn [union_lost]; try tauto. destruct (v_eq w m), (v_eq w M); auto; right; intros []; discriminate. }
      destruct D as [D|D]; [destruct (A D) as (a & E & _); eauto|]. destruct (B D) as (a & E & H & _). destruct H as (i & ->); eauto. now apply orb_true_iff in T. }
    destruct X as (i & X). left. exists i. split; [exact X|]. pose proof (item_union_made (S n) _ _ _ Ms Mo X) as Q. now inversion Q.
  - destruct (ranges_union n (Range smin smax simin simax) (Range omin omax oimin oimax) I I) as (a & E & _); [now apply made_valid..|].
    pose proof (item_union_made (S n) _ _ _ Ms Mo E) as Q. rewrite E. cbn [item_union] in E. rewrite <- negb_orb, orb_comm in E. fold (touching (Range smin smax simin simax) (Range omin omax oimin oimax)) in E.
    rewrite T in E. cbn [negb] in E. destruct (if is_lower _ _ then _ else _) as [m i]. destruct (if is_higher _ _ then _ else _) as [M j].
    destruct (range_new m M i j) as [x|] eqn:R; [|discriminate]. cbn [bind] in E. injection E as <-. left. exists x. split; [reflexivity|]. now inversion Q.
Qed.

Lemma made_flat sets : Forall (fun a => Forall made (extract a)) sets -> Forall made (flat_map extract sets).
Proof. apply Forall_flat_map. Qed.

Lemma item_sets_made xs : Forall made xs -> Forall made (flat_map extract (map Item xs)).
Proof. induction 1; cbn; auto. Qed.

Theorem raw_merge_fair sets : Forall (fun a => Forall made (extract a)) sets -> fair (merge sets).
Proof.
  intros F. apply made_flat in F. destruct (merge_with_fair (item_union depth) sets (item_union_joins depth) F) as [(a & E & M & _)|E]; [left|right]; eauto.
Qed.

Lemma item_union_fair n s o : made s -> made o -> fair (item_union n s o).
Proof.
  intros Ms Mo. destruct n as [|n]; [now right|].
  assert (K : fair (merge_with (item_union n) [Item s; Item o])).
  { destruct (merge_with_fair (item_union n) [Item s; Item o] (item_union_joins n)) as [(a & E & M & _)|E]; [cbn; auto|left; eauto|now right]. }
  assert (R : forall r, item_union (S n) s o = Ok r -> fair (item_union (S n) s o)).
  { intros r E. left. exists r. split; [exact E|]. exact (item_union_made _ _ _ _ Ms Mo E). }
  destruct s as [v|smin smax simin simax], o as [w|omin omax oimin oimax].
  - cbn [item_union] in *. destruct (v_eq v w); [eapply R; reflexivity|exact K].
  - cbn [item_union] in *. destruct (item_contains _ v); [eapply R; reflexivity|exact K].
  - destruct (range_point_union n (Range smin smax simin simax) w I) as [A B]; [now apply made_valid|].
    assert (D : union_lost (Range smin smax simin simax) (Point w) \/ ~ union_lost (Range smin smax simin simax) (Point w)).
    { destruct smin as [m|], smax as [M|], simax; cbn [union_lost]; try tauto. destruct (v_eq w m), (v_eq w M); auto; right; intros []; discriminate. }
    destruct D as [D|D]; [destruct (A D) as (a & E & _); eauto|]. destruct (B D) as (a & E & _). eauto.
  - destruct (ranges_union n (Range smin smax simin simax) (Range omin omax oimin oimax) I I) as (a & E & _); [now apply made_valid..|]. eauto.
Qed.

Theorem raw_union_fair a b : Forall made (extract a) -> Forall made (extract b) -> fair (union a b).
Proof.
  intros A B. unfold union.
  assert (OA : fair (Ok a)) by (left; eauto). assert (OB : fair (Ok b)) by (left; eauto).
  assert (M1 : fair (merge [a; b])) by (apply raw_merge_fair; auto). assert (M2 : fair (merge [b; a])) by (apply raw_merge_fair; auto).
  destruct a as [|s|xs]; auto. inversion A; subst. destruct b as [|o|ys]; auto.
  - inversion B; subst. now apply item_union_fair.
  - destruct s; auto. destruct (contains _ _); auto.
Qed.

Lemma item_intersection_fair s o : made s -> made o -> exists r, item_intersection s o = Ok r /\ Forall made (extract r).
Proof.
  intros Ms Mo. rewrite item_intersection_sets. destruct (loose_intersection s o Ms Mo) as (r & E & M & N & _). exists r. split; [exact E|].
  destruct r as [|i|l]; [constructor|constructor; [now apply M|constructor]|now destruct (N l)].
Qed.

Lemma intersection_loop_fair selfs : Forall made selfs -> forall items, Forall made items -> exists xs, intersection_loop selfs items = Ok xs /\ Forall made xs.
Proof.
  induction 1 as [|s selfs Ms F IH]; intros items G; [exists []; split; [reflexivity|constructor]|].
  induction G as [|i items Mi G IHi]; [exists []; split; [reflexivity|constructor]|]. cbn [intersection_loop].
  destruct (item_intersection_fair s i Ms Mi) as (r & -> & R). cbn [bind].
  assert (X : exists xs, (if is_higher i s then intersection_loop selfs (i :: items) else intersection_loop (s :: selfs) items) = Ok xs /\ Forall made xs).
  { destruct (is_higher i s); [apply IH; now constructor|exact IHi]. }
  destruct X as (xs & E & X). change ((fix inner (items0 : list item) : result (list item) := _) items) with (intersection_loop (s :: selfs) items). rewrite E. cbn [bind].
  eexists. split; [reflexivity|]. destruct r as [|x|l]; auto. inversion R; subst. now constructor.
Qed.

Theorem raw_intersection_fair a b : Forall made (extract a) -> Forall made (extract b) -> fair (intersection a b).
Proof.
  assert (U : forall xs b, Forall made xs -> Forall made (extract b) -> fair (union_intersection xs b)).
  { intros xs c F C. unfold union_intersection. destruct (intersection_loop_fair xs F (extract c) C) as (ys & -> & Y). cbn [bind].
    apply raw_merge_fair, Forall_map. eapply Forall_impl; [|exact Y]. intros i Hi. now constructor. }
  intros A B. unfold intersection. destruct a as [|s|xs]; [left; exists Empty; auto| |now apply U]. inversion A; subst. destruct s as [v|? ? ? ?].
  - left. destruct (contains b v); eexists; (split; [reflexivity|]); auto.
  - destruct b as [|o|ys]; [left; exists Empty; auto| |apply U; auto]. inversion B; subst.
    destruct (item_intersection_fair (Range min max include_min include_max) o) as (r & E & R); auto. left. eauto.
Qed.

(** ** Differences *)

Definition pair_or_less (a : vset) : Prop := match a with Union l => exists x y, l = [x; y] | _ => True end.

Lemma merge_two b a : made b -> made a -> (exists r, merge [Item b; Item a] = Ok r /\ Forall made (extract r) /\ pair_or_less r) \/ merge [Item b; Item a] = Err RecursionError.
Proof.
  intros B A. destruct (merge_with_fair (item_union depth) [Item b; Item a] (item_union_joins depth)) as [(r & E & M & L)|E]; [cbn; auto|left|now right].
  exists r. split; [exact E|]. split; [exact M|]. destruct r as [|i|l]; cbn [pair_or_less]; auto. cbn [extract flat_map app List.length] in L.
  assert (N : (2 <= List.length l)%nat).
  { unfold merge_with in E. cbn [flat_map extract app] in E. destruct (existsb _ _); [discriminate|]. destruct (sort [b; a]) as [|x rest]; [discriminate|].
    destruct (merge_loop _ x rest) as [ys|]; [|discriminate]. cbn [bind] in E. destruct ys as [|y [|z ys]]; [discriminate..|]. injection E as <-. cbn [List.length]. lia. }
  destruct l as [|x [|y [|z l]]]; cbn in L, N; try lia. eauto.
Qed.

Lemma item_difference_fair s o : made s -> made o ->
  (exists r, item_difference s o = Ok r /\ Forall made (extract r) /\ pair_or_less r) \/ item_difference s o = Err RecursionError.
Proof.
  intros Ms Mo. assert (L : (exists r, item_difference s o = Ok r) \/ item_difference s o = Err RecursionError).
  { destruct (loose_difference s o Ms Mo) as [A B].
    assert (D : difference (Item s) (Item o) = item_difference s o) by now destruct s.
    rewrite D in *. assert (X : difference_clash s o \/ ~ difference_clash s o).
    { destruct s as [|[m|] smax [] ?], o as [|[n|] [N|] [] []]; cbn [difference_clash]; try tauto.
      all: destruct (v_eq m n), (v_eq n N); try (right; intros (? & ? & ?); congruence).
      all: destruct smax as [M|]; [destruct (v_lt N M)|]; auto; right; intros (? & ? & ?); congruence. }
    destruct X as [X|X]; [right; now apply A|left]. destruct (B X) as (r & E & _). eauto. }
  assert (OS : forall r, Ok (Item s) = Ok r -> Forall made (extract r) /\ pair_or_less r) by (intros r [= <-]; split; [constructor; auto|exact I]).
  assert (R : forall m M a b r, (let* x := range_new m M a b in Ok (Item x)) = Ok r -> Forall made (extract r) /\ pair_or_less r).
  { intros m M a b r X. destruct (range_new m M a b) as [i|e] eqn:N; [|discriminate]. cbn [bind] in X. injection X as <-. split; [constructor; [exact (range_new_made _ _ _ _ _ N)|constructor]|exact I]. }
  assert (T : forall b a r, made b -> made a -> merge [Item b; Item a] = Ok r -> Forall made (extract r) /\ pair_or_less r).
  { intros b a r B A E. destruct (merge_two b a B A) as [(r' & E' & M & P)|E']; rewrite E' in E; [injection E as <-; auto|discriminate]. }
  destruct L as [(r & E)|E]; [left|now right]. exists r. split; [exact E|]. revert E. unfold item_difference.
  destruct s as [v|smin smax simin simax]; [destruct (item_contains o v); intros E; [injection E as <-; repeat constructor|auto]|].
  destruct o as [w|omin omax oimin oimax].
  - destruct (negb _); [auto|]. destruct (o_eq _ smin); [destruct (negb simin); eauto|]. destruct (o_eq _ smax); [destruct (negb simax); eauto|].
    destruct (range_new smin _ _ _) as [l|] eqn:N1; [|discriminate]. cbn [bind]. destruct (range_new _ smax _ _) as [l'|] eqn:N2; [|discriminate]. cbn [bind].
    apply range_new_made in N1, N2. eauto.
  - destruct (negb (item_intersects _ _)); [auto|]. intros E.
    match type of E with bind ?x _ = _ => destruct x as [before|] eqn:EB; [|discriminate] end. cbn [bind] in E.
    match type of E with bind ?x _ = _ => destruct x as [after|] eqn:EA; [|discriminate] end. cbn [bind] in E.
    assert (MB : forall b, before = Some b -> made b).
    { intros b ->. destruct (negb (is_lower _ _)); [discriminate|]. destruct (o_eq smin omin); [destruct smin; [injection EB as <-; exact I|discriminate]|].
      destruct (range_new smin _ _ _) as [x|] eqn:N; [|discriminate]. cbn [bind] in EB. injection EB as <-. exact (range_new_made _ _ _ _ _ N). }
    assert (MA : forall b, after = Some b -> made b).
    { intros b ->. destruct (negb (is_higher _ _)); [discriminate|]. destruct (o_eq smax omax); [destruct smax; [injection EA as <-; exact I|discriminate]|].
      destruct (range_new _ smax _ _) as [x|] eqn:N; [|discriminate]. cbn [bind] in EA. injection EA as <-. exact (range_new_made _ _ _ _ _ N). }
    destruct before as [b|], after as [a|]; [eauto|injection E as <-; split; [constructor; auto|exact I]..|injection E as <-; repeat constructor].
Qed.

Lemma difference_iterator_fair items : Forall made items -> forall cur, made cur -> fair_items (difference_iterator cur items).
Proof.
  induction 1 as [|i items Mi F IH]; intros cur Mc; cbn [difference_iterator]; [left; exists [cur]; auto|].
  destruct (is_strictly_lower i cur); [auto|]. destruct (is_strictly_higher i cur); [left; exists [cur]; auto|].
  destruct (item_difference_fair cur i Mc Mi) as [(r & -> & M & P)| ->]; [|now right]. cbn [bind]. destruct r as [|c|l]; [auto|inversion M; auto|].
  destruct P as (x & y & ->). cbn [extract] in M. inversion M as [|? ? Mx M']; subst. inversion M'; subst.
  destruct (IH y) as [(ys & -> & Y)| ->]; [auto| |now right]. cbn [bind]. left. eauto.
Qed.

Definition some_made (o : option item) : Prop := forall i, o = Some i -> made i.
Definition made_state (st : dstate) : Prop :=
  Forall made (d_items st) /\ Forall made (d_others st) /\ some_made (d_current st) /\ some_made (d_other st) /\ Forall made (d_result st).

Lemma next_made xs : Forall made xs -> some_made (fst (next_or_none xs)) /\ Forall made (snd (next_or_none xs)).
Proof. intros [|x l M F]; cbn; split; auto; [intros i; discriminate|]. now intros i [= <-]. Qed.

Lemma current_made o : some_made o -> Forall made match o with Some c => [c] | None => [] end.
Proof. destruct o; intros H; auto. Qed.

Lemma next_other_made st : made_state st -> made_state (fst (next_other_current st)).
Proof.
  intros (A & B & C & D & E). unfold next_other_current. pose proof (next_made _ B) as [N1 N2]. destruct (next_or_none (d_others st)) as [[x|] others]; cbn [fst snd] in *.
  - repeat split; cbn; auto.
  - repeat split; cbn; auto. rewrite !Forall_app. repeat split; auto. now apply current_made.
Qed.

Lemma next_current_made k st : made_state st -> made_state (fst (next_current k st)).
Proof.
  intros (A & B & C & D & E). unfold next_current. pose proof (next_made _ A) as [N1 N2].
  assert (R : Forall made (if k then d_result st ++ match d_current st with Some c => [c] | None => [] end else d_result st)).
  { destruct k; auto. rewrite Forall_app. split; auto. now apply current_made. }
  destruct (next_or_none (d_items st)) as [[x|] items]; cbn [fst snd] in *; repeat split; cbn; auto.
Qed.

Lemma d_step_fair st : made_state st -> (exists st' go, d_step st = Ok (st', go) /\ made_state st') \/ d_step st = Err RecursionError.
Proof.
  intros H. unfold d_step. destruct (d_current st) as [cur|] eqn:EC; [|left; eauto]. destruct (d_other st) as [other|] eqn:EO; [|left; eauto].
  assert (K : forall p : dstate * bool, made_state (fst p) -> exists st' go, Ok p = Ok (st', go) /\ made_state st') by (intros [st' go] M; eauto).
  pose proof H as (A & B & C & D & E). assert (Mc : made cur) by now apply C. assert (Mo : made other) by now apply D.
  destruct (is_strictly_lower other cur); [left; apply K, next_other_made, H|]. destruct (is_strictly_higher other cur); [left; apply K, next_current_made, H|].
  destruct (item_difference_fair cur other Mc Mo) as [(r & -> & M & P)| ->]; [|now right]. cbn [bind]. left. destruct r as [|i|l].
  - apply K, next_current_made, H.
  - inversion M; subst. assert (H' : made_state (d_set_current st i)) by (repeat split; cbn; auto; now intros j [= <-]).
    destruct (is_higher i other); apply K; [now apply next_other_made|now apply next_current_made].
  - destruct P as (x & y & ->). cbn [extract] in M. inversion M as [|? ? Mx M']; subst. inversion M'; subst. apply K, next_other_made.
    repeat split; cbn; auto; [now intros j [= <-]|]. rewrite Forall_app. auto.
Qed.

Lemma d_loop_fair n : forall st, made_state st -> (exists st', d_loop n st = Ok st' /\ made_state st') \/ d_loop n st = Err RecursionError.
Proof.
  induction n as [|n IH]; intros st H; cbn [d_loop]; [now right|]. destruct (d_step_fair st H) as [(st' & go & -> & M)| ->]; [|now right]. cbn [bind].
  destruct go; [auto|left; eauto].
Qed.

Lemma items_difference_fair xs ys : Forall made xs -> Forall made ys -> fair_items (items_difference xs ys).
Proof.
  intros X Y. unfold items_difference. pose proof (next_made _ X) as [X1 X2]. pose proof (next_made _ Y) as [Y1 Y2].
  destruct (next_or_none xs) as [cur xs']. destruct (next_or_none ys) as [other ys']. cbn [fst snd] in *.
  destruct (d_loop_fair (S (List.length xs + List.length ys)) (DState xs' ys' cur other [])) as [(st & -> & M)| ->]; [repeat split; cbn; auto| |now right].
  left. exists (d_result st). split; [reflexivity|]. apply M.
Qed.

Lemma merge_items r : fair_items r -> fair (let* ds := r in merge (map Item ds)).
Proof.
  intros [(xs & -> & X)| ->]; [|now right]. cbn [bind]. apply raw_merge_fair, Forall_map. eapply Forall_impl; [|exact X]. intros i Hi. now constructor.
Qed.

Theorem raw_difference_fair a b : Forall made (extract a) -> Forall made (extract b) -> fair (difference a b).
Proof.
  intros A B. unfold difference. destruct a as [|s|xs]; [left; exists Empty; auto| |apply merge_items, items_difference_fair; auto].
  inversion A; subst. destruct s as [v|? ? ? ?].
  - left. destruct (contains b v); eexists; (split; [reflexivity|]); auto.
  - destruct b as [|o|ys]; [left; eauto| |apply merge_items, difference_iterator_fair; auto]. inversion B; subst.
    destruct (item_difference_fair (Range min max include_min include_max) o) as [(r & E & M & _)|E]; auto; [left; eauto|now right].
Qed.

Theorem raw_complement_fair a : Forall made (extract a) -> fair (complement a).
Proof.
  intros A. assert (U : Forall made (extract UNIVERSAL_SET)) by (constructor; [reflexivity|constructor]).
  destruct a; [left; exists UNIVERSAL_SET; auto|..]; unfold complement; now apply raw_difference_fair.
Qed.

Theorem raw_symmetric_fair a b : Forall made (extract a) -> Forall made (extract b) ->
  match a with Union _ => symmetric_difference a b = Err AttributeError | _ => fair (symmetric_difference a b) end.
Proof.
  intros A B. destruct a as [|s|xs]; [left; exists b; auto| |reflexivity]. unfold symmetric_difference.
  destruct (raw_union_fair (Item s) b A B) as [(u & -> & U)| ->]; [|now right]. cbn [bind].
  destruct (raw_intersection_fair (Item s) b A B) as [(i & -> & N)| ->]; [|now right]. cbn [bind]. now apply raw_difference_fair.
Qed.

(** ** Specifiers *)

Lemma item_specifier i : made i -> exists s, item_to_specifier i = Ok s.
Proof.
  intros M. destruct i as [v|min max imin imax]; cbn [item_to_specifier]; [eauto|]. unfold try_range_simple.
  destruct (item_is_empty _); [cbn; eauto|]. destruct (item_is_universal _) eqn:U; [cbn; eauto|]. destruct (item_is_point _) eqn:P.
  - unfold item_version. rewrite P. destruct min, max; try discriminate; cbn; eauto.
  - cbn [bind]. unfold try_range_unwrap. destruct min, max; try discriminate; cbn; eauto.
Qed.

Theorem raw_specifier a : Forall made (extract a) ->
  (exists s, version_set_to_specifier a = Ok s) \/ ((exists l, a = Union l) /\ version_set_to_specifier a = Err RecursionError).
Proof.
  intros A. destruct a as [|i|l]; cbn [version_set_to_specifier]; [left; eauto|left; inversion A; now apply item_specifier|].
  unfold exclude_version. destruct (raw_complement_fair (Union l) A) as [(c & -> & _)| ->]; [|right; eauto]. left. cbn [bind].
  assert (X : exists ss, mapM item_to_specifier l = Ok ss).
  { clear - A. cbn [extract] in A. induction A as [|i l M F (ss & IH)]; [exists []; reflexivity|]. destruct (item_specifier i M) as [s E]. exists (s :: ss). cbn [mapM]. now rewrite E, IH. }
  destruct X as (ss & X). destruct c as [|[v|? ? ? ?]|?]; cbn [bind]; eauto; rewrite X; cbn [bind]; eauto.
Qed.

(** ** A range in good order minus non-empty items *)

Lemma item_difference_solid s o :
  proper s -> solid o ->
  item_difference s o = Ok (Item s) \/ item_difference s o = Ok Empty \/
  (exists c, item_difference s o = Ok (Item c) /\ proper c /\ cle (lo s) (lo c)) \/
  (exists b a, item_difference s o = Ok (Union [b; a]) /\ proper b /\ proper a /\ lo b = lo s /\ clt (hi b) (lo a)).
Proof.
  intros Ps So. pose proof (proper_lt _ Ps) as Ls. pose proof (solid_lt _ So) as Lo.
  assert (Ss : solid s) by (split; [now apply proper_valid|exact Ls]).
  destruct o as [w|omin omax oimin oimax].
  - destruct (item_difference_spec s (Point w) Ps I) as [[_ E]|[[OV _] [(_ & _ & E)|[(_ & _ & b & E & P & L & _)|[(L & _ & a & E & P & La & _)|(_ & _ & b & a & E & Pb & Pa & L1 & L2 & L3 & _)]]]]]; auto.
    + right; right; left. exists b. split; [exact E|]. split; [exact P|]. rewrite L. apply cle_refl.
    + right; right; left. exists a. split; [exact E|]. split; [exact P|]. rewrite La. corder.
    + right; right; right. exists b, a. repeat split; auto. now rewrite L2, L3.
  - destruct s as [v|smin smax simin simax]; [cbn [item_difference]; destruct (item_contains _ v); auto|].
    destruct (item_intersects (Range smin smax simin simax) (Range omin omax oimin oimax)) eqn:EI; [|left; unfold item_difference; now rewrite EI].
    apply (s_intersects_iff _ _ Ss So) in EI. pose proof EI as [OV _].
    destruct (range_parts_difference (Range smin smax simin simax) (Range omin omax oimin oimax) I I (solid_valid _ Ss) (solid_valid _ So) EI) as (before & after & HB & HA & ->).
    destruct HB as [(_ & b & -> & Pb & B1 & B2)|[BL ->]], HA as [(_ & a & -> & Pa & A1 & A2)|[_ ->]]; auto.
    + right; right; right. exists b, a. assert (L : clt (hi b) (lo a)) by now rewrite B2, A1.
      split; [|auto]. unfold merge. rewrite merge_with_chain; [reflexivity|]. cbn [flat_map extract app chain chain_from]. auto.
    + right; right; left. exists b. split; [reflexivity|]. split; [exact Pb|]. rewrite B1. apply cle_refl.
    + right; right; left. exists a. split; [reflexivity|]. split; [exact Pa|]. rewrite A1. corder.
Qed.

Lemma difference_iterator_solid items : Forall solid items -> forall cur, proper cur ->
  exists ds, difference_iterator cur items = Ok ds /\ chain ds /\ forall c, clt c (lo cur) -> chain_from c ds.
Proof.
  assert (N : forall cur, proper cur -> exists ds, Ok [cur] = Ok ds /\ chain ds /\ forall c, clt c (lo cur) -> chain_from c ds) by (intros cur P; exists [cur]; cbn; auto).
  induction 1 as [|i items Si F IH]; intros cur Pc; cbn [difference_iterator]; [auto|].
  destruct (is_strictly_lower i cur); [auto|]. destruct (is_strictly_higher i cur); [auto|].
  destruct (item_difference_solid cur i Pc Si) as [->|[->|[(c & -> & P & L)|(b & a & -> & Pb & Pa & L & D)]]]; cbn [bind]; auto.
  - destruct (IH c P) as (ds & E & C & H). exists ds. split; [exact E|]. split; [exact C|]. intros x X. apply H. corder.
  - destruct (IH a Pa) as (ds & -> & C & H). cbn [bind]. exists (b :: ds). split; [reflexivity|]. split; [cbn [chain]; auto|].
    intros x X. cbn [chain_from]. rewrite L. auto.
Qed.

Theorem solid_difference s l : proper s -> Forall solid l -> exists r, difference (Item s) (Union l) = Ok r /\ canon r.
Proof.
  intros P F. destruct (difference_iterator_solid l F s P) as (ds & E & C & _). destruct s as [v|? ? ? ?].
  - unfold difference. destruct (contains (Union l) v); eexists; split; try reflexivity; exact I.
  - unfold difference. rewrite E. cbn [bind]. rewrite merge_chain by exact C. exists (of_items ds). split; [reflexivity|now apply canon_of_items].
Qed.

Theorem solid_complement l : Forall made l -> Forall (fun i => item_is_empty i = false) l -> exists r, complement (Union l) = Ok r /\ canonical r.
Proof.
  intros M N. destruct (solid_difference UNIVERSAL l) as (r & E & C); [repeat split; discriminate|apply Forall_forall; rewrite Forall_forall in M, N; intros i Hi; apply solid_iff; auto|].
  exists r. split; [exact E|now apply canonical_canon].
Qed.

Theorem solid_specifier l : Forall made l -> Forall (fun i => item_is_empty i = false) l -> exists s, version_set_to_specifier (Union l) = Ok s.
Proof.
  intros M N. destruct (raw_specifier (Union l) M) as [H|[_ H]]; [exact H|exfalso]. revert H. cbn [version_set_to_specifier]. unfold exclude_version.
  destruct (solid_complement l M N) as (c & -> & _). cbn [bind].
  assert (X : exists ss, mapM item_to_specifier l = Ok ss).
  { clear - M. induction M as [|i l M F (ss & IH)]; [exists []; reflexivity|]. destruct (item_specifier i M) as [s E]. exists (s :: ss). cbn [mapM]. now rewrite E, IH. }
  destruct X as (ss & X). destruct c as [|[v|? ? ? ?]|?]; cbn [bind]; try rewrite X; cbn [bind]; discriminate.
Qed.
