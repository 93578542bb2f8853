(** The loops as written compute what the recursive definitions compute. *)

From Coq Require Import List ZArith NArith String Bool Lia Permutation Sorted.
From Coq Require Streams.
From Verif Require Import Py Segments Version VersionSets Parsers Orders Rich Compare CompareFacts Loops.
Import ListNotations.
Open Scope Z_scope.

(** ** Indexes *)

Lemma last_snoc {A} (xs : list A) x : last (xs ++ [x]) = Ok x.
Proof.
  unfold last, py_get, norm_index, len, LAST. change (Z.lnot 0) with (-1). cbn [Z.ltb Z.compare]. rewrite app_length. cbn [List.length].
  destruct (Z.ltb_spec (-1 + Z.of_nat (List.length xs + 1)) 0); [lia|].
  replace (Z.to_nat (-1 + Z.of_nat (List.length xs + 1))) with (List.length xs) by lia.
  rewrite nth_error_app2 by lia. now rewrite Nat.sub_diag.
Qed.

Lemma update_snoc {A} (xs : list A) x y : update (xs ++ [x]) (List.length xs) y = xs ++ [y].
Proof. induction xs as [|z xs IH]; [reflexivity|]. cbn. now rewrite IH. Qed.

Lemma set_last_snoc {A} (xs : list A) x y : set_last (xs ++ [x]) y = Ok (xs ++ [y]).
Proof.
  unfold set_last, py_set, norm_index, len, LAST. change (Z.lnot 0) with (-1). cbn [Z.ltb Z.compare]. rewrite app_length. cbn [List.length].
  destruct (Z.ltb_spec (-1 + Z.of_nat (List.length xs + 1)) 0); [lia|].
  destruct (Z.leb_spec (Z.of_nat (List.length xs + 1)) (-1 + Z.of_nat (List.length xs + 1))); [lia|]. cbn [orb].
  replace (Z.to_nat (-1 + Z.of_nat (List.length xs + 1))) with (List.length xs) by lia. now rewrite update_snoc.
Qed.

Lemma first_cons {A} (x : A) xs : first (x :: xs) = Ok x.
Proof. reflexivity. Qed.

Theorem ends {A} (xs : list A) :
  (xs = [] -> first xs = Err IndexError /\ last xs = Err IndexError /\ forall y, set_last xs y = Err IndexError)
  /\ (forall x, first (x :: xs) = Ok x) /\ (forall x, last (xs ++ [x]) = Ok x) /\ (forall x y, set_last (xs ++ [x]) y = Ok (xs ++ [y]))
  /\ (contains_only_item xs = true <-> exists x, xs = [x]).
Proof.
  split; [intros ->; auto|]. split; [intros x; apply first_cons|]. split; [intros x; apply last_snoc|]. split; [intros x y; apply set_last_snoc|].
  unfold contains_only_item, len. rewrite Z.eqb_eq. split.
  - destruct xs as [|x [|y xs]]; cbn [List.length]; [lia|eauto|lia].
  - intros [x ->]. reflexivity.
Qed.

Theorem flatten_map {A B} (f : A -> list B) xs : flatten (map f xs) = flat_map f xs.
Proof. induction xs as [|x xs IH]; [reflexivity|]. cbn. now rewrite IH. Qed.

(** ** Padding and counting *)

Lemma take_forever p n : take n (repeat_forever p) = repeat p n.
Proof. induction n as [|n IH]; [reflexivity|]. cbn [take repeat]. change (Streams.hd (repeat_forever p)) with p. change (Streams.tl (repeat_forever p)) with (repeat_forever p). now rewrite IH. Qed.

Theorem fix_as_written n p xs : fix_to_length n p xs = Segments.fix_to_length n p xs.
Proof.
  unfold fix_to_length, Segments.fix_to_length. generalize (Z.to_nat n) as k. clear n.
  assert (G : forall k m, (k <= m)%nat -> take k (chain xs (repeat_forever p)) = firstn k (xs ++ repeat p m)).
  { induction xs as [|x xs IH]; intros k m L.
    - cbn [chain fold_right app]. rewrite take_forever. replace m with (k + (m - k))%nat by lia. rewrite repeat_app.
      rewrite firstn_app, repeat_length, Nat.sub_diag, firstn_all2 by (rewrite repeat_length; lia). cbn. now rewrite app_nil_r.
    - destruct k as [|k]; [reflexivity|]. cbn [take chain fold_right app firstn Streams.hd Streams.tl]. f_equal. apply IH. lia. }
  intros k. now apply G.
Qed.

Theorem count_as_written xs : count_leading_zeros xs = Segments.count_leading_zeros xs.
Proof.
  unfold count_leading_zeros. assert (G : forall c, count_from c xs = c + Segments.count_leading_zeros xs); [|now rewrite G].
  induction xs as [|x xs IH]; intros c; cbn [count_from Segments.count_leading_zeros]; [lia|]. destruct (x =? 0); cbn [negb]; [rewrite IH|]; lia.
Qed.

(** ** Splitting *)

Theorem split_as_written s : split_separators s = Segments.split_separators s.
Proof.
  unfold split_separators, Segments.split_separators, split_multiple. f_equal. apply map_ext. intros c. cbn [translation map translated].
  destruct (N.eqb_spec c 45) as [->|]; [reflexivity|]. destruct (N.eqb_spec c 95) as [->|]; [reflexivity|].
  replace (c =? 45)%N with false by (symmetry; now apply N.eqb_neq). replace (c =? 95)%N with false by (symmetry; now apply N.eqb_neq). reflexivity.
Qed.

(** Splitting at several characters, whatever they are: the pieces have none of
    them, and are what lies between them. *)
Fixpoint between (seps : N -> bool) (s : pstr) (ps : list pstr) : Prop :=
  match ps with
  | [] => False
  | [p] => s = p /\ forallb (fun c => negb (seps c)) p = true
  | p :: ps' => forallb (fun c => negb (seps c)) p = true /\ exists c s', seps c = true /\ s = p ++ c :: s' /\ between seps s' ps'
  end.

Theorem split_between main rest s : between (fun c => existsb (N.eqb c) (main :: rest)) s (split_multiple main rest s).
Proof.
  unfold split_multiple. set (seps := fun c => existsb (N.eqb c) (main :: rest)).
  assert (T : forall c, (translated (translation main rest) c =? main)%N = seps c /\ (seps c = false -> translated (translation main rest) c = c)).
  { intros c. unfold seps. clear. cbn [existsb]. induction rest as [|a rest IH]; cbn [translation map translated existsb].
    - rewrite orb_false_r. auto.
    - destruct (c =? a)%N eqn:E; [|exact IH]. rewrite N.eqb_refl, orb_true_r. split; [reflexivity|discriminate]. }
  induction s as [|c s IH]; [cbn; auto|]. cbn [map split_on]. destruct (T c) as [T1 T2]. rewrite T1. destruct (seps c) eqn:S.
  - destruct (split_on main (map (translated (translation main rest)) s)) as [|p ps] eqn:E; [destruct IH|].
    change (between seps (c :: s) ([] :: p :: ps)). cbn [between]. split; [reflexivity|]. exists c, s. auto.
  - rewrite (T2 eq_refl). destruct (split_on main (map (translated (translation main rest)) s)) as [|p ps] eqn:E; [destruct IH|].
    destruct ps as [|q ps].
    + cbn [between] in *. destruct IH as [-> F]. split; [reflexivity|]. cbn [forallb]. now rewrite S.
    + change (forallb (fun c => negb (seps c)) p = true /\ (exists c s', seps c = true /\ s = p ++ c :: s' /\ between seps s' (q :: ps))) in IH.
      destruct IH as [F (d & s' & D & -> & B)]. change (between seps (c :: p ++ d :: s') ((c :: p) :: q :: ps)).
      change (forallb (fun c => negb (seps c)) (c :: p) = true /\ (exists e s'', seps e = true /\ c :: p ++ d :: s' = (c :: p) ++ e :: s'' /\ between seps s'' (q :: ps))).
      split; [cbn [forallb]; now rewrite S|]. exists d, s'. auto.
Qed.

(** ** Segments *)

Theorem release_constructors r ps :
  (ps <> [] -> release_create (Some ps) = Ok ps /\ release_from_iterable ps = Ok ps /\ release_from_parts ps = Ok ps /\ release_set_parts r ps = Ok ps)
  /\ (ps = [] -> release_create (Some ps) = Err ValueError /\ release_from_iterable ps = Err ValueError /\ release_from_parts ps = Err ValueError /\ release_set_parts r ps = Err ValueError)
  /\ release_create None = Ok [0; 0; 0] /\ release_into_parts r = r.
Proof. split; [destruct ps; [contradiction|]; auto|]. split; [intros ->; auto|]. auto. Qed.

Theorem local_constructors l ps :
  (ps <> [] -> local_create ps = Ok ps /\ local_from_iterable ps = Ok ps /\ local_from_parts ps = Ok ps /\ local_set_parts l ps = Ok ps)
  /\ (ps = [] -> local_create ps = Err ValueError /\ local_from_iterable ps = Err ValueError /\ local_from_parts ps = Err ValueError /\ local_set_parts l ps = Err ValueError)
  /\ local_into_parts l = l.
Proof. split; [destruct ps; [contradiction|]; auto|]. split; [intros ->; auto|]. auto. Qed.

Theorem unions_constructed items :
  of_unchecked items = of_iterable_unchecked items
  /\ ((2 <= List.length items)%nat -> of_unchecked items = Ok (Union items))
  /\ ((List.length items < 2)%nat -> of_unchecked items = Err ValueError).
Proof.
  split; [reflexivity|]. unfold of_unchecked, union_new. destruct items as [|x [|y items]]; cbn [List.length]; split; intros H; try lia; reflexivity.
Qed.

(** ** Sorting *)

Definition tied (x y : item) : bool := negb (item_lt x y) && negb (item_lt y x).

(** [ys] is [xs] sorted by a stable algorithm. *)
Definition stably_sorted (xs ys : list item) : Prop :=
  Permutation ys xs /\ StronglySorted (fun a b => item_lt b a = false) ys /\ forall x, filter (tied x) ys = filter (tied x) xs.

Lemma lt_key x y : item_lt x y = is_lt (item_key_cmp (item_key x) (item_key y)).
Proof. unfold item_lt. now rewrite item_compare_key. Qed.

Lemma tied_key x y : tied x y = true <-> item_key x = item_key y.
Proof.
  unfold tied. rewrite !lt_key, (law_anti lawful_item_key (item_key x) (item_key y)), <- (law_eq lawful_item_key).
  destruct (item_key_cmp (item_key x) (item_key y)); cbn; split; congruence.
Qed.

Lemma tied_refl x : tied x x = true.
Proof. now apply tied_key. Qed.

Lemma not_lt_trans x y z : item_lt y x = false -> item_lt z y = false -> item_lt z x = false.
Proof.
  rewrite !lt_key. set (c := item_key_cmp). set (a := item_key x). set (b := item_key y). set (d := item_key z). intros H1 H2.
  destruct (c d a) eqn:E; try reflexivity. exfalso.
  destruct (c b a) eqn:E1; [|discriminate|].
  - apply (law_eq lawful_item_key) in E1. unfold c in *. rewrite E1 in H2. now rewrite E in H2.
  - assert (X : c a b = Lt) by (unfold c; rewrite (law_anti lawful_item_key b a); fold c; now rewrite E1).
    pose proof (law_trans lawful_item_key d a b E X) as Y. fold c in Y. now rewrite Y in H2.
Qed.

Lemma lt_false_flip x y : item_lt x y = true -> item_lt y x = false.
Proof. rewrite !lt_key, (law_anti lawful_item_key (item_key x) (item_key y)). now destruct (item_key_cmp _ _). Qed.

Lemma insert_in x ys z : In z (insert x ys) <-> z = x \/ In z ys.
Proof.
  induction ys as [|y ys IH]; cbn [insert In]; [intuition auto|]. destruct (item_lt y x); cbn [In]; [rewrite IH|]; intuition auto.
Qed.

Lemma insert_stable x ys : StronglySorted (fun a b => item_lt b a = false) ys ->
  StronglySorted (fun a b => item_lt b a = false) (insert x ys) /\ Permutation (insert x ys) (x :: ys) /\
  forall z, filter (tied z) (insert x ys) = filter (tied z) (x :: ys).
Proof.
  intros S. induction S as [|y ys S IH L]; cbn [insert].
  - split; [apply SSorted_cons; [apply SSorted_nil|apply Forall_nil]|]. split; [reflexivity|]. auto.
  - destruct (item_lt y x) eqn:E.
    + destruct IH as (I1 & I2 & I3). split; [|split].
      * apply SSorted_cons; [exact I1|]. apply Forall_forall. intros z Z. apply insert_in in Z. destruct Z as [->|Z]; [now apply lt_false_flip|].
        rewrite Forall_forall in L. now apply L.
      * rewrite I2. apply perm_swap.
      * intros z. cbn [filter] in *. rewrite I3. destruct (tied z y) eqn:Y, (tied z x) eqn:X; try reflexivity.
        exfalso. apply tied_key in X, Y. rewrite lt_key, <- X, <- Y in E. rewrite (proj2 (law_eq lawful_item_key _ _) eq_refl) in E. discriminate.
    + split; [|split; auto]. apply SSorted_cons; [apply SSorted_cons; auto|]. apply Forall_cons; [exact E|].
      rewrite Forall_forall in L |- *. intros z Z. eapply not_lt_trans; [exact E|]. now apply L.
Qed.

Theorem sort_stable xs : stably_sorted xs (sort xs).
Proof.
  induction xs as [|x xs (P & S & F)]; [split; [reflexivity|]; split; [apply SSorted_nil|reflexivity]|].
  change (sort (x :: xs)) with (insert x (sort xs)). destruct (insert_stable x (sort xs) S) as (I1 & I2 & I3).
  split; [now rewrite I2, P|]. split; [exact I1|]. intros z. rewrite I3. cbn [filter]. now rewrite F.
Qed.

Lemma sorted_unique ys : forall zs, StronglySorted (fun a b => item_lt b a = false) ys -> StronglySorted (fun a b => item_lt b a = false) zs ->
  (forall x, filter (tied x) ys = filter (tied x) zs) -> ys = zs.
Proof.
  assert (N : forall xs, (forall x, filter (tied x) xs = []) -> xs = []).
  { intros [|x xs] H; [reflexivity|]. specialize (H x). cbn [filter] in H. rewrite tied_refl in H. discriminate. }
  assert (I : forall xs x us, In x us -> (forall z, filter (tied z) us = filter (tied z) xs) -> In x xs).
  { intros xs x us U H. assert (X : In x (filter (tied x) us)) by (apply filter_In; split; [exact U|apply tied_refl]). rewrite H in X. now apply filter_In in X. }
  induction ys as [|y ys IH]; intros zs SY SZ H; [symmetry; apply N; intros x; now rewrite <- H|].
  destruct zs as [|z zs]; [apply N; exact H|].
  apply StronglySorted_inv in SY, SZ. destruct SY as [SY LY], SZ as [SZ LZ]. rewrite Forall_forall in LY, LZ.
  assert (A : item_lt z y = false).
  { assert (X : In z (y :: ys)) by (apply (I _ _ (z :: zs)); [left; reflexivity|]; intros x; now rewrite H). destruct X as [->|X]; [|now apply LY].
    apply not_true_iff_false. intros X. pose proof (lt_false_flip _ _ X). congruence. }
  assert (B : item_lt y z = false).
  { assert (X : In y (z :: zs)) by (apply (I _ _ (y :: ys)); [left; reflexivity|exact H]). destruct X as [->|X]; [|now apply LZ].
    apply not_true_iff_false. intros X. pose proof (lt_false_flip _ _ X). congruence. }
  assert (T : tied y z = true) by (unfold tied; now rewrite A, B).
  assert (E : y = z). { specialize (H y). cbn [filter] in H. rewrite tied_refl, T in H. now injection H. }
  subst z. f_equal. apply IH; auto. intros x. specialize (H x). cbn [filter] in H. destruct (tied x y); [now injection H|exact H].
Qed.

Theorem sort_unique xs ys : stably_sorted xs ys <-> ys = sort xs.
Proof.
  split; [|intros ->; apply sort_stable]. intros (_ & S & F). destruct (sort_stable xs) as (_ & S' & F').
  apply sorted_unique; auto. intros x. now rewrite F, F'.
Qed.

(** ** Merging *)

Lemma merge_for u rest : forall emitted cur,
  for_each (merge_body u) (emitted ++ [cur]) rest = rmap (app emitted) (merge_loop u cur rest).
Proof.
  induction rest as [|x rest IH]; intros emitted cur; cbn [for_each merge_loop]; [reflexivity|].
  assert (M : merge_body u (emitted ++ [cur]) x =
    if item_intersects cur x || is_adjacent cur x then
      let* r := u cur x in match r with Item i => Ok (emitted ++ [i]) | _ => Err InternalError end
    else Ok ((emitted ++ [cur]) ++ [x])).
  { unfold merge_body. rewrite last_snoc. cbn [bind].
    assert (Z : match emitted ++ [cur] with [] => true | _ => false end = false) by (destruct emitted; reflexivity).
    destruct (emitted ++ [cur]) as [|a l] eqn:E; [discriminate|]. rewrite <- E. clear Z.
    destruct (_ || _); [|reflexivity]. destruct (u cur x) as [r|e]; [|reflexivity]. cbn [bind]. destruct r; try reflexivity. apply set_last_snoc. }
  rewrite M. destruct (_ || _).
  - destruct (u cur x) as [r|e]; [|reflexivity]. cbn [bind]. destruct r; try reflexivity. cbn [bind]. apply IH.
  - cbn [bind]. rewrite IH. destruct (merge_loop u x rest) as [out|e]; [|reflexivity]. cbn [bind rmap]. now rewrite <- app_assoc.
Qed.

Theorem merge_same sorting u sets : (forall xs, stably_sorted xs (sorting xs)) -> merge_as_written sorting u sets = merge_with u sets.
Proof.
  intros ST. unfold merge_as_written, merge_with. rewrite flatten_map. set (xs := flat_map extract sets). clearbody xs.
  destruct xs as [|a xs]; [reflexivity|]. destruct (existsb item_is_universal (a :: xs)); [reflexivity|].
  rewrite (proj1 (sort_unique _ _) (ST (a :: xs))).
  destruct (sort (a :: xs)) as [|x rest] eqn:E.
  { exfalso. destruct (sort_stable (a :: xs)) as (P & _). rewrite E in P. now apply Permutation_nil in P. }
  assert (F : for_each (merge_body u) [] (x :: rest) = merge_loop u x rest).
  { cbn [for_each merge_body bind app]. change [x] with ([] ++ [x]). rewrite merge_for. destruct (merge_loop u x rest); reflexivity. }
  rewrite F. destruct (merge_loop u x rest) as [m|e]; [|reflexivity]. cbn [bind].
  destruct m as [|i [|j m]]; [reflexivity|reflexivity|]. unfold contains_only_item, len. cbn [List.length].
  destruct (Z.eqb_spec (Z.of_nat (S (S (List.length m)))) 1); [lia|]. reflexivity.
Qed.

(** ** The loops over two iterators *)

Definition at_items (selfs items : list item) : pair :=
  Pair (fst (next_or_none selfs)) (snd (next_or_none selfs)) (fst (next_or_none items)) (snd (next_or_none items)).

Lemma start_items selfs items : start selfs items = at_items selfs items.
Proof. destruct selfs, items; reflexivity. Qed.
Lemma next_self_items s selfs items : next_self (at_items (s :: selfs) items) = at_items selfs items.
Proof. destruct selfs, items; reflexivity. Qed.
Lemma next_other_items i selfs items : next_other (at_items selfs (i :: items)) = at_items selfs items.
Proof. destruct selfs, items; reflexivity. Qed.

Theorem includes_same selfs : forall items fuel, (List.length selfs + List.length items <= fuel)%nat ->
  while fuel includes_body (start selfs items) = Some (includes_loop selfs items).
Proof.
  intros items fuel. rewrite start_items. revert items fuel.
  induction selfs as [|s selfs IHs].
  - intros [|i items] [|fuel] _; reflexivity.
  - induction items as [|i items IHi]; intros fuel L; [destruct fuel; reflexivity|].
    destruct fuel as [|fuel]; [cbn in L; lia|]. cbn [List.length] in *.
    assert (B : includes_body (at_items (s :: selfs) (i :: items)) =
      if item_includes s i then Continue (at_items (s :: selfs) items) else Continue (at_items selfs (i :: items))).
    { unfold includes_body. cbn [at_items self_item other_item next_or_none fst]. destruct (item_includes s i); f_equal; [apply next_other_items|apply next_self_items]. }
    cbn [while]. rewrite B. cbn [includes_loop]. destruct (item_includes s i).
    + rewrite IHi by (cbn [List.length]; lia). reflexivity.
    + rewrite IHs by (cbn [List.length]; lia). reflexivity.
Qed.

Theorem intersects_same selfs : forall items fuel, (List.length selfs + List.length items <= fuel)%nat ->
  while fuel intersects_body (start selfs items) = Some (intersects_loop selfs items).
Proof.
  intros items fuel. rewrite start_items. revert items fuel.
  induction selfs as [|s selfs IHs].
  - intros [|i items] [|fuel] _; reflexivity.
  - induction items as [|i items IHi]; intros fuel L; [destruct fuel; reflexivity|].
    destruct fuel as [|fuel]; [cbn in L; lia|]. cbn [List.length] in *.
    assert (B : intersects_body (at_items (s :: selfs) (i :: items)) =
      if item_intersects s i then Done true
      else if is_higher i s then Continue (at_items selfs (i :: items)) else Continue (at_items (s :: selfs) items)).
    { unfold intersects_body. cbn [at_items self_item other_item next_or_none fst]. destruct (item_intersects s i); [reflexivity|].
      destruct (is_higher i s); f_equal; [apply next_self_items|apply next_other_items]. }
    cbn [while]. rewrite B. cbn [intersects_loop]. destruct (item_intersects s i); [reflexivity|]. destruct (is_higher i s).
    + rewrite IHs by (cbn [List.length]; lia). reflexivity.
    + rewrite IHi by (cbn [List.length]; lia). reflexivity.
Qed.

Lemma intersection_from selfs : forall items fuel yielded, (List.length selfs + List.length items <= fuel)%nat ->
  while fuel intersection_body (at_items selfs items, yielded) = Some (rmap (app yielded) (intersection_loop selfs items)).
Proof.
  induction selfs as [|s selfs IHs].
  - intros [|i items] [|fuel] y _; cbn; now rewrite app_nil_r.
  - induction items as [|i items IHi]; intros fuel y L; [destruct fuel; cbn; now rewrite app_nil_r|].
    destruct fuel as [|fuel]; [cbn in L; lia|]. cbn [List.length] in *.
    assert (B : intersection_body (at_items (s :: selfs) (i :: items), y) =
      match item_intersection s i with
      | Err e => Done (Err e)
      | Ok r => let y' := match r with Item x => y ++ [x] | _ => y end in
                if is_higher i s then Continue (at_items selfs (i :: items), y') else Continue (at_items (s :: selfs) items, y')
      end).
    { unfold intersection_body. cbn [at_items self_item other_item next_or_none fst]. destruct (item_intersection s i) as [r|e]; [|reflexivity]. cbv zeta.
      destruct (is_higher i s); f_equal; f_equal; [apply next_self_items|apply next_other_items]. }
    cbn [while]. rewrite B. cbn [intersection_loop]. destruct (item_intersection s i) as [r|e]; [|reflexivity]. cbn [bind]. cbv zeta.
    assert (T : forall o : result (list item), rmap (app match r with Item x => y ++ [x] | _ => y end) o
      = rmap (app y) (bind o (fun rest => Ok match r with Item x => x :: rest | _ => rest end))).
    { intros [rest|e]; [|reflexivity]. cbn [rmap bind]. destruct r; [reflexivity| |reflexivity]. f_equal. now rewrite <- app_assoc. }
    destruct (is_higher i s).
    + rewrite IHs by (cbn [List.length]; lia). f_equal. apply T.
    + rewrite IHi by (cbn [List.length]; lia). f_equal. apply T.
Qed.

Theorem intersection_same selfs items fuel : (List.length selfs + List.length items <= fuel)%nat ->
  while fuel intersection_body (start selfs items, []) = Some (intersection_loop selfs items).
Proof.
  intros L. rewrite start_items, intersection_from by exact L. f_equal. now destruct (intersection_loop selfs items).
Qed.

(** ** Negation *)

(** Integers and infinities. *)
Definition extended (x : pyval) : Prop := is_any_infinity x = true \/ exists z, x = VInt z.

Theorem negation_reverses x y o : extended x -> extended y -> exists x' y', negated x = Ok x' /\ negated y = Ok y'
  /\ extended x' /\ extended y' /\ negated x' = Ok x /\ negated y' = Ok y /\ rich o x' y' = rich o y x.
Proof.
  assert (C : forall x, extended x -> x = VInfinity \/ x = VNegInfinity \/ exists z, x = VInt z).
  { intros u [U|U]; [destruct u; try discriminate; auto|auto]. }
  assert (I1 : extended VInfinity) by (left; reflexivity). assert (I2 : extended VNegInfinity) by (left; reflexivity).
  assert (I3 : forall z, extended (VInt z)) by (right; eauto).
  assert (N : forall u, extended u -> exists u', negated u = Ok u' /\ extended u' /\ negated u' = Ok u).
  { intros u U. apply C in U. destruct U as [-> | [-> | [a ->]]]; cbn [negated]; [eauto|eauto|]. exists (VInt (- a)). cbn [negated]. rewrite Z.opp_involutive. auto. }
  intros X Y. destruct (N x X) as (x' & X1 & X2 & X3), (N y Y) as (y' & Y1 & Y2 & Y3). exists x', y'.
  split; [exact X1|]. split; [exact Y1|]. split; [exact X2|]. split; [exact Y2|]. split; [exact X3|]. split; [exact Y3|].
  apply C in X, Y. destruct X as [-> | [-> | [a ->]]], Y as [-> | [-> | [b ->]]]; cbn [negated] in X1, Y1; injection X1 as <-; injection Y1 as <-;
    try (destruct o; reflexivity). cbn [rich]. now rewrite Z.compare_opp.
Qed.
