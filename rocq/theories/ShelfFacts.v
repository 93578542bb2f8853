(** What the caches remember of the conversions back to specifiers. *)

From Coq Require Import List ZArith NArith String Bool Lia.
From Verif Require Import Py Segments Version VersionSets Operators SetStrings Specifiers Parsers Spec Caches Histories Remembered Clauses
  Orders Cuts SetItems SetChains SetOps OrderFacts SetVersions SetTheorems OperatorFacts SpecifierFacts EqualFacts SpecMeaning CacheFacts HashFacts
  SetNames SetTexts RememberedFacts.
Import ListNotations.

Local Opaque key.

(** ** Equality of items *)

Lemma o_eq_refl o : o_eq o o = true.
Proof. destruct o; cbn; auto using v_eq_refl. Qed.

Lemma item_eqb_refl i : item_eqb i i = true.
Proof. unfold item_eqb. now rewrite !o_eq_refl, !eqb_reflx. Qed.

Lemma o_eq_left x y z : o_eq x y = true -> o_eq x z = o_eq y z.
Proof. destruct x, y, z; cbn; try discriminate; auto. apply v_eq_left. Qed.

Lemma item_eqb_left i j k : item_eqb i j = true -> item_eqb i k = item_eqb j k.
Proof.
  unfold item_eqb. rewrite !andb_true_iff. intros [[[A B] C] D]. apply eqb_prop in C, D. now rewrite (o_eq_left _ _ _ A), (o_eq_left _ _ _ B), C, D.
Qed.

Lemma items_eqb_refl xs : items_eqb xs xs = true.
Proof. induction xs as [|x xs IH]; cbn; auto. now rewrite item_eqb_refl. Qed.

Lemma items_eqb_left xs ys zs : items_eqb xs ys = true -> items_eqb xs zs = items_eqb ys zs.
Proof.
  revert ys zs. induction xs as [|x xs IH]; intros [|y ys] [|z zs] H; cbn in *; try discriminate; auto.
  apply andb_true_iff in H as [A B]. now rewrite (item_eqb_left x y z A), (IH ys zs B).
Qed.

Lemma leaves_out_like xs ys : items_eqb xs ys = true -> leaves_out xs = true -> leaves_out ys = true.
Proof.
  intros H L. destruct xs as [|[?|[m|] [M|] b []] [|[?|[n|] [N|] [] c] [|x xs]]]; try discriminate L. cbn [leaves_out] in L.
  destruct ys as [|i [|j [|k ys]]]; cbn [items_eqb] in H; try discriminate; [now rewrite andb_false_r in H| |now rewrite !andb_false_r in H].
  rewrite andb_true_r in H. apply andb_true_iff in H as [A B]. unfold item_eqb in A, B. rewrite !andb_true_iff in A, B.
  cbn [i_min i_max i_include_min i_include_max] in *. destruct A as [[[A1 A2] A3] A4], B as [[[B1 B2] B3] B4].
  destruct i as [?|[m'|] [M'|] b' c']; cbn in A1, A2, A4; try discriminate. destruct j as [?|[n'|] [N'|] d' e']; cbn in B1, B2, B3; try discriminate.
  destruct c'; try discriminate. destruct d'; try discriminate. cbn [leaves_out]. apply eq_key in A2, B1, L. apply eq_key. congruence.
Qed.

Lemma items_eqb_sym xs ys : items_eqb xs ys = true -> items_eqb ys xs = true.
Proof. intros H. rewrite <- (items_eqb_left xs ys xs H). apply items_eqb_refl. Qed.

Lemma leaves_out_same xs ys : items_eqb xs ys = true -> leaves_out xs = leaves_out ys.
Proof.
  intros H. destruct (leaves_out xs) eqn:X.
  - symmetry. now apply (leaves_out_like xs).
  - destruct (leaves_out ys) eqn:Y; auto. rewrite (leaves_out_like ys xs) in X; auto using items_eqb_sym.
Qed.

(** ** Lists with first entries *)

Section Lists.
  Context {A : Type} (same : A -> A -> bool) (same_refl : forall x, same x x = true)
    (same_left : forall x y z, same x y = true -> same x z = same y z).

  Lemma find_like l x y : same x y = true -> find (same x) l = find (same y) l.
  Proof. intros E. induction l as [|z l IH]; cbn [find]; auto. rewrite (same_left x y z E). destruct (same y z); auto. Qed.

  Lemma first_like_same l x y : same x y = true -> find (same y) l <> None -> first_like same l x = first_like same l y.
  Proof. intros E F. unfold first_like. rewrite (find_like l x y E). destruct (find (same y) l); congruence. Qed.

  Lemma enter_found x l : find (same x) l <> None -> enter same x l = l.
  Proof. unfold enter. now destruct (find (same x) l). Qed.

  Lemma enter_grows x l : exists m, enter same x l = l ++ m.
  Proof. unfold enter. destruct (find (same x) l); [exists []; now rewrite app_nil_r|now exists [x]]. Qed.

  Lemma enter_finds x l : find (same x) (enter same x l) <> None.
  Proof.
    unfold enter. destruct (find (same x) l) eqn:F; [congruence|]. rewrite find_app, F. cbn [find]. now rewrite same_refl.
  Qed.

  Lemma find_more x l m : find (same x) l <> None -> find (same x) (l ++ m) = find (same x) l.
  Proof. rewrite find_app. now destruct (find (same x) l). Qed.

  Lemma first_more x l m : find (same x) l <> None -> first_like same (l ++ m) x = first_like same l x.
  Proof. intros F. unfold first_like. now rewrite find_more. Qed.

  Lemma first_in x l : first_like same l x = x \/ In (first_like same l x) l.
  Proof. unfold first_like. destruct (find (same x) l) eqn:F; auto. right. now apply find_some in F. Qed.

  Lemma first_same x l : same x (first_like same l x) = true.
  Proof. unfold first_like. destruct (find (same x) l) eqn:F; auto. now apply find_some in F. Qed.

  Lemma fold_grows xs : forall l, exists m, fold_left (fun l i => enter same i l) xs l = l ++ m.
  Proof.
    induction xs as [|x xs IH]; intros l; cbn [fold_left]; [exists []; now rewrite app_nil_r|].
    destruct (IH (enter same x l)) as [m ->]. destruct (enter_grows x l) as [k ->]. exists (k ++ m). now rewrite app_assoc.
  Qed.

  Lemma fold_found xs l : Forall (fun x => find (same x) l <> None) xs -> fold_left (fun l i => enter same i l) xs l = l.
  Proof. intros F. induction F as [|x xs Fx F IH]; auto. cbn [fold_left]. now rewrite enter_found. Qed.
End Lists.

(** ** Shelves *)

Definition on_shelf (m : shelf) (a : vset) : Prop :=
  match a with
  | Empty => True
  | Item i => find (item_eqb i) (fst m) <> None
  | Union items => if leaves_out items then find (items_eqb items) (snd m) <> None else Forall (fun i => find (item_eqb i) (fst m) <> None) items
  end.

Definition longer (m m' : shelf) : Prop := (exists x, fst m' = fst m ++ x) /\ (exists y, snd m' = snd m ++ y).

Lemma longer_refl m : longer m m.
Proof. split; exists []; now rewrite app_nil_r. Qed.

Lemma on_longer m m' a : longer m m' -> on_shelf m a -> on_shelf m' a /\ as_first_set m' a = as_first_set m a.
Proof.
  intros [[x X] [y Y]] S. destruct a as [|i|items]; cbn [on_shelf as_first_set] in *; auto; rewrite ?X, ?Y.
  - split; [now rewrite find_more|]. f_equal. now apply first_more.
  - destruct (leaves_out items).
    + split; [now rewrite find_more|]. f_equal. now apply first_more.
    + split.
      * eapply Forall_impl; [|exact S]. intros i F. now rewrite find_more.
      * f_equal. apply map_ext_in. intros i I. rewrite Forall_forall in S. apply first_more. auto.
Qed.

Lemma like_on_shelf m a b : set_eqb a b = true -> on_shelf m b -> on_shelf m a /\ as_first_set m a = as_first_set m b.
Proof.
  intros E S. destruct a as [|i|xs], b as [|j|ys]; try discriminate E; cbn [set_eqb on_shelf as_first_set] in *; auto.
  - split; [now rewrite (find_like item_eqb item_eqb_left _ i j E)|]. f_equal. now apply (first_like_same item_eqb item_eqb_left).
  - rewrite (leaves_out_same xs ys E). destruct (leaves_out ys).
    + split; [now rewrite (find_like items_eqb items_eqb_left _ xs ys E)|]. f_equal. now apply (first_like_same items_eqb items_eqb_left).
    + enough (K : Forall (fun i => find (item_eqb i) (fst m) <> None) xs /\ map (first_like item_eqb (fst m)) xs = map (first_like item_eqb (fst m)) ys).
      { destruct K as [K1 K2]. split; [assumption|now f_equal]. }
      revert ys E S. induction xs as [|x xs IH]; intros [|y ys] E S; cbn [items_eqb] in E; try discriminate; [split; auto|].
      apply andb_true_iff in E as [E1 E2]. apply Forall_cons_iff in S as [S1 S2]. destruct (IH ys E2 S2) as [K1 K2]. split.
      * constructor; auto. now rewrite (find_like item_eqb item_eqb_left _ x y E1).
      * cbn [map]. rewrite K2. f_equal. now apply (first_like_same item_eqb item_eqb_left).
Qed.

Lemma note_set_found m a : on_shelf m a -> note_set a m = m.
Proof.
  destruct m as [l k]. intros S. destruct a as [|i|items]; cbn [note_set on_shelf fst snd] in *; auto.
  - now rewrite enter_found.
  - destruct (leaves_out items); [now rewrite enter_found|now rewrite fold_found].
Qed.

Lemma note_set_longer m a : longer m (note_set a m).
Proof.
  destruct a as [|i|items]; cbn [note_set]; [apply longer_refl| |]; [|destruct (leaves_out items)]; split; cbn [fst snd];
    try (apply enter_grows); try (apply fold_grows); exists []; now rewrite app_nil_r.
Qed.

(** *** Equal items make equally good sets *)

Lemma same_ends xs : forall ys, Forall proper xs -> Forall proper ys -> items_eqb xs ys = true -> Forall2 (fun x y => lo x = lo y /\ hi x = hi y) xs ys.
Proof.
  induction xs as [|x xs IH]; intros [|y ys] Px Py E; cbn [items_eqb] in E; try discriminate; constructor;
    apply Forall_cons_iff in Px as [Px Pxs]; apply Forall_cons_iff in Py as [Py Pys]; apply andb_true_iff in E as [E1 E2]; auto.
  apply item_eqb_iff in E1; auto using proper_valid.
Qed.

Lemma chain_like xs ys : Forall2 (fun x y => lo x = lo y /\ hi x = hi y) xs ys -> Forall proper ys -> chain xs -> chain ys.
Proof.
  assert (K : forall xs ys, Forall2 (fun x y => lo x = lo y /\ hi x = hi y) xs ys -> Forall proper ys -> forall c, chain_from c xs -> chain_from c ys).
  { clear. induction 1 as [|x y xs ys [L H] F IH]; intros P c C; [exact I|]. apply Forall_cons_iff in P as [P Ps]. cbn [chain_from] in *. destruct C as (_ & C & C').
    split; [assumption|]. split; [congruence|]. rewrite <- H. now apply IH. }
  intros F P C. destruct F as [|x y xs ys [L H] F]; [exact I|]. apply Forall_cons_iff in P as [P Ps]. cbn [chain] in *. destruct C as (_ & C).
  split; [assumption|]. rewrite <- H. now apply (K xs).
Qed.

Lemma canonical_like xs ys : canonical (Union xs) -> Forall proper ys -> items_eqb xs ys = true -> canonical (Union ys).
Proof.
  intros C P E. apply canonical_canon in C. apply canonical_canon. destruct C as [C L].
  assert (Px : Forall proper xs) by (apply (canon_proper (Union xs)); now split).
  pose proof (same_ends xs ys Px P E) as F. split; [now apply (chain_like xs)|]. now rewrite <- (same_length _ _ _ F).
Qed.

Lemma map_first_like l xs : items_eqb xs (map (first_like item_eqb l) xs) = true.
Proof. induction xs as [|x xs IH]; cbn; auto. now rewrite IH, (first_same item_eqb item_eqb_refl). Qed.

Lemma out_excludes items : canonical (Union items) ->
  if leaves_out items then exists v, exclude_version items = Ok (Some v) else exclude_version items = Ok None.
Proof.
  intros C. destruct (leaves_out items) eqn:L.
  - assert (H : hole (Union items)).
    { destruct items as [|[?|[m|] [M|] b []] [|[?|[n|] [N|] [] c] [|x xs]]]; try discriminate L. cbn [leaves_out] in L.
      apply canonical_canon in C. apply canon_proper in C. cbn [extract] in C. apply Forall_cons_iff in C as [(P & _) C]. apply Forall_cons_iff in C as [(_ & Q & _) _].
      rewrite (P eq_refl), (Q eq_refl). exists M, n. auto. }
    destruct (hole_excludes _ C H) as (xs & u & E & X). injection E as <-. eauto.
  - destruct (excludes_total items C) as (r & X & _). destruct r as [u|]; auto. exfalso.
    destruct (excluded_hole items u C X) as (v & w & E & V). injection E as ->. cbn [leaves_out] in L. congruence.
Qed.

(** ** The dictionary *)

Section Back.
  Context (mix : list N -> N).

  Definition stocked (m : shelf) (d : caches) : Prop :=
    (forall a p, In (a, p) (c_revert d) -> canonical a /\ on_shelf m a /\ version_set_to_specifier (as_first_set m a) = Ok p)
    /\ (forall i, In i (fst m) -> proper i /\ exists p, In (Item i, p) (c_revert d))
    /\ (forall xs, In xs (snd m) -> canonical (Union xs) /\ leaves_out xs = true /\ exists p, In (Union xs, p) (c_revert d)).

  Lemma same_set_eqb a b : same_set mix a b = true <-> set_eqb a b = true.
  Proof.
    unfold same_set. rewrite andb_true_iff, N.eqb_eq. split; [tauto|]. intros E. split; auto. now apply set_hash_eq.
  Qed.

  (** A set that is found. *)
  Lemma stocked_hit m d a p : stocked m d -> lookup (same_set mix) a (c_revert d) = Some p ->
    note_set a m = m /\ version_set_to_specifier (as_first_set m a) = Ok p.
  Proof.
    intros (S1 & _) L. apply lookup_in in L as (b & I & E). apply same_set_eqb in E. destruct (S1 b p I) as (_ & On & V).
    destruct (like_on_shelf m a b E On) as [O' F]. split; [now apply note_set_found|]. now rewrite F.
  Qed.

  Lemma stocked_more m d m' a p : stocked m d -> longer m m' -> canonical a -> on_shelf m' a -> version_set_to_specifier (as_first_set m' a) = Ok p ->
    (forall i, In i (fst m') -> In i (fst m) \/ a = Item i) -> (forall xs, In xs (snd m') -> In xs (snd m) \/ (a = Union xs /\ leaves_out xs = true)) ->
    stocked m' (put_revert ((a, p) :: c_revert d) d).
  Proof.
    intros (S1 & S2 & S3) G C On V N1 N2. split; [|split].
    - intros b q [H|H]; [inversion H; subst; auto|]. destruct (S1 b q H) as (Cb & Ob & Vb). destruct (on_longer m m' b G Ob) as [O' F].
      split; [assumption|]. split; [assumption|]. now rewrite F.
    - intros i I. cbn [c_revert put_revert]. destruct (N1 i I) as [J|J].
      + destruct (S2 i J) as (P & q & Q). split; [assumption|]. exists q. now right.
      + subst a. split; [now apply canonical_canon in C|]. exists p. now left.
    - intros xs I. cbn [c_revert put_revert]. destruct (N2 xs I) as [J|[J K]].
      + destruct (S3 xs J) as (P & K & q & Q). split; [assumption|]. split; [assumption|]. exists q. now right.
      + subst a. split; [assumption|]. split; [assumption|]. exists p. now left.
  Qed.

  Lemma item_back m d i : stocked m d -> proper i ->
    let r := item_to_specifier_c mix i d in
    fst r = version_set_to_specifier (as_first_set (note_set (Item i) m) (Item i)) /\ stocked (note_set (Item i) m) (snd r).
  Proof.
    intros S P. cbn zeta. unfold item_to_specifier_c, cached. destruct (lookup (same_set mix) (Item i) (c_revert d)) as [p|] eqn:L.
    - destruct (stocked_hit m d (Item i) p S L) as [-> ->]. now split.
    - assert (F : find (item_eqb i) (fst m) = None).
      { destruct (find (item_eqb i) (fst m)) as [j|] eqn:F; auto. apply find_some in F as [I E]. destruct S as (_ & S2 & _).
        destruct (S2 j I) as (_ & q & Q). pose proof (lookup_none _ _ _ _ _ L Q) as X. rewrite (proj2 (same_set_eqb (Item i) (Item j)) E) in X. discriminate. }
      assert (K : as_first_set (note_set (Item i) m) (Item i) = Item i).
      { cbn [note_set as_first_set fst]. unfold enter, first_like. rewrite F, find_app, F. cbn [find]. now rewrite item_eqb_refl. }
      rewrite K. cbn [version_set_to_specifier]. unfold andThen, lift. rewrite item_to_specifier_eq by assumption. cbn [fst snd]. split; [reflexivity|].
      apply (stocked_more m); auto using note_set_longer.
      + now apply canonical_canon.
      + cbn [on_shelf note_set fst]. apply (enter_finds item_eqb item_eqb_refl).
      + rewrite K. cbn [version_set_to_specifier]. now apply item_to_specifier_eq.
      + cbn [note_set fst]. unfold enter. rewrite F. intros j I. apply in_app_iff in I as [I|[<-|[]]]; auto.
  Qed.

  Lemma items_back items : Forall proper items -> forall m d, stocked m d ->
    let m' := (fold_left (fun l i => enter item_eqb i l) items (fst m), snd m) in
    let r := mapM_c (item_to_specifier_c mix) items d in
    fst r = Ok (map item_spec (map (first_like item_eqb (fst m')) items)) /\ stocked m' (snd r)
    /\ Forall (fun i => find (item_eqb i) (fst m') <> None) items.
  Proof.
    induction 1 as [|i items P _ IH]; intros m d S; cbn zeta; cbn [mapM_c fold_left map].
    - split; [reflexivity|]. split; [|constructor]. cbn [lift snd fst]. now destruct m.
    - destruct (item_back m d i S P) as [E S']. unfold andThen. destruct (item_to_specifier_c mix i d) as [r d']. cbn [fst snd] in E, S'.
      destruct (IH (note_set (Item i) m) d' S') as (E2 & S2 & F2). cbn [note_set fst snd] in E2, S2, F2. cbn zeta in *.
      set (l' := fold_left (fun l i => enter item_eqb i l) items (enter item_eqb i (fst m))) in *.
      assert (G : exists x, l' = enter item_eqb i (fst m) ++ x) by apply fold_grows. destruct G as [x G].
      assert (F1 : find (item_eqb i) (enter item_eqb i (fst m)) <> None) by apply (enter_finds item_eqb item_eqb_refl).
      assert (R : r = Ok (item_spec (first_like item_eqb l' i))).
      { rewrite E. cbn [as_first_set note_set fst version_set_to_specifier]. rewrite G, (first_more item_eqb) by assumption. apply item_to_specifier_eq.
        destruct (first_in item_eqb i (enter item_eqb i (fst m))) as [->|I]; auto.
        destruct S' as (_ & S2' & _). cbn [note_set fst] in S2'. now apply S2'. }
      clear E. subst r. destruct (mapM_c (item_to_specifier_c mix) items d') as [r2 d2]. cbn [fst snd] in *. subst r2. unfold lift. cbn [fst snd].
      split; [reflexivity|]. split; [assumption|]. constructor; auto. rewrite G. now rewrite find_more.
  Qed.

  Theorem set_back m d a : stocked m d -> canonical a ->
    let r := version_set_to_specifier_c mix a d in
    fst r = version_set_to_specifier (as_first_set (note_set a m) a) /\ stocked (note_set a m) (snd r).
  Proof.
    intros S C. cbn zeta. destruct a as [|i|items].
    - unfold version_set_to_specifier_c, cached. destruct (lookup (same_set mix) Empty (c_revert d)) as [p|] eqn:L.
      + destruct (stocked_hit m d Empty p S L) as [-> ->]. now split.
      + unfold andThen, lift. cbn [fst snd note_set]. split; [reflexivity|]. apply (stocked_more m); auto using longer_refl; try exact I; reflexivity.
    - apply canonical_canon in C. exact (item_back m d i S C).
    - unfold version_set_to_specifier_c, cached. destruct (lookup (same_set mix) (Union items) (c_revert d)) as [p|] eqn:L.
      + destruct (stocked_hit m d _ p S L) as [-> ->]. now split.
      + pose proof (out_excludes items C) as X. pose proof (note_set_longer m (Union items)) as G. cbn [note_set as_first_set] in *.
        destruct (leaves_out items) eqn:O.
        * destruct X as (v & X).
          assert (F : find (items_eqb items) (snd m) = None).
          { destruct (find (items_eqb items) (snd m)) as [xs|] eqn:F; auto. apply find_some in F as [I E]. destruct S as (_ & _ & S3).
            destruct (S3 xs I) as (_ & _ & q & Q). pose proof (lookup_none _ _ _ _ _ L Q) as Y. rewrite (proj2 (same_set_eqb (Union items) (Union xs)) E) in Y. discriminate. }
          assert (K : first_like items_eqb (enter items_eqb items (snd m)) items = items).
          { unfold enter, first_like. rewrite F, find_app, F. cbn [find]. now rewrite items_eqb_refl. }
          cbn [fst snd]. rewrite K. unfold andThen, lift. rewrite X. cbn [fst snd version_set_to_specifier]. rewrite X. cbn [bind]. split; [reflexivity|].
          apply (stocked_more m); auto.
          -- cbn [on_shelf snd]. rewrite O. apply (enter_finds items_eqb items_eqb_refl).
          -- cbn [as_first_set snd]. rewrite O, K. cbn [version_set_to_specifier]. now rewrite X.
          -- cbn [snd]. unfold enter. rewrite F. intros xs I. apply in_app_iff in I as [I|[<-|[]]]; auto.
        * assert (P : Forall proper items) by (apply canonical_canon in C; exact (canon_proper _ C)).
          destruct (items_back items P m d S) as (E & S' & Fi). cbn zeta in *. unfold andThen, lift. rewrite X.
          destruct (mapM_c (item_to_specifier_c mix) items d) as [r d']. cbn [fst snd] in *. subst r. cbn [fst snd].
          set (l' := fold_left (fun l i => enter item_eqb i l) items (fst m)) in *.
          assert (Pf : Forall proper (map (first_like item_eqb l') items)).
          { apply Forall_map, Forall_forall. intros i I. destruct (first_in item_eqb i l') as [->|J].
            - rewrite Forall_forall in P. auto.
            - destruct S' as (_ & S2 & _). now apply (S2 _ J). }
          assert (Cf : canonical (Union (map (first_like item_eqb l') items))) by (apply (canonical_like items); auto using map_first_like).
          assert (Xf : exclude_version (map (first_like item_eqb l') items) = Ok None).
          { pose proof (out_excludes _ Cf) as Y. rewrite <- (leaves_out_same items _ (map_first_like l' items)), O in Y. exact Y. }
          assert (V : version_set_to_specifier (Union (map (first_like item_eqb l') items)) = Ok (any_of (map item_spec (map (first_like item_eqb l') items)))).
          { cbn [version_set_to_specifier]. rewrite Xf. cbn [bind]. rewrite mapM_items by assumption. reflexivity. }
          rewrite V. split; [reflexivity|]. apply (stocked_more (l', snd m)); auto using longer_refl.
          -- cbn [on_shelf]. rewrite O. exact Fi.
          -- cbn [as_first_set]. rewrite O. exact V.
  Qed.
End Back.

(** ** Histories *)

Section Both.
  Context (h : op_type -> N) (mix : list N -> N) (apart : no_collisions h mix).

  Lemma both_table cs m : fst (fold_left note_both cs m) = fold_left note_call cs (fst m).
  Proof. revert m. induction cs as [|c cs IH]; intros m; auto. cbn [fold_left]. now rewrite IH. Qed.

  Lemma stocked_same m d d' : c_revert d = c_revert d' -> stocked m d -> stocked m d'.
  Proof. unfold stocked. now intros ->. Qed.

  (** A conversion gives canonical sets. *)
  Lemma note_canonical cs p a l d : Forall fair cs -> spec_made p -> within (mentioned cs) p -> inv (mentioned cs) d -> kept l d ->
    fst (note p l) = Ok a -> canonical a.
  Proof.
    intros F M W I K E. destruct (to_set_good h mix (mentioned cs) p d I W) as (_ & V & _).
    destruct (convert_follows h mix apart p l d K) as [Q _]. rewrite Q, E in V. now apply (worth_canonical cs p a).
  Qed.

  Lemma both_step all c m d : Forall fair all -> In c all -> inv (mentioned all) d -> kept (fst m) d -> stocked (snd m) d ->
    stocked (snd (note_both m c)) (snd (do_call h mix c d)).
  Proof.
    intros F Ic I K S. pose proof (all_known all c Ic) as Kc. rewrite Forall_forall in F. pose proof (F c Ic) as Fc. rewrite <- Forall_forall in F.
    destruct c as [s|s|s|p|a|p]; cbn [do_call note_both snd fair] in *; rewrite give_snd.
    - destruct (parse_version_good _ s d I) as (_ & _ & E). now apply (stocked_same _ d).
    - destruct (parse_specifier_good _ s d I) as (_ & _ & E). now apply (stocked_same _ d).
    - destruct (parse_set_good h mix (mentioned all) s d I) as (_ & _ & E); [intros p P; apply Kc; now constructor|]. now apply (stocked_same _ d).
    - destruct (to_set_good h mix (mentioned all) p d I) as (_ & _ & E); [apply Kc; constructor|]. now apply (stocked_same _ d).
    - now apply (set_back mix (snd m) d a).
    - destruct Fc as [M N]. assert (W : within (mentioned all) p) by (apply Kc; constructor).
      destruct (to_set_good h mix (mentioned all) p d I W) as (I' & _ & E). destruct (convert_follows h mix apart p (fst m) d K) as [Q _].
      pose proof (note_canonical all p) as NC. unfold simplify_c, andThen.
      destruct (specifier_to_version_set_c h mix p d) as [[a|e] d']; cbn [fst snd] in *; rewrite <- Q.
      + assert (C : canonical a) by (apply (NC a (fst m) d); auto). apply (set_back mix (snd m) d' a); auto. now apply (stocked_same _ d).
      + now apply (stocked_same _ d).
  Qed.

  Lemma both_steps all cs : Forall fair all -> incl cs all -> forall m d, inv (mentioned all) d -> kept (fst m) d -> stocked (snd m) d ->
    stocked (snd (fold_left note_both cs m)) (do_calls h mix cs d).
  Proof.
    intros F. induction cs as [|c cs IH]; intros Ic m d I K S; auto. cbn [fold_left do_calls]. apply IH.
    - intros x X. apply Ic. now right.
    - apply call_inv; auto. apply all_known. apply Ic. now left.
    - apply call_follows; auto.
    - apply (both_step all); auto. apply Ic. now left.
  Qed.

  Lemma history_stocked cs : Forall fair cs -> stocked (shelved cs) (do_calls h mix cs no_caches).
  Proof.
    intros F. apply (both_steps cs cs); auto using incl_refl, empty_inv.
    - split; [|split]; intros x y [].
    - split; [intros x y []|]. split; intros x [].
  Qed.

  Lemma shelved_snoc cs c : shelved (cs ++ [c]) =
    match c with
    | ToSpecifier a => note_set a (shelved cs)
    | Simplify p => match fst (note p (remembered cs)) with Ok a => note_set a (shelved cs) | Err _ => shelved cs end
    | _ => shelved cs
    end.
  Proof.
    unfold shelved. rewrite fold_left_app. cbn [fold_left note_both snd]. rewrite both_table. reflexivity.
  Qed.

  Theorem to_specifier_remembered cs a : Forall fair cs -> canonical a ->
    answer_after h mix cs (ToSpecifier a) = answer_alone (ToSpecifier (as_first_set (shelved (cs ++ [ToSpecifier a])) a)).
  Proof.
    intros F C. unfold answer_after. cbn [do_call answer_alone]. rewrite give_fst, shelved_snoc.
    destruct (set_back mix _ _ a (history_stocked cs F) C) as [E _]. rewrite E. now destruct (version_set_to_specifier _).
  Qed.

  Theorem simplify_remembered cs p : Forall fair cs -> fair (Simplify p) ->
    answer_after h mix cs (Simplify p) =
      (let* a := specifier_to_version_set (as_first (remembered (cs ++ [Simplify p])) p) in
       answer_alone (ToSpecifier (as_first_set (shelved (cs ++ [Simplify p])) a))).
  Proof.
    intros F [M N]. assert (FA : Forall fair (Simplify p :: cs)) by (constructor; [now split|assumption]).
    unfold answer_after. cbn [do_call answer_alone]. rewrite give_fst, shelved_snoc. unfold remembered. rewrite fold_left_app. cbn [fold_left note_call].
    fold (remembered cs). destruct (note_well p (remembered cs)) as (_ & _ & V). rewrite <- V.
    pose proof (history_kept h mix apart cs) as K. pose proof (history_stocked cs F) as S. pose proof (history_inv h mix cs (Simplify p)) as I.
    assert (W : within (mentioned (Simplify p :: cs)) p) by (apply (all_known (Simplify p :: cs) (Simplify p)); [now left|constructor]).
    pose proof (note_canonical (Simplify p :: cs) p) as NC. destruct (convert_follows h mix apart p _ _ K) as [Q _].
    destruct (to_set_good h mix _ p _ I W) as (_ & _ & E). unfold simplify_c, andThen.
    destruct (specifier_to_version_set_c h mix p (do_calls h mix cs no_caches)) as [[a|e] d']; cbn [fst snd] in *; rewrite <- Q; cbn [bind]; [|reflexivity].
    assert (C : canonical a) by (apply (NC a (remembered cs) (do_calls h mix cs no_caches)); auto).
    destruct (set_back mix (shelved cs) d' a) as [B _]; [now apply (stocked_same _ (do_calls h mix cs no_caches))|assumption|].
    rewrite B. now destruct (version_set_to_specifier _).
  Qed.
End Both.
