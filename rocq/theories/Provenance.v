(** Set operations only use the bounds of their operands. *)

From Coq Require Import List ZArith NArith String Bool Lia.
From Verif Require Import Py Segments Version VersionSets Spec SetVersions.
Import ListNotations.

Section From.
  Variable P : version -> Prop.

  Definition oP (o : option version) : Prop := match o with None => True | Some v => P v end.
  Definition iP (i : item) : Prop := oP (i_min i) /\ oP (i_max i).
  Definition sP (a : vset) : Prop := Forall iP (extract a).
  Definition rP {A} (Q : A -> Prop) (r : result A) : Prop := match r with Ok a => Q a | Err _ => True end.

  Lemma rP_bind {A B} (Q : A -> Prop) (R : B -> Prop) r (f : A -> result B) : rP Q r -> (forall a, Q a -> rP R (f a)) -> rP R (bind r f).
  Proof. destruct r; cbn; auto. Qed.

  Lemma rP_item r : rP iP r -> rP sP (bind r (fun i => Ok (Item i))).
  Proof. intros H. apply (rP_bind iP); auto. intros i Hi. cbn. repeat constructor; apply Hi. Qed.

  Lemma sP_item i : iP i -> sP (Item i).
  Proof. intros H. constructor; auto. Qed.

  Lemma range_new_P m M b c : oP m -> oP M -> rP iP (range_new m M b c).
  Proof. intros H K. unfold range_new. repeat (destruct (if _ then _ else _) eqn:?; try exact I). all: repeat match goal with |- context [if ?x then _ else _] => destruct x end; cbn; auto; split; auto. Qed.

  Lemma insert_P x ys : iP x -> Forall iP ys -> Forall iP (insert x ys).
  Proof. intros H F. induction F as [|y ys Hy F IH]; cbn [insert]; [constructor; auto|]. destruct (item_lt y x); constructor; auto. Qed.

  Lemma sort_P xs : Forall iP xs -> Forall iP (sort xs).
  Proof. induction 1 as [|x xs H F IH]; cbn; auto. now apply insert_P. Qed.

  Section Merge.
    Variable u : item -> item -> result vset.
    Hypothesis Hu : forall s o, iP s -> iP o -> rP sP (u s o).

    Lemma merge_loop_P rest : forall cur, iP cur -> Forall iP rest -> rP (Forall iP) (merge_loop u cur rest).
    Proof.
      induction rest as [|x rest IH]; intros cur C F; cbn [merge_loop]; [cbn; auto|]. inversion F; subst. destruct (_ || _).
      - apply (rP_bind sP); auto. intros [|i|items] H; cbn; auto. apply IH; auto. inversion H; auto.
      - apply (rP_bind (Forall iP)); auto. intros out H. cbn. auto.
    Qed.

    Lemma merge_with_P sets : Forall sP sets -> rP sP (merge_with u sets).
    Proof.
      intros F. unfold merge_with. assert (E : Forall iP (flat_map extract sets)).
      { induction F as [|a sets H F IH]; cbn [flat_map]; [constructor|]. apply Forall_app. auto. }
      destruct (flat_map extract sets) as [|y ys] eqn:Z; [constructor|]. rewrite <- Z in *. destruct (existsb _ _); [cbn; repeat constructor|].
      apply sort_P in E. destruct (sort (flat_map extract sets)) as [|x rest]; [constructor|]. inversion E; subst.
      apply (rP_bind (Forall iP)); [now apply merge_loop_P|]. intros [|i [|j l]] H; cbn; auto.
    Qed.
  End Merge.

  Lemma item_union_P fuel : forall s o, iP s -> iP o -> rP sP (item_union fuel s o).
  Proof.
    induction fuel as [|fuel IH]; intros s o S O; [exact I|]. cbn [item_union].
    assert (M : forall x y, iP x -> iP y -> rP sP (merge_with (item_union fuel) [Item x; Item y])).
    { intros x y X Y. apply merge_with_P; auto. apply Forall_cons; [now apply sP_item|]. apply Forall_cons; [now apply sP_item|constructor]. }
    pose proof (sP_item s S) as S'. pose proof (sP_item o O) as O'. pose proof (M s o S O) as MS.
    destruct s as [v|smin smax simin simax].
    - destruct o as [w|]; [destruct (v_eq v w); auto|destruct (item_contains _ v); auto].
    - destruct S as [S1 S2]. cbn [i_min i_max] in S1, S2. destruct o as [w|omin omax oimin oimax].
      + destruct (item_contains _ w); auto. destruct (o_eq (Some w) smin); [apply rP_item, range_new_P; auto|].
        destruct (o_eq (Some w) smax); [apply rP_item, range_new_P; auto|]. auto.
      + destruct O as [O1 O2]. cbn [i_min i_max] in O1, O2. destruct (negb _ && negb _); auto.
        destruct (is_lower _ _), (is_higher _ _); apply rP_item, range_new_P; auto.
  Qed.

  Lemma merge_P sets : Forall sP sets -> rP sP (merge sets).
  Proof. apply merge_with_P. apply item_union_P. Qed.

  Lemma merge_items_P items : Forall iP items -> rP sP (merge (map Item items)).
  Proof. intros F. apply merge_P. apply Forall_map. eapply Forall_impl; [|exact F]. apply sP_item. Qed.

  Lemma union_P a b : sP a -> sP b -> rP sP (union a b).
  Proof.
    intros A B. unfold union. destruct a as [|s|xs]; auto.
    - destruct b as [|o|ys]; auto.
      + inversion A; inversion B; subst. now apply item_union_P.
      + destruct s as [v|]; [destruct (contains _ v); auto|]; apply merge_P; repeat constructor; auto.
        all: try (inversion A as [|? ? H _]; subst; apply H).
    - apply merge_P. repeat constructor; auto.
  Qed.

  Lemma item_version_P i : iP i -> rP P (item_version i).
  Proof.
    intros [H K]. destruct i as [v|m M b c]; [exact H|]. cbn [item_version i_min i_max] in *. destruct (item_is_point _); [|exact I]. destruct m; [exact H|]. destruct M; [exact K|exact I].
  Qed.

  Lemma point_P v : P v -> iP (Point v).
  Proof. intros H. split; exact H. Qed.

  Lemma item_intersection_P s o : iP s -> iP o -> rP sP (item_intersection s o).
  Proof.
    intros S O. pose proof (sP_item s S) as S'. pose proof (sP_item o O) as O'. assert (E : sP Empty) by constructor.
    destruct s as [v|smin smax simin simax]; cbn [item_intersection].
    - destruct (item_contains o v); auto.
    - destruct S as [S1 S2]. cbn [i_min i_max] in S1, S2. destruct o as [w|omin omax oimin oimax]; [destruct (item_contains _ w); auto|].
      destruct O as [O1 O2]. cbn [i_min i_max] in O1, O2. destruct (_ && _); auto. destruct (negb _ && _); auto.
      assert (K : forall m M b c, oP m -> oP M -> rP sP (let* r := range_new m M b c in if item_is_point r then let* v := item_version r in Ok (Item (Point v)) else Ok (Item r))).
      { intros m M b c H1 H2. apply (rP_bind iP); [now apply range_new_P|]. intros r R. destruct (item_is_point r); [|now apply sP_item].
        apply (rP_bind P); [now apply item_version_P|]. intros v V. now apply sP_item, point_P. }
      destruct (is_lower _ _), (is_higher _ _); apply K; auto.
  Qed.

  Lemma intersection_loop_P selfs : Forall iP selfs -> forall items, Forall iP items -> rP (Forall iP) (intersection_loop selfs items).
  Proof.
    induction 1 as [|s selfs S F IH]; [cbn; auto|]. intros items G. induction G as [|i items I' G IHi]; [cbn; auto|].
    cbn [intersection_loop]. apply (rP_bind sP); [now apply item_intersection_P|]. intros r R.
    apply (rP_bind (Forall iP)).
    - destruct (is_higher i s); [apply IH; auto|]. exact IHi.
    - intros rest Q. destruct r as [|x|]; cbn; auto. constructor; auto. now inversion R.
  Qed.

  Lemma union_intersection_P selfs b : Forall iP selfs -> sP b -> rP sP (union_intersection selfs b).
  Proof.
    intros F B. unfold union_intersection. apply (rP_bind (Forall iP)); [now apply intersection_loop_P|]. intros items. apply merge_items_P.
  Qed.

  Lemma intersection_P a b : sP a -> sP b -> rP sP (intersection a b).
  Proof.
    intros A B. assert (E : sP Empty) by constructor. destruct a as [|s|xs]; cbn [intersection]; auto.
    - inversion A; subst. destruct s as [v|]; [destruct (contains b v); auto|]. destruct b as [|o|ys]; auto.
      + inversion B; subst. now apply item_intersection_P.
      + now apply union_intersection_P.
    - now apply union_intersection_P.
  Qed.

  Lemma item_difference_P s o : iP s -> iP o -> rP sP (item_difference s o).
  Proof.
    intros S O. pose proof (sP_item s S) as S'. pose proof (sP_item o O) as O'. assert (E : sP Empty) by constructor.
    destruct s as [v|smin smax simin simax]; cbn [item_difference].
    - destruct (item_contains o v); auto.
    - destruct S as [S1 S2]. cbn [i_min i_max] in S1, S2. destruct o as [w|omin omax oimin oimax].
      + destruct O as [O1 _]. cbn [i_min] in O1. destruct (negb _); auto. destruct (o_eq _ smin); [destruct (negb simin); auto; apply rP_item, range_new_P; auto|].
        destruct (o_eq _ smax); [destruct (negb simax); auto; apply rP_item, range_new_P; auto|].
        apply (rP_bind iP); [now apply range_new_P|]. intros l L. apply (rP_bind iP); [now apply range_new_P|]. intros r R. apply merge_P. repeat constructor; auto; (apply L || apply R).
      + destruct O as [O1 O2]. cbn [i_min i_max] in O1, O2. destruct (negb _); auto.
        set (oI := fun x : option item => match x with None => True | Some i => iP i end).
        apply (rP_bind oI).
        { destruct (negb _); [exact I|]. destruct (o_eq smin omin); [destruct smin; [split; exact S1|exact I]|].
          apply (rP_bind iP); [now apply range_new_P|]. intros r R. exact R. }
        intros before HB. apply (rP_bind oI).
        { destruct (negb _); [exact I|]. destruct (o_eq smax omax); [destruct smax; [split; exact S2|exact I]|].
          apply (rP_bind iP); [now apply range_new_P|]. intros r R. exact R. }
        intros after HA. destruct before as [x|], after as [y|]; cbn [oI] in *; auto; try now apply sP_item. apply merge_P. repeat constructor; (apply HB || apply HA).
  Qed.

  Lemma difference_iterator_P items : Forall iP items -> forall cur, iP cur -> rP (Forall iP) (difference_iterator cur items).
  Proof.
    induction 1 as [|i items I' F IH]; intros cur C; cbn [difference_iterator]; [cbn; auto|]. destruct (is_strictly_lower i cur); auto.
    destruct (is_strictly_higher i cur); [cbn; auto|]. apply (rP_bind sP); [now apply item_difference_P|]. intros d D.
    destruct d as [|c|[|l [|r [|z t]]]]; try exact I; auto.
    - inversion D; subst. auto.
    - inversion D as [|? ? D1 D2]; subst. inversion D2; subst. apply (rP_bind (Forall iP)); auto. intros rest R. cbn. auto.
  Qed.

  Definition oI (x : option item) : Prop := match x with None => True | Some i => iP i end.
  Definition dP (st : dstate) : Prop :=
    Forall iP (d_items st) /\ Forall iP (d_others st) /\ oI (d_current st) /\ oI (d_other st) /\ Forall iP (d_result st).

  Lemma dP_intro xs ys c o r : Forall iP xs -> Forall iP ys -> oI c -> oI o -> Forall iP r -> dP (DState xs ys c o r).
  Proof. unfold dP. cbn [d_items d_others d_current d_other d_result]. auto. Qed.

  Lemma next_P xs : Forall iP xs -> oI (fst (next_or_none xs)) /\ Forall iP (snd (next_or_none xs)).
  Proof. destruct 1; cbn; auto. Qed.

  Lemma snoc_P xs o : Forall iP xs -> oI o -> Forall iP (xs ++ match o with Some c => [c] | None => [] end).
  Proof. intros F O. apply Forall_app. split; auto. destruct o; auto. Qed.

  Lemma next_other_P st : dP st -> dP (fst (next_other_current st)).
  Proof.
    intros (A & B & C & D & E). unfold next_other_current. destruct (next_P (d_others st) B) as [N1 N2]. destruct (next_or_none (d_others st)) as [[o|] others]; cbn [fst snd] in *.
    - apply dP_intro; auto.
    - apply dP_intro; auto. apply Forall_app. split; auto. now apply snoc_P.
  Qed.

  Lemma next_current_P b st : dP st -> dP (fst (next_current b st)).
  Proof.
    intros (A & B & C & D & E). unfold next_current. destruct (next_P (d_items st) A) as [N1 N2]. destruct (next_or_none (d_items st)) as [[o|] items]; cbn [fst snd] in *.
    - apply dP_intro; auto. destruct b; auto. now apply snoc_P.
    - apply dP_intro; auto. destruct b; auto. now apply snoc_P.
  Qed.

  Lemma d_step_P st : dP st -> rP (fun p => dP (fst p)) (d_step st).
  Proof.
    intros S. unfold d_step. pose proof S as (A & B & C & D & E). destruct (d_current st) as [cur|] eqn:EC; [|exact S]. destruct (d_other st) as [other|] eqn:EO; [|exact S].
    destruct (is_strictly_lower other cur); [now apply next_other_P|]. destruct (is_strictly_higher other cur); [now apply next_current_P|].
    apply (rP_bind sP); [now apply item_difference_P|]. intros d X.
    destruct d as [|c|[|l [|r [|z t]]]]; try exact I.
    - now apply next_current_P.
    - inversion X; subst. assert (Y : dP (d_set_current st c)) by (apply dP_intro; rewrite ?EO; auto).
      destruct (is_higher c other); [now apply next_other_P|now apply next_current_P].
    - inversion X as [|? ? X1 X2]; subst. inversion X2; subst. apply next_other_P. apply dP_intro; cbn [d_append d_items d_others d_current d_other d_result]; rewrite ?EO; auto. apply Forall_app. auto.
  Qed.

  Lemma d_loop_P fuel : forall st, dP st -> rP dP (d_loop fuel st).
  Proof.
    induction fuel as [|fuel IH]; intros st S; [exact I|]. cbn [d_loop]. apply (rP_bind (fun p => dP (fst p))); [now apply d_step_P|].
    intros [st' go] S'. destruct go; auto.
  Qed.

  Lemma items_difference_P xs ys : Forall iP xs -> Forall iP ys -> rP (Forall iP) (items_difference xs ys).
  Proof.
    intros X Y. unfold items_difference. destruct (next_P xs X) as [X1 X2], (next_P ys Y) as [Y1 Y2].
    destruct (next_or_none xs) as [c xs'], (next_or_none ys) as [o ys']. cbn [fst snd] in *.
    apply (rP_bind dP); [apply d_loop_P; apply dP_intro; auto|]. intros st (_ & _ & _ & _ & H). exact H.
  Qed.

  Lemma difference_P a b : sP a -> sP b -> rP sP (difference a b).
  Proof.
    intros A B. assert (E : sP Empty) by constructor. destruct a as [|s|xs]; cbn [difference]; auto.
    - destruct s as [v|]; [destruct (contains b v); auto|]. inversion A; subst. destruct b as [|o|ys]; auto.
      + inversion B; subst. now apply item_difference_P.
      + apply (rP_bind (Forall iP)); [now apply difference_iterator_P|]. intros ds. apply merge_items_P.
    - apply (rP_bind (Forall iP)); [now apply items_difference_P|]. intros ds. apply merge_items_P.
  Qed.

  Lemma complement_P a : sP a -> rP sP (complement a).
  Proof.
    intros A. assert (U : sP UNIVERSAL_SET) by (repeat constructor). destruct a; [exact U|apply difference_P; auto..].
  Qed.

  Lemma symmetric_difference_P a b : sP a -> sP b -> rP sP (symmetric_difference a b).
  Proof.
    intros A B. destruct a as [|i|]; cbn [symmetric_difference]; auto; [|exact I]. apply (rP_bind sP); [now apply union_P|]. intros u U.
    apply (rP_bind sP); [now apply intersection_P|]. intros x X. now apply difference_P.
  Qed.
End From.

Lemma sP_bounds P a : sP P a <-> Forall P (bounds a).
Proof.
  unfold sP. rewrite bounds_extract. induction (extract a) as [|i items IH]; cbn [flat_map]; [split; constructor|].
  rewrite Forall_app, Forall_cons_iff, IH. assert (X : iP P i <-> Forall P (item_bounds i)).
  { destruct i as [v|[m|] [M|] b c]; cbn [item_bounds app]; unfold iP; cbn [i_min i_max oP]; rewrite ?Forall_cons_iff; intuition constructor. }
  tauto.
Qed.

Definition both (a b : vset) : list version := bounds a ++ bounds b.

Lemma from_both (f : vset -> vset -> result vset) (H : forall P a b, sP P a -> sP P b -> rP (sP P) (f a b)) a b r :
  f a b = Ok r -> incl (bounds r) (both a b).
Proof.
  intros E. specialize (H (fun v => In v (both a b)) a b). rewrite E in H. cbn [rP] in H. rewrite !sP_bounds, !Forall_forall in H. unfold both in *.
  intros v. apply H; intros w W; apply in_app_iff; auto.
Qed.

Theorem union_bounds a b r : union a b = Ok r -> incl (bounds r) (both a b).
Proof. apply (from_both union), union_P. Qed.
Theorem intersection_bounds a b r : intersection a b = Ok r -> incl (bounds r) (both a b).
Proof. apply (from_both intersection), intersection_P. Qed.
Theorem difference_bounds a b r : difference a b = Ok r -> incl (bounds r) (both a b).
Proof. apply (from_both difference), difference_P. Qed.
Theorem symmetric_difference_bounds a b r : symmetric_difference a b = Ok r -> incl (bounds r) (both a b).
Proof. apply (from_both symmetric_difference), symmetric_difference_P. Qed.
Theorem complement_bounds a r : complement a = Ok r -> incl (bounds r) (bounds a).
Proof.
  intros E. pose proof (complement_P (fun v => In v (bounds a)) a) as H. rewrite E in H. cbn [rP] in H. rewrite !sP_bounds, !Forall_forall in H. intros v. apply H. auto.
Qed.
Theorem merge_bounds sets r : merge sets = Ok r -> incl (bounds r) (flat_map bounds sets).
Proof.
  intros E. pose proof (merge_P (fun v => In v (flat_map bounds sets)) sets) as H. rewrite E in H. cbn [rP] in H. rewrite sP_bounds in H.
  intros v V. assert (F : Forall (fun v => In v (flat_map bounds sets)) (bounds r)).
  { apply H, Forall_forall. intros a A. apply sP_bounds, Forall_forall. intros w W. apply in_flat_map. eauto. }
  rewrite Forall_forall in F. auto.
Qed.
