(** Lemmas for C112. *)

From Coq Require Import List ZArith NArith String Bool Lia.
From Verif Require Import Py Segments Version VersionSets Operators Specifiers Orders OrderFacts Groups Stepper Grammar SegmentSpec AccessFacts OperatorFacts Messages MessageSpec MessageFacts Refusals Spec Cuts SetItems.
Import ListNotations.
Open Scope Z_scope.

Lemma silent_range min max imin imax : silent (told_range_new min max imin imax) = range_new min max imin imax.
Proof. unfold told_range_new, range_new. destruct min, max, imin, imax; cbn; try reflexivity; destruct (is_gt _); reflexivity. Qed.

Lemma silent_version i : silent (told_item_version i) = item_version i.
Proof. unfold told_item_version, item_version. destruct i as [v|[m|] [M|] a b]; cbn [silent]; auto; destruct (item_is_point _); reflexivity. Qed.

Lemma silent_union items : silent (told_union_new items) = union_new items.
Proof. destruct items as [|x [|y items]]; reflexivity. Qed.

Lemma silent_groups ss : silent (told_any_new ss) = any_new ss /\ silent (told_all_new ss) = all_new ss.
Proof. unfold told_any_new, told_all_new, any_new, all_new. destruct ss as [|s ss]; [split; reflexivity|]. unfold told_check_specifiers, check_specifiers. destruct (_ =? 1); split; reflexivity. Qed.

Lemma silent_prepare s : silent (told_prepare s) = st_prepare s.
Proof.
  unfold told_prepare, told_check_not_prepared, st_prepare, check_not_prepared. destruct (is_prepared s); [reflexivity|]. cbn [tell bind].
  destruct (VersionSets.next_or_none _), (VersionSets.next_or_none _). reflexivity.
Qed.
Lemma silent_step s : silent (told_step s) = st_step s.
Proof.
  unfold told_step, told_check_prepared, st_step, check_prepared. destruct (is_not_prepared s); [reflexivity|]. cbn [tell bind].
  destruct (d_step (st_state s)) as [p|]; reflexivity.
Qed.
Lemma silent_compute s : silent (told_compute s) = st_compute s.
Proof.
  unfold told_compute, st_compute. rewrite <- silent_prepare. destruct (told_prepare s) as [p|e m]; [|reflexivity]. cbn [tell silent bind].
  destruct (st_loop (st_fuel s) p) as [q|]; reflexivity.
Qed.

Lemma range_told min max imin imax :
  told_range_new min max imin imax =
    match min, max with
    | None, _ => if imin then Told ValueError (Some CAN_NOT_INCLUDE_INFINITY)
                 else if match max with None => imax | _ => false end then Told ValueError (Some CAN_NOT_INCLUDE_INFINITY)
                 else Fine (Range min max imin imax)
    | Some _, None => if imax then Told ValueError (Some CAN_NOT_INCLUDE_INFINITY) else Fine (Range min max imin imax)
    | Some m, Some M => if v_lt M m then Told ValueError (Some MIN_MAX_CONSTRAINT) else Fine (Range min max imin imax)
    end.
Proof.
  unfold told_range_new. destruct min as [m|], max as [M|], imin, imax; try reflexivity.
  all: assert (E : is_gt (b_cmp (lower_bound (Some m)) (upper_bound (Some M))) = v_lt M m).
  all: try (now rewrite E).
  all: unfold b_cmp, lower_bound, upper_bound, v_lt; cbn [ext_cmp]; unfold v_cmp; rewrite (law_anti lawful_key (key m) (key M)); destruct (key_cmp (key m) (key M)); reflexivity.
Qed.

Lemma range_refused min max imin imax e t :
  told_range_new min max imin imax = Told e t <->
  e = ValueError
  /\ ((t = Some (lit "ranges can not contain infinities") /\ (min = None /\ imin = true \/ max = None /\ imax = true))
      \/ (t = Some (lit "version ranges expect `min <= max`, got `min > max`")
          /\ exists m M, min = Some m /\ max = Some M /\ v_lt M m = true)).
Proof.
  rewrite range_told. fold CAN_NOT_INCLUDE_INFINITY MIN_MAX_CONSTRAINT.
  assert (X : forall (A : Type) (a : A) e' t', Fine a = Told e' t' <-> False) by (split; [discriminate|tauto]).
  assert (Y : forall (A : Type) t0, Told (A := A) ValueError (Some t0) = Told e t <-> e = ValueError /\ t = Some t0) by (intros; split; [intros [= <- <-]; auto|intros [-> ->]; auto]).
  destruct min as [m|], max as [M|].
  - destruct (v_lt M m) eqn:L; rewrite ?X, ?Y.
    + split; [intros [-> ->]; split; [reflexivity|right; split; [reflexivity|exists m, M; auto]]|intros (-> & [(_ & [[] | []])|(-> & _)]); try discriminate; auto].
    + split; [tauto|intros (_ & [(_ & [[] | []])|(_ & m' & M' & [= <-] & [= <-] & L')]); congruence].
  - destruct imax; rewrite ?X, ?Y.
    + split; [intros [-> ->]; split; [reflexivity|left; split; auto]|intros (-> & [(-> & _)|(_ & m' & M' & _ & N & _)]); [auto|discriminate]].
    + split; [tauto|intros (_ & [(_ & [[] | []])|(_ & m' & M' & _ & N & _)]); discriminate].
  - destruct imin; rewrite ?X, ?Y.
    + split; [intros [-> ->]; split; [reflexivity|left; split; auto]|intros (-> & [(-> & _)|(_ & m' & M' & N & _)]); [auto|discriminate]].
    + split; [tauto|intros (_ & [(_ & [[] | []])|(_ & m' & M' & N & _)]); discriminate].
  - destruct imin; [|destruct imax]; rewrite ?X, ?Y.
    1,2: split; [intros [-> ->]; split; [reflexivity|left; split; auto]|intros (-> & [(-> & _)|(_ & m' & M' & N & _)]); [auto|discriminate]].
    split; [tauto|intros (_ & [(_ & [[] | []])|(_ & m' & M' & N & _)]); discriminate].
Qed.

Lemma version_refused i e t :
  told_item_version i = Told e t <->
  e = ValueError /\ t = Some (lit "version range is not a point") /\
  ~ (exists v, i = Point v) /\ ~ (exists m M, i = Range (Some m) (Some M) true true /\ v_eq m M = true).
Proof.
  unfold told_item_version. destruct i as [v|min max imin imax].
  - split; [discriminate|intros (_ & _ & N & _); destruct N; eauto].
  - assert (P : item_is_point (Range min max imin imax) = true <-> exists m M, Range min max imin imax = Range (Some m) (Some M) true true /\ v_eq m M = true).
    { unfold item_is_point, is_closed, is_left_closed, is_right_closed, i_include_min, i_include_max. unfold is_empty_or_point; cbn. unfold b_cmp, lower_bound, upper_bound.
      destruct min as [m|], max as [M|]; cbn [ext_cmp is_eq andb]; try (split; [discriminate|intros (m' & M' & [=] & _)]).
      fold (v_eq m M). rewrite !andb_true_iff. split; [intros (E & -> & ->); eauto|intros (m' & M' & [= <- <- -> ->] & E); auto]. }
    destruct (item_is_point (Range min max imin imax)) eqn:Q.
    + destruct (proj1 P eq_refl) as (m & M & [= -> -> -> ->] & E). split; [discriminate|intros (_ & _ & _ & N); destruct N; eauto].
    + split.
      * intros [= <- <-]. split; [reflexivity|]. split; [reflexivity|]. split; [intros [v [=]]|]. intros N. apply P in N. discriminate.
      * intros (-> & -> & _). reflexivity.
Qed.

Lemma counted_refused {A} (xs : list A) {B} (none one : told B) many r :
  match xs with [] => none | [_] => one | _ => many end = r <->
  (List.length xs = 0%nat /\ r = none) \/ (List.length xs = 1%nat /\ r = one) \/ ((2 <= List.length xs)%nat /\ r = many).
Proof.
  destruct xs as [|x [|y xs]]; cbn [List.length]; (split; [intros <-|]).
  - auto.
  - intros [[_ ->]|[[[=] _]|[L _]]]; [auto|lia].
  - auto.
  - intros [[[=] _]|[[_ ->]|[L _]]]; [auto|lia].
  - right; right; split; [lia|auto].
  - intros [[[=] _]|[[[=] _]|[_ ->]]]; auto.
Qed.

Lemma union_told items r : told_union_new items = r <->
  (List.length items = 0%nat /\ r = Told ValueError (Some (lit "expected at least 2 items, 0 found")))
  \/ (List.length items = 1%nat /\ r = Told ValueError (Some (lit "expected at least 2 items, 1 found; consider using it directly")))
  \/ ((2 <= List.length items)%nat /\ r = Fine (Union items)).
Proof. apply counted_refused. Qed.

Lemma groups_told ss r :
  (told_any_new ss = r <->
    (List.length ss = 0%nat /\ r = Told TypeError (Some (lit "expected at least 2 specifiers, 0 found")))
    \/ (List.length ss = 1%nat /\ r = Told TypeError (Some (lit "expected at least 2 specifiers, 1 found; consider using it directly")))
    \/ ((2 <= List.length ss)%nat /\ r = Fine (AnyOf ss)))
  /\ (told_all_new ss = r <->
    (List.length ss = 0%nat /\ r = Told TypeError (Some (lit "expected at least 2 specifiers, 0 found")))
    \/ (List.length ss = 1%nat /\ r = Told TypeError (Some (lit "expected at least 2 specifiers, 1 found; consider using it directly")))
    \/ ((2 <= List.length ss)%nat /\ r = Fine (AllOf ss))).
Proof.
  assert (Z : forall f : list spec -> spec, (let! _ := told_check_specifiers ss in Fine (f ss)) =
    match ss with [] => Told TypeError (Some NO_SPECIFIERS) | [_] => Told TypeError (Some ONE_SPECIFIER) | _ => Fine (f ss) end).
  { intros f. unfold told_check_specifiers. destruct ss as [|x [|y l]]; [reflexivity..|]. destruct (Z.eqb_spec (Z.of_nat (List.length (x :: y :: l))) 1) as [E|E]; [cbn [List.length] in E; lia|reflexivity]. }
  unfold told_any_new, told_all_new. rewrite !Z. split; apply counted_refused.
Qed.

Lemma segments_told :
  (forall parts r, told_release_new parts = r <->
     (parts = [] /\ r = Told ValueError (Some (lit "releases can not be empty"))) \/ (parts <> [] /\ r = Fine parts))
  /\ (forall parts r, told_local_new parts = r <->
     (parts = [] /\ r = Told ValueError (Some (lit "local can not be empty"))) \/ (parts <> [] /\ r = Fine parts)).
Proof.
  split; intros [|x xs] r; cbn [told_release_new told_local_new]; split.
  1,5: intros <-; left; split; reflexivity.
  1,4: intros [[_ ->]|[H _]]; [reflexivity|now destruct H].
  1,3: intros <-; right; split; [discriminate|reflexivity].
  all: intros [[H _]|[_ ->]]; [discriminate|reflexivity].
Qed.

Lemma prepare_told items others :
  let s := stepper_new items others in
  exists p, told_prepare s = Fine p
  /\ told_prepare p = Told ValueError (Some (lit "`prepare` must be called exactly once"))
  /\ told_compute p = Told ValueError (Some (lit "`prepare` must be called exactly once"))
  /\ told_step s = Told ValueError (Some (lit "`prepare` must be called before computing"))
  /\ forall e m, told_step p <> Told e (Some m).
Proof.
  cbn zeta. unfold told_prepare at 1. cbn [told_check_not_prepared stepper_new is_prepared st_prepared tell]. unfold st_prepare, check_not_prepared. cbn [is_prepared st_prepared bind st_state d_items d_others d_result stepper_new].
  destruct (VersionSets.next_or_none items) as [c xs], (VersionSets.next_or_none others) as [o ys]. cbn [untold]. eexists. split; [reflexivity|]. split; [reflexivity|]. split; [reflexivity|]. split; [reflexivity|].
  intros e m. unfold told_step, told_check_prepared. cbn [is_not_prepared st_prepared negb tell]. destruct (st_step _); cbn [untold]; discriminate.
Qed.

Lemma tag_refused c w x :
  told_tag_new c w x = if str_in w (tag_words c) then Fine (Tag (long_form w) x) else Told ValueError (Some (phase_refused (long_form w) c)).
Proof.
  pose proof (tag_new_exact c w x) as E. rewrite <- silent_tag_new in E. destruct (told_tag_new c w x) as [t|e m] eqn:T; cbn [silent] in E.
  - destruct (str_in w (tag_words c)); [now injection E as ->|discriminate].
  - apply told_tag_new_err in T as (-> & -> & _). rewrite convert_long. now destruct (str_in w (tag_words c)).
Qed.

Lemma one_refused t w e m : valid_version w = true ->
  told_one_new t w = Told e m <->
  e = ValueError /\ m = Some (lit "`~=` can not be used with with a single version segment")
  /\ t = TILDE_EQUAL /\ List.length (v_release w) = 1%nat.
Proof.
  intros V. unfold told_one_new. pose proof (op_valid_iff t w V) as K. unfold op_made in K. destruct (valid_parts w V) as (N & _).
  assert (L : (1 <= List.length (v_release w))%nat) by (destruct (v_release w); [congruence|cbn; lia]).
  destruct (op_valid t w).
  - split; [discriminate|]. intros (_ & _ & T & E). apply proj1 in K. destruct (K eq_refl) as [_ K']. specialize (K' T). lia.
  - assert (X : t = TILDE_EQUAL /\ List.length (v_release w) = 1%nat).
    { destruct (Nat.eq_dec (List.length (v_release w)) 1) as [E|E].
      - split; [|exact E]. destruct t; auto; exfalso; (enough (false = true) by discriminate); apply K; (split; [exact V|discriminate]).
      - exfalso. enough (false = true) by discriminate. apply K. split; [exact V|lia]. }
    split; [intros [= <- <-]; auto|intros (-> & -> & _); auto].
Qed.
