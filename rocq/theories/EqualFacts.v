(** Conversion of equal specifiers gives equal version sets, as long as the bounds
    do not depend on how many parts are written. *)

From Coq Require Import List ZArith NArith String Bool Lia.
From Verif Require Import Py Segments Version VersionSets Operators Specifiers Dispatch Orders Cuts SetItems SetChains
  SetMerge SetOps Spec OrderFacts SetVersions SetTheorems SetAlgebra BumpFacts OperatorFacts SpecifierFacts.
Import ListNotations.
Open Scope Z_scope.

Local Opaque key.

Lemma set_eqb_refl a : canonical a -> set_eqb a a = true.
Proof. intros C. apply canonical_canon in C. apply set_eqb_iff; tauto. Qed.

(** ** Set operations respect equality *)

Definition twin (x y : item) : Prop := lo x = lo y /\ hi x = hi y /\ (is_range x <-> is_range y).

Lemma ends_twin x y : proper x -> proper y -> lo x = lo y -> hi x = hi y -> twin x y.
Proof.
  intros Px Py L H. split; [assumption|]. split; [assumption|]. destruct x as [v|m M b c], y as [w|m' M' b' c']; cbn [is_range]; try tauto; exfalso.
  - symmetry in L, H. exact (proper_not_point _ _ _ _ v Py (conj L H)).
  - exact (proper_not_point _ _ _ _ w Px (conj L H)).
Qed.

Lemma eqb_twins a b : canon a -> canon b -> set_eqb a b = true -> Forall2 twin (extract a) (extract b).
Proof.
  intros Ca Cb E. rewrite set_eqb_items in E by assumption. pose proof (canon_proper a Ca) as Fa. pose proof (canon_proper b Cb) as Fb.
  pose proof (items_eqb_ends _ _ Fa Fb E) as F. clear E. induction F as [|x y xs ys (H1 & H2 & _) F IH]; constructor; inversion Fa; inversion Fb; subst; auto.
  now apply ends_twin.
Qed.

Lemma twin_in xs ys x : Forall2 twin xs ys -> In x xs -> exists y, In y ys /\ twin x y.
Proof.
  induction 1 as [|x' y xs ys T F IH]; intros []; [subst; exists y; split; [now left|assumption]|].
  destruct (IH H) as (z & I & T'). exists z. split; [now right|assumption].
Qed.

Lemma twin_sym x y : twin x y -> twin y x.
Proof. unfold twin. intuition congruence. Qed.
Lemma twins_sym xs ys : Forall2 twin xs ys -> Forall2 twin ys xs.
Proof. induction 1; constructor; auto using twin_sym. Qed.

Lemma stuck_twins xs ys : Forall2 twin xs ys -> stuck xs -> stuck ys.
Proof.
  intros F (v & r & I & J & L & N). destruct (twin_in xs ys _ F I) as (y & Iy & T1 & T2 & T3). destruct (twin_in xs ys _ F J) as (z & Iz & U1 & _).
  destruct y as [w|]; cbn [is_range] in T3; [|tauto]. rewrite !point_lo in T1. apply fin_pair in T1 as [K _].
  exists w, z. split; [assumption|]. split; [assumption|]. split; [congruence|].
  intros x Ix T. destruct (twin_in ys xs x (twins_sym _ _ F) Ix) as (x' & Ix' & V1 & V2 & V3). apply (N x' Ix').
  unfold touches in *. rewrite <- V1, <- V2, <- V3, K. exact T.
Qed.

Lemma union_stuck_twins a b a' b' : canon a -> canon b -> canon a' -> canon b' -> set_eqb a a' = true -> set_eqb b b' = true ->
  union_stuck a b -> union_stuck a' b'.
Proof.
  intros Ca Cb Ca' Cb' Ea Eb S. pose proof (eqb_twins _ _ Ca Ca' Ea) as Fa. pose proof (eqb_twins _ _ Cb Cb' Eb) as Fb.
  assert (F : Forall2 twin (extract a ++ extract b) (extract a' ++ extract b')) by now apply Forall2_app.
  destruct a as [|s|xs], a' as [|s'|xs']; try discriminate Ea; destruct b as [|o|ys], b' as [|o'|ys']; try discriminate Eb;
    cbn [union_stuck] in *; try contradiction; try (now apply (stuck_twins _ _ F)).
  cbn [extract] in Fa, Fb. inversion Fa as [|? ? ? ? (A1 & A2 & A3)]; inversion Fb as [|? ? ? ? (B1 & B2 & B3)]; subst.
  destruct S as [S1 S2]. split; [tauto|congruence].
Qed.

Lemma eqb_sym a b : canon a -> canon b -> set_eqb a b = true -> set_eqb b a = true.
Proof. intros Ca Cb E. apply set_eqb_iff; auto. intros c. symmetry. revert c. now apply set_eqb_iff. Qed.

Lemma union_alike a b a' b' : canonical a -> canonical b -> canonical a' -> canonical b' -> set_eqb a a' = true -> set_eqb b b' = true ->
  alike (union a b) (union a' b').
Proof.
  rewrite !canonical_canon. intros Ca Cb Ca' Cb' Ea Eb.
  destruct (union_exact a b) as [[S E]|(S & r & E & C & M)]; rewrite ?canonical_canon; auto.
  - rewrite E. rewrite union_clash_stuck in S by assumption.
    destruct (union_spec a' b' Ca' Cb') as [_ U]. rewrite U; [reflexivity|]. now apply (union_stuck_twins a b).
  - rewrite union_clash_stuck in S by assumption. destruct (union_spec a b Ca Cb) as [U _]. destruct (U S) as (r1 & E1 & C1 & D1).
    destruct (union_spec a' b' Ca' Cb') as [U' _]. destruct U' as (r2 & E2 & C2 & D2).
    + intros X. apply S. apply (union_stuck_twins a' b'); auto using eqb_sym.
    + rewrite E1, E2. cbn. apply set_eqb_iff; auto. intros c. rewrite D1, D2.
      rewrite (proj1 (set_eqb_iff a a' Ca Ca') Ea c), (proj1 (set_eqb_iff b b' Cb Cb') Eb c). reflexivity.
Qed.

Lemma intersection_alike a b a' b' : canonical a -> canonical b -> canonical a' -> canonical b' -> set_eqb a a' = true -> set_eqb b b' = true ->
  alike (intersection a b) (intersection a' b').
Proof.
  rewrite !canonical_canon. intros Ca Cb Ca' Cb' Ea Eb.
  destruct (intersection_spec a b Ca Cb) as (r1 & E1 & C1 & D1), (intersection_spec a' b' Ca' Cb') as (r2 & E2 & C2 & D2).
  rewrite E1, E2. cbn. apply set_eqb_iff; auto. intros c. rewrite D1, D2.
  rewrite (proj1 (set_eqb_iff a a' Ca Ca') Ea c), (proj1 (set_eqb_iff b b' Cb Cb') Eb c). reflexivity.
Qed.

Lemma complement_alike a a' : canonical a -> canonical a' -> set_eqb a a' = true -> alike (complement a) (complement a').
Proof.
  rewrite !canonical_canon. intros Ca Ca' Ea.
  destruct (complement_spec a Ca) as (r1 & E1 & C1 & D1), (complement_spec a' Ca') as (r2 & E2 & C2 & D2).
  rewrite E1, E2. cbn. apply set_eqb_iff; auto. intros c. rewrite D1, D2.
  rewrite (proj1 (set_eqb_iff a a' Ca Ca') Ea c). reflexivity.
Qed.

Lemma keeps_twins a b a' b' : canon a -> canon b -> canon a' -> canon b' -> set_eqb a a' = true -> set_eqb b b' = true ->
  difference_keeps a b -> difference_keeps a' b'.
Proof.
  intros Ca Cb Ca' Cb' Ea Eb K. pose proof (eqb_twins _ _ Ca Ca' Ea) as Fa. pose proof (eqb_twins _ _ Cb Cb' Eb) as Fb.
  destruct a as [|[v|m M c d]|xs]; try contradiction. destruct b as [|o|ys]; try contradiction.
  destruct a' as [|s'|xs']; try discriminate Ea. destruct b' as [|o'|ys']; try discriminate Eb.
  cbn [extract] in Fa, Fb. inversion Fa as [|? ? ? ? (A1 & A2 & A3)]; subst. destruct s' as [v'|m' M' c' d']; [cbn in A3; tauto|].
  cbn [difference_keeps] in *. destruct K as (x & I & K1 & K2). destruct (twin_in _ _ x Fb I) as (y & J & B1 & B2 & _).
  exists y. split; auto. unfold covers. rewrite <- A1, <- A2, <- B1, <- B2. now split.
Qed.

Lemma loses_twins a b a' b' : set_eqb a a' = true -> set_eqb b b' = true -> difference_loses a b -> difference_loses a' b'.
Proof. intros Ea Eb. destruct a, b; try contradiction; destruct a'; try discriminate Ea; destruct b'; try discriminate Eb. auto. Qed.

Lemma difference_alike a b a' b' : canonical a -> canonical b -> canonical a' -> canonical b' -> set_eqb a a' = true -> set_eqb b b' = true ->
  alike (difference a b) (difference a' b').
Proof.
  intros Ca Cb Ca' Cb' Ea Eb. pose proof (unchanged_dec a b) as D. rewrite unchanged_keeps in D. rewrite canonical_canon in *.
  assert (L : difference_loses a b \/ ~ difference_loses a b) by (destruct a, b; cbn; auto).
  destruct (difference_spec a b Ca Cb) as (N & U & Z), (difference_spec a' b' Ca' Cb') as (N' & U' & Z').
  destruct D as [D|D]; [|destruct L as [L|L]].
  - rewrite (U D), (U' (keeps_twins a b a' b' Ca Cb Ca' Cb' Ea Eb D)). exact Ea.
  - rewrite (Z L), (Z' (loses_twins a b a' b' Ea Eb L)). reflexivity.
  - assert (Ea' := eqb_sym a a' Ca Ca' Ea). assert (Eb' := eqb_sym b b' Cb Cb' Eb).
    destruct (N D L) as (r1 & E1 & C1 & D1). destruct N' as (r2 & E2 & C2 & D2).
    + intros K. apply D. now apply (keeps_twins a' b').
    + intros K. apply L. now apply (loses_twins a' b').
    + rewrite E1, E2. cbn. apply set_eqb_iff; auto. intros c. rewrite D1, D2.
      rewrite (proj1 (set_eqb_iff a a' Ca Ca') Ea c), (proj1 (set_eqb_iff b b' Cb Cb') Eb c). reflexivity.
Qed.

Lemma symmetric_difference_alike a b a' b' : canonical a -> canonical b -> canonical a' -> canonical b' -> set_eqb a a' = true -> set_eqb b b' = true ->
  alike (symmetric_difference a b) (symmetric_difference a' b').
Proof.
  intros Ca Cb Ca' Cb' Ea Eb. pose proof (union_alike a b a' b' Ca Cb Ca' Cb' Ea Eb) as U. pose proof (intersection_alike a b a' b' Ca Cb Ca' Cb' Ea Eb) as N.
  pose proof (union_members a b) as U1. pose proof (union_members a' b') as U2. pose proof (intersection_members a b) as N1. pose proof (intersection_members a' b') as N2.
  destruct a as [|s|xs], a' as [|s'|xs']; try discriminate Ea; cbn [symmetric_difference]; auto; try reflexivity.
  destruct (union (Item s) b) as [u|], (union (Item s') b') as [u'|]; cbn [alike bind] in *; try contradiction; auto.
  destruct (intersection (Item s) b) as [n|], (intersection (Item s') b') as [n'|]; cbn [alike bind] in *; try contradiction; auto.
  apply difference_alike; auto; [now apply U1|now apply N1|now apply U2|now apply N2].
Qed.

(** ** Operators *)

Definition same_end (m m' : option version) : Prop :=
  match m, m' with None, None => True | Some v, Some w => v_eq v w = true | _, _ => False end.

Lemma range_alike m m' M M' b c : same_end m m' -> same_end M M' ->
  alike (let* r := range_new m M b c in Ok (Item r)) (let* r := range_new m' M' b c in Ok (Item r)).
Proof.
  intros Hm HM.
  assert (X : is_gt (b_cmp (lower_bound m) (upper_bound M)) = is_gt (b_cmp (lower_bound m') (upper_bound M'))).
  { destruct m as [m|], m' as [m'|]; try contradiction; destruct M as [M|], M' as [M'|]; try contradiction; try reflexivity.
    unfold b_cmp. cbn [lower_bound upper_bound ext_cmp]. cbn in Hm, HM. destruct (cmp_eq m m' M Hm) as [_ ->]. destruct (cmp_eq M M' m' HM) as [-> _]. reflexivity. }
  unfold range_new. rewrite <- X.
  destruct m as [m|], m' as [m'|]; try contradiction; destruct M as [M|], M' as [M'|]; try contradiction; cbn in Hm, HM;
    destruct b, c; try reflexivity; destruct (is_gt _); cbn; try reflexivity; unfold item_eqb; cbn; rewrite ?Hm, ?HM; reflexivity.
Qed.

Lemma caret_upper_lax w w' u u' : valid_version w = true -> valid_version w' = true -> v_eq w w' = true -> op_lax CARET w ->
  caret_upper w u -> caret_upper w' u' -> v_eq u u' = true.
Proof.
  intros Vw Vw' E L (r & -> & U1 & U2 & U3) (r' & -> & X1 & X2 & X3). apply eq_same in E; auto. destruct E as (E1 & E2 & E3 & E4 & E5 & E6).
  assert (FN : final w <-> final w') by (unfold final; rewrite E3, E5; reflexivity).
  destruct (valid_parts w Vw) as (Nr & _). destruct (valid_parts w' Vw') as (Nr' & _).
  assert (BN : forall r i b, bumped r i b -> b <> []) by (intros s i b [X _] ->; cbn in X; lia).
  assert (Z0 : part (v_release w) 0 = part (v_release w') 0) by apply E2. cbn [op_lax] in L.
  assert (BR : forall s, part s 0 <> 0 -> breaking_index s = 0%nat).
  { intros s Hs. destruct s as [|a [|b [|c s]]]; cbn in *; auto; destruct (Z.eqb_spec a 0); congruence. }
  destruct (Z.eq_dec (part (v_release w) 0) 0) as [Z1|Z1].
  - rewrite (U2 ltac:(tauto) Z1), (X2 ltac:(tauto) ltac:(congruence)). now apply bare_same.
  - assert (Z2 : part (v_release w') 0 <> 0) by congruence. rewrite (BR _ Z1) in U1. rewrite (BR _ Z2) in X1.
    assert (B : bumped (v_release w) 0 r /\ bumped (v_release w') 0 r').
    { destruct (is_stable w) eqn:S; [apply stable_final in S|apply unstable_final in S]; tauto. }
    destruct B as [B B']. apply bare_same; eauto. intros n. destruct B as [_ B], B' as [_ B']. rewrite B, B'. cbn. destruct n; cbn; congruence.
Qed.

Lemma op_translate_lax t w w' : ordinary w -> ordinary w' -> op_made t w -> op_made t w' -> v_eq w w' = true -> op_lax t w ->
  alike (op_translate t w) (op_translate t w').
Proof.
  intros O O' M M' E L. pose proof (proj1 O) as Vw. pose proof (proj1 O') as Vw'.
  pose proof E as S. apply eq_same in S; auto. destruct S as (E1 & E2 & E3 & E4 & E5 & E6).
  assert (FN : final w <-> final w') by (unfold final; rewrite E3, E5; reflexivity).
  destruct (valid_parts w Vw) as (Nr & _). destruct (valid_parts w' Vw') as (Nr' & _).
  assert (EQ : alike (translate_equal w) (translate_equal w')).
  { cbn. unfold item_eqb. cbn. now rewrite E. }
  assert (RL : v_eq (bare (v_epoch w) (v_release w)) (bare (v_epoch w') (v_release w')) = true) by now apply bare_same.
  assert (WE : ~ final w -> alike (translate_wildcard_equal w) (translate_wildcard_equal w')).
  { intros NF. assert (NF' : ~ final w') by tauto. unfold translate_wildcard_equal.
    destruct (wildcard_bound w Vw) as [[[A _] _]|(A & u & -> & U)]; [contradiction|].
    destruct (wildcard_bound w' Vw') as [[[A' _] _]|(A' & u' & -> & U')]; [contradiction|]. cbn [bind].
    apply range_alike; [exact E|]. destruct (proj2 (U u) eq_refl) as (r & -> & _ & _ & K), (proj2 (U' u') eq_refl) as (r' & -> & _ & _ & K').
    rewrite (K NF), (K' NF'). exact RL. }
  destruct t; cbn [op_translate op_lax] in *; try contradiction; auto.
  - unfold translate_not_equal, translate_equal. cbn [bind].
    assert (C : alike (complement (Item (Point w))) (complement (Item (Point w')))) by (apply complement_alike; [exact I|exact I|exact EQ]).
    destruct (complement_union (Point w) w w false true) as (xs & X & _); [exact I|reflexivity|reflexivity|].
    destruct (complement_union (Point w') w' w' false true) as (ys & Y & _); [exact I|reflexivity|reflexivity|]. rewrite X, Y in *. exact C.
  - apply range_alike; [exact I|exact E].
  - apply range_alike; [exact I|exact E].
  - apply range_alike; [exact E|exact I].
  - apply range_alike; [exact E|exact I].
  - unfold translate_caret. destruct (caret_bound w Vw) as (u & -> & U), (caret_bound w' Vw') as (u' & -> & U'). cbn [bind].
    apply range_alike; [exact E|]. apply (caret_upper_lax w w'); auto; [now apply U|now apply U'].
  - unfold translate_tilde. destruct (tilde_bound w Vw) as (u & -> & U), (tilde_bound w' Vw') as (u' & -> & U'). cbn [bind].
    apply range_alike; [exact E|]. destruct (proj2 (U u) eq_refl) as (r & -> & _ & K), (proj2 (U' u') eq_refl) as (r' & -> & _ & K').
    rewrite (K L), (K' ltac:(tauto)). exact RL.
  - unfold translate_wildcard_not_equal. specialize (WE L).
    assert (PD : post_dev w <-> post_dev w') by (unfold post_dev; rewrite E3, E4, E5; reflexivity).
    destruct (post_dev_dec w) as [S|S].
    + pose proof (op_translate_stuck WILDCARD_EQUAL w Vw S) as X. pose proof (op_translate_stuck WILDCARD_EQUAL w' Vw' (proj1 PD S)) as X'.
      cbn [op_translate] in X, X'. rewrite X, X'. reflexivity.
    + destruct (wildcard_translate w O S) as (a & Ea & Ca & Ma & _), (wildcard_translate w' O' ltac:(tauto)) as (a' & Ea' & Ca' & Ma' & _).
      rewrite Ea, Ea' in *. cbn [bind]. pose proof (complement_alike a a' Ca Ca' WE) as K.
      destruct (complement a) as [c|], (complement a') as [c'|]; cbn [bind alike] in *; try contradiction; auto.
      destruct c, c'; try discriminate K; try exact K; reflexivity.
Qed.

Lemma op_translate_alike t w t' w' : ordinary w -> ordinary w' -> op_made t w -> op_made t' w' -> op_eqb t t' = true -> v_eq w w' = true ->
  as_precise t w t' w' -> alike (op_translate t w) (op_translate t' w').
Proof.
  intros O O' M M' Et E P. assert (T : op_translate t' w' = op_translate t w') by (destruct t, t'; try discriminate Et; reflexivity).
  rewrite T. destruct P as [L|L].
  - apply op_translate_lax; auto. split; [apply O'|]. intros ->. destruct t'; try discriminate Et. now apply M'.
  - pose proof (proj1 O) as Vw. pose proof (proj1 O') as Vw'. assert (Me : op_made t w') by (split; [apply O'|]; intros ->; destruct t'; try discriminate Et; now apply M').
    assert (K : List.length (v_release w) = List.length (v_release w') -> alike (op_translate t w) (op_translate t w')).
    { intros Q. rewrite <- (length_same w w'); auto. destruct (op_stuck_dec t w) as [S|S].
      - rewrite (op_translate_stuck t w (proj1 O) S). reflexivity.
      - destruct (op_translate_sat t w O M S) as (a & -> & C & _). now apply set_eqb_refl. }
    destruct (final_dec w) as [F|F].
    + destruct t; try (apply K; exact L); cbn [op_translate].
      * unfold translate_caret. destruct (caret_bound w Vw) as (u & -> & U), (caret_bound w' Vw') as (u' & -> & U'). cbn [bind].
        apply range_alike; [exact E|]. apply (caret_upper_reach w w'); auto; [now apply U|now apply U'].
      * unfold translate_tilde. destruct (tilde_bound w Vw) as (u & -> & U), (tilde_bound w' Vw') as (u' & -> & U'). cbn [bind].
        apply range_alike; [exact E|]. apply (tilde_upper_reach w w'); auto; [now apply U|now apply U'].
    + destruct t; try (apply K; exact L); apply op_translate_lax; auto; cbn [op_lax]; tauto.
Qed.

(** ** Trees *)

Definition fits (r r' : result vset) : Prop :=
  match r, r' with
  | Ok a, Ok b => canonical a /\ canonical b /\ set_eqb a b = true
  | Err e, Err e' => e = e'
  | _, _ => False
  end.

Section Reduction.
  Context (f : vset -> vset -> result vset)
    (f_alike : forall a b a' b', canonical a -> canonical b -> canonical a' -> canonical b' -> set_eqb a a' = true -> set_eqb b b' = true ->
       alike (f a b) (f a' b'))
    (f_canonical : forall a b r, canonical a -> canonical b -> f a b = Ok r -> canonical r).

  Lemma reduce_from_fits ss us : Forall2 (fun s u => fits (specifier_to_version_set s) (specifier_to_version_set u)) ss us ->
    forall a b, canonical a -> canonical b -> set_eqb a b = true ->
    fits (reduce_from f specifier_to_version_set a ss) (reduce_from f specifier_to_version_set b us).
  Proof.
    induction 1 as [|s u ss us F _ IH]; intros a b Ca Cb E; [now repeat split|]. cbn [reduce_from].
    destruct (specifier_to_version_set s) as [x|], (specifier_to_version_set u) as [y|]; cbn [fits bind] in *; try contradiction; auto.
    destruct F as (Cx & Cy & Exy). pose proof (f_alike a x b y Ca Cx Cb Cy E Exy) as K. pose proof (f_canonical a x) as K1. pose proof (f_canonical b y) as K2.
    destruct (f a x) as [r|], (f b y) as [r'|]; cbn [alike bind] in *; try contradiction; auto.
  Qed.

  Lemma reduce_map_fits ss us : Forall2 (fun s u => fits (specifier_to_version_set s) (specifier_to_version_set u)) ss us ->
    fits (reduce_map f specifier_to_version_set ss) (reduce_map f specifier_to_version_set us).
  Proof.
    intros F. inversion F as [|s u ss' us' K F']; subst; [reflexivity|]. cbn [reduce_map].
    destruct (specifier_to_version_set s) as [x|], (specifier_to_version_set u) as [y|]; cbn [fits bind] in *; try contradiction; auto.
    destruct K as (Cx & Cy & Exy). now apply reduce_from_fits.
  Qed.
End Reduction.

Theorem convert_fits s u : spec_made s -> spec_made u -> each_op plain_op s -> each_op plain_op u -> spec_eqb s u = true -> paired as_precise s u ->
  fits (specifier_to_version_set s) (specifier_to_version_set u).
Proof.
  revert u. induction s as [| |t w|ss IH|ss IH] using spec_members; intros u Ms Mu Ns Nu E P;
    inversion P as [| |? ? t' w' R|? us F|? us F]; subst.
  - cbn. auto.
  - cbn. assert (canonical UNIVERSAL_SET) by (apply canonical_canon, canon_universal). repeat split; auto.
  - pose proof E as E0. cbn in E. apply andb_true_iff in E as [Et Ev].
    assert (O : ordinary w) by (split; [apply Ms|exact Ns]). assert (O' : ordinary w') by (split; [apply Mu|exact Nu]).
    pose proof (op_translate_alike t w t' w' O O' Ms Mu Et Ev R) as K.
    pose proof (convert_sound (One t w) Ms Ns) as C1. pose proof (convert_sound (One t' w') Mu Nu) as C2. cbn [specifier_to_version_set] in *.
    destruct (op_translate t w) as [a|], (op_translate t' w') as [b|]; cbn [alike fits] in *; try contradiction; auto.
    destruct (C1 a eq_refl) as [? _], (C2 b eq_refl) as [? _]. auto.
  - apply spec_eqb_any in E. apply made_any in Ms as [_ Ms]. apply made_any in Mu as [_ Mu]. rewrite each_op_any in Ns, Nu. cbn [specifier_to_version_set].
    apply reduce_map_fits; [exact union_alike| |].
    + intros a b r Ca Cb H. now destruct (union_members a b r Ca Cb H).
    + clear P. induction F as [|s u ss us Pr F IHF]; constructor; inversion E; inversion Ms; inversion Mu; inversion Ns; inversion Nu; inversion IH; subst; auto.
  - apply spec_eqb_all in E. apply made_all in Ms as [_ Ms]. apply made_all in Mu as [_ Mu]. rewrite each_op_all in Ns, Nu. cbn [specifier_to_version_set].
    apply reduce_map_fits; [exact intersection_alike| |].
    + intros a b r Ca Cb H. now destruct (intersection_members a b r Ca Cb H).
    + clear P. induction F as [|s u ss us Pr F IHF]; constructor; inversion E; inversion Ms; inversion Mu; inversion Ns; inversion Nu; inversion IH; subst; auto.
Qed.

Lemma convert_alike s u : spec_made s -> spec_made u -> each_op plain_op s -> each_op plain_op u -> spec_eqb s u = true -> paired as_precise s u ->
  alike (specifier_to_version_set s) (specifier_to_version_set u).
Proof.
  intros Ms Mu Ns Nu E P. pose proof (convert_fits s u Ms Mu Ns Nu E P) as F.
  destruct (specifier_to_version_set s), (specifier_to_version_set u); cbn in *; tauto.
Qed.

Lemma contains_alike a a' v w : canonical a -> canonical a' -> set_eqb a a' = true -> v_eq v w = true -> contains a v = contains a' w.
Proof.
  rewrite !canonical_canon. intros C C' E H. rewrite (contains_congr a v w H). apply eq_true_iff_eq. rewrite !contains_iff by assumption.
  apply (set_eqb_iff a a' C C'). exact E.
Qed.
