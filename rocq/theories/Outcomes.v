(** Exactly when conversions to version sets return. *)

From Coq Require Import List ZArith NArith String Bool Arith Lia.
From Verif Require Import Py Segments Version VersionSets Operators SetStrings Specifiers Regex Patterns Parsers Orders Spec SetVersions SetTheorems SetAlgebra
  OrderFacts OperatorFacts SpecifierFacts
  Grammar Clauses RegexFacts Unambiguous VersionRegex ParseFacts ParseTheorems ClauseRegex ClauseFacts SpecText SpecParse SpecStrings SpecFailures SpecMeaning Compose.
Import ListNotations.

(** ** Reductions *)

Section Reduce.
  Context (f : vset -> vset -> result vset) (g : spec -> result vset).

  Lemma reduce_from_stops ss : forall acc e, reduce_from f g acc ss = Err e <->
    exists pre s post a, ss = pre ++ s :: post /\ reduce_from f g acc pre = Ok a /\ (g s = Err e \/ exists b, g s = Ok b /\ f a b = Err e).
  Proof.
    induction ss as [|s ss IH]; intros acc e; cbn [reduce_from].
    - split; [discriminate|]. intros ([|x pre] & s & post & a & E & _); discriminate E.
    - destruct (g s) as [y|e'] eqn:G; cbn [bind].
      + destruct (f acc y) as [r|e'] eqn:F; cbn [bind].
        * rewrite IH. split.
          -- intros (pre & u & post & a & -> & R & H). exists (s :: pre), u, post, a. split; [reflexivity|]. cbn [reduce_from]. rewrite G. cbn [bind]. rewrite F. auto.
          -- intros ([|x pre] & u & post & a & E & R & H).
             ++ cbn [app] in E. injection E as <- <-. cbn [reduce_from] in R. injection R as <-. destruct H as [H|(b & B & H)]; congruence.
             ++ cbn [app] in E. injection E as <- ->. cbn [reduce_from] in R. rewrite G in R. cbn [bind] in R. rewrite F in R. cbn [bind] in R. exists pre, u, post, a. auto.
        * split.
          -- intros [= <-]. exists [], s, ss, acc. split; [reflexivity|]. split; [reflexivity|]. right. eauto.
          -- intros ([|x pre] & u & post & a & E & R & H).
             ++ cbn [app] in E. injection E as <- <-. cbn [reduce_from] in R. injection R as <-. destruct H as [H|(b & B & H)]; congruence.
             ++ cbn [app] in E. injection E as <- ->. cbn [reduce_from] in R. rewrite G in R. cbn [bind] in R. rewrite F in R. discriminate R.
      + split.
        * intros [= <-]. exists [], s, ss, acc. auto.
        * intros ([|x pre] & u & post & a & E & R & H).
          -- cbn [app] in E. injection E as <- <-. destruct H as [H|(b & B & H)]; congruence.
          -- cbn [app] in E. injection E as <- ->. cbn [reduce_from] in R. rewrite G in R. discriminate R.
  Qed.

  Lemma reduce_from_snoc ss s : forall acc, reduce_from f g acc (ss ++ [s]) = let* a := reduce_from f g acc ss in let* b := g s in f a b.
  Proof.
    induction ss as [|x ss IH]; intros acc; cbn [app reduce_from].
    - cbn [bind]. destruct (g s) as [y|]; [|reflexivity]. cbn [bind]. now destruct (f acc y).
    - destruct (g x) as [y|]; [|reflexivity]. cbn [bind]. destruct (f acc y) as [r|]; [|reflexivity]. cbn [bind]. apply IH.
  Qed.

  Lemma reduce_map_snoc ss s : ss <> [] -> reduce_map f g (ss ++ [s]) = let* a := reduce_map f g ss in let* b := g s in f a b.
  Proof. destruct ss as [|x ss]; [congruence|]. intros _. cbn [app reduce_map]. destruct (g x) as [y|]; [|reflexivity]. cbn [bind]. apply reduce_from_snoc. Qed.
End Reduce.

Lemma convert_any ss : ss <> [] -> specifier_to_version_set (grouped AnyOf ss) = reduce_map union specifier_to_version_set ss.
Proof. destruct ss as [|s [|u ss]]; intros N; [congruence| |reflexivity]. cbn [grouped reduce_map]. now destruct (specifier_to_version_set s). Qed.

Lemma convert_all ss : ss <> [] -> specifier_to_version_set (grouped AllOf ss) = reduce_map intersection specifier_to_version_set ss.
Proof. destruct ss as [|s [|u ss]]; intros N; [congruence| |reflexivity]. cbn [grouped reduce_map]. now destruct (specifier_to_version_set s). Qed.

(** ** Specifiers *)

Theorem one_stops t w e : op_made t w -> nonneg_release w -> specifier_to_version_set (One t w) = Err e <-> e = ValueError /\ op_stuck t w.
Proof.
  intros M N. assert (O : ordinary w) by (split; [apply M|exact N]). cbn [specifier_to_version_set]. destruct (op_stuck_dec t w) as [S|S].
  - rewrite (op_translate_stuck t w (proj1 O) S). split; [intros [= <-]; auto|now intros [-> _]].
  - destruct (op_translate_sat t w O M S) as (a & -> & _). split; [discriminate|tauto].
Qed.

Theorem any_stops ss e : spec_made (AnyOf ss) -> each_op plain_op (AnyOf ss) ->
  specifier_to_version_set (AnyOf ss) = Err e <->
  exists pre s post, ss = pre ++ s :: post
    /\ ((specifier_to_version_set s = Err e /\ (pre = [] \/ exists a, specifier_to_version_set (any_of pre) = Ok a))
        \/ (e = RecursionError /\ exists a b, pre <> [] /\ specifier_to_version_set (any_of pre) = Ok a /\ specifier_to_version_set s = Ok b /\ union_clash a b)).
Proof.
  intros M N. apply made_any in M as [L M]. apply each_op_any in N. cbn [specifier_to_version_set]. destruct ss as [|x ss]; [cbn in L; lia|]. cbn [reduce_map].
  assert (K : forall x pre y a, specifier_to_version_set x = Ok y -> reduce_from union specifier_to_version_set y pre = Ok a <-> specifier_to_version_set (any_of (x :: pre)) = Ok a).
  { intros x' pre y a E. rewrite any_of_grouped, convert_any by discriminate. cbn [reduce_map]. now rewrite E. }
  assert (U : forall pre s post a b e, x :: ss = x :: pre ++ s :: post -> specifier_to_version_set (any_of (x :: pre)) = Ok a -> specifier_to_version_set s = Ok b ->
    union a b = Err e <-> e = RecursionError /\ union_clash a b).
  { intros pre s post a b e' E A B. injection E as ->. assert (Cb : canonical b).
    { rewrite Forall_forall in M, N. apply (convert_sound s); auto; [apply M|apply N]; right; apply in_app_iff; right; now left. }
    assert (Ca : canonical a).
    { assert (M' : Forall spec_made (x :: pre)) by (inversion M as [|? ? M1 M2]; subst; apply Forall_app in M2; constructor; tauto).
      assert (N' : Forall (each_op plain_op) (x :: pre)) by (inversion N as [|? ? M1 M2]; subst; apply Forall_app in M2; constructor; tauto).
      rewrite any_of_grouped in A by discriminate. destruct pre as [|y pre].
      - cbn [grouped] in A. inversion M'; inversion N'; subst. now apply (convert_sound x) in A.
      - apply (convert_sound (AnyOf (x :: y :: pre))) in A; [tauto| |]; [apply made_any; split; [cbn; lia|assumption]|now apply each_op_any]. }
    destruct (union_exact a b Ca Cb) as [[X ->]|[X (r & -> & _)]]; split; [intros [= <-]; auto|intros [-> _]; reflexivity|discriminate|tauto]. }
  destruct (specifier_to_version_set x) as [y|e'] eqn:X; cbn [bind].
  - rewrite reduce_from_stops. split.
    + intros (pre & s & post & a & -> & R & H). exists (x :: pre), s, post. split; [reflexivity|]. apply (K x pre y a X) in R. destruct H as [H|(b & B & H)].
      * left. split; auto. right. eauto.
      * right. apply (U pre s post a b e) in H as [-> H]; auto. split; [reflexivity|]. exists a, b. split; [discriminate|]. auto.
    + intros ([|x' pre] & s & post & E & H).
      * cbn [app] in E. injection E as <- <-. destruct H as [[H _]|(-> & a & b & H & _)]; congruence.
      * cbn [app] in E. injection E as <- E. exists pre, s, post. destruct H as [[H [H'|(a & H')]]|(-> & a & b & _ & A & B & C)]; [discriminate| |]; exists a.
        -- split; [exact E|]. apply (K x pre y a X) in H'. auto.
        -- split; [exact E|]. split; [now apply (K x pre y a X)|]. right. exists b. split; auto. apply (U pre s post a b); auto. now rewrite E.
  - split.
    + intros [= <-]. exists [], x, ss. auto.
    + intros ([|x' pre] & s & post & E & H).
      * cbn [app] in E. injection E as <- <-. destruct H as [[H _]|(-> & a & b & H & _)]; congruence.
      * exfalso. cbn [app] in E. injection E as <- E. assert (F : forall a, specifier_to_version_set (any_of (x :: pre)) <> Ok a).
        { intros a A. rewrite any_of_grouped, convert_any in A by discriminate. cbn [reduce_map] in A. rewrite X in A. discriminate. }
        destruct H as [[H [H'|(a & H')]]|(-> & a & b & _ & A & _)]; [discriminate| |]; eapply F; eauto.
Qed.

Theorem all_stops ss e : spec_made (AllOf ss) -> each_op plain_op (AllOf ss) ->
  specifier_to_version_set (AllOf ss) = Err e <->
  exists pre s post, ss = pre ++ s :: post /\ specifier_to_version_set s = Err e /\ Forall (fun u => exists a, specifier_to_version_set u = Ok a) pre.
Proof.
  intros M N. apply made_all in M as [L M]. apply each_op_all in N. cbn [specifier_to_version_set]. destruct ss as [|x ss]; [cbn in L; lia|]. cbn [reduce_map]. clear L.
  assert (C : Forall (fun s => forall a, specifier_to_version_set s = Ok a -> canonical a) (x :: ss)).
  { rewrite Forall_forall in *. intros s H a A. now apply (convert_sound s (M s H) (N s H)) in A. }
  clear M N. assert (K : forall ss acc, Forall (fun s => forall a, specifier_to_version_set s = Ok a -> canonical a) ss -> canonical acc ->
    (forall a, reduce_from intersection specifier_to_version_set acc ss = Ok a -> Forall (fun u => exists a, specifier_to_version_set u = Ok a) ss /\ canonical a)
    /\ (Forall (fun u => exists a, specifier_to_version_set u = Ok a) ss -> exists a, reduce_from intersection specifier_to_version_set acc ss = Ok a)).
  { clear. induction ss as [|s ss IH]; intros acc F A; cbn [reduce_from]; [split; [intros a [= <-]; split; [constructor|exact A]|eauto]|]. inversion F as [|? ? F1 F2]; subst.
    destruct (specifier_to_version_set s) as [y|] eqn:E; cbn [bind].
    - destruct (intersection_versions acc y A (F1 y eq_refl)) as (r & -> & R & _). cbn [bind]. destruct (IH r F2 R) as [H1 H2]. split.
      + intros a H. apply H1 in H as [H H']. split; auto. constructor; eauto.
      + intros H. inversion H; subst. auto.
    - split; [discriminate|]. intros H. inversion H as [|? ? (a & H') _]; subst. congruence. }
  inversion C as [|? ? C1 C2]; subst. destruct (specifier_to_version_set x) as [y|e'] eqn:X; cbn [bind].
  - specialize (C1 y eq_refl). rewrite reduce_from_stops. split.
    + intros (pre & s & post & a & -> & R & H). apply Forall_app in C2 as [Cp C2]. inversion C2 as [|? ? Cs _]; subst.
      destruct (proj1 (K pre y Cp C1) a R) as [P Ca].
      exists (x :: pre), s, post. split; [reflexivity|]. destruct H as [H|(b & B & H)]; [split; auto; constructor; eauto|].
      exfalso. destruct (intersection_versions a b Ca (Cs b B)) as (r & R' & _). congruence.
    + intros ([|x' pre] & s & post & E & H & F).
      * cbn [app] in E. injection E as <- <-. congruence.
      * cbn [app] in E. injection E as <- ->. inversion F; subst. apply Forall_app in C2 as [Cp _]. match goal with Q : Forall _ pre |- _ => destruct (proj2 (K pre y Cp C1) Q) as (a & A) end. exists pre, s, post, a. auto.
  - split.
    + intros [= <-]. exists [], x, ss. split; [reflexivity|]. split; [exact X|constructor].
    + intros ([|x' pre] & s & post & E & H & F); cbn [app] in E; [injection E as <- <-; congruence|]. injection E as <- _. inversion F as [|? ? (a & A) _]; subst. congruence.
Qed.

(** ** Strings *)

Lemma parse_set_unfold s p : parse_specifier s = Ok p -> parse_version_set s = specifier_to_version_set p.
Proof. unfold parse_version_set. now intros ->. Qed.

(** The last alternative is united with what the others make. *)
Theorem or_last d s t p q : ~ In 124%N t -> parse_specifier s = Ok p -> parse_specifier t = Ok q ->
  parse_version_set (s ++ pipes d ++ t) = let* a := parse_version_set s in let* b := parse_version_set t in union a b.
Proof.
  intros N P Q. rewrite (parse_set_unfold s p P), (parse_set_unfold t q Q).
  apply parse_specifier_ok in P as (css & xss & S & F & ->). apply parse_specifier_ok in Q as (css' & yss & S' & F' & ->).
  assert (R : parse_specifier (s ++ pipes d ++ t) = Ok (spec_of (xss ++ yss))).
  { apply parse_specifier_ok. exists (css ++ css'), (xss ++ yss). split; [now apply specification_join|]. split; [now apply Forall2_app|reflexivity]. }
  rewrite (parse_set_unfold _ _ R). destruct (spec_of_nonempty s css xss S F) as [X _].
  apply specification_one in S' as (c & cs & -> & _); [|exact N]. inversion F' as [|? ys ? ? _ H0]; subst. inversion H0; subst.
  unfold spec_of. rewrite map_app. cbn [map]. destruct xss as [|xs xss]; [congruence|]. cbn [map app]. rewrite !convert_any by discriminate.
  rewrite app_comm_cons, reduce_map_snoc by discriminate. cbn [reduce_map]. now destruct (specifier_to_version_set (grouped AllOf (map clause_spec ys))).
Qed.

(** The last clause of a single alternative cuts down what the others make. *)
Theorem and_last s t p q : ~ In 124%N s -> ~ In 124%N t -> ~ In 44%N t -> parse_specifier s = Ok p -> parse_specifier t = Ok q ->
  parse_version_set (s ++ [44%N] ++ t) = let* a := parse_version_set s in let* b := parse_version_set t in intersection a b.
Proof.
  intros N M K P Q. rewrite (parse_set_unfold s p P), (parse_set_unfold t q Q).
  assert (Y : exists x, q = clause_spec x).
  { apply parse_specifier_ok in Q as (css & xss & S & F & ->). apply specification_one in S as (c & cs & -> & I & V); [|exact M]. destruct cs as [|c' cs].
    - inversion F as [|? ys ? ? G0 H0]; subst. inversion H0; subst. inversion G0 as [|? x ? ? _ G1]; subst. inversion G1; subst. now exists x.
    - exfalso. apply K, in_visible. rewrite V. cbn [conjuncts]. apply in_app_iff. right. now left. }
  destruct Y as (x & ->). destruct (comma_rows s t p (clause_spec x) N M P Q) as (xs & ys & X & Y & -> & E & R). rewrite (parse_set_unfold _ _ R).
  assert (Z : map clause_spec ys = [clause_spec x]).
  { destruct ys as [|y [|y' ys]]; [congruence| |]; cbn [map grouped] in *; [now rewrite E|destruct x; discriminate E]. }
  rewrite Z. destruct xs as [|u xs]; [congruence|]. cbn [map app]. rewrite !convert_all by discriminate.
  rewrite app_comm_cons, reduce_map_snoc by discriminate. reflexivity.
Qed.

(** So the union of strings fails only by a clash. *)
Theorem or_last_exact d s t a b : ~ In 124%N t -> parse_version_set s = Ok a -> parse_version_set t = Ok b ->
  (union_clash a b /\ parse_version_set (s ++ pipes d ++ t) = Err RecursionError)
  \/ (~ union_clash a b /\ exists c, parse_version_set (s ++ pipes d ++ t) = Ok c /\ canonical c /\ forall v, contains c v = contains a v || contains b v).
Proof.
  intros N A B. assert (A' := A). assert (B' := B). apply set_parts in A' as (p & P & _), B' as (q & Q & _).
  assert (E := or_last d s t p q N P Q). rewrite A, B in E. cbn [bind] in E.
  assert (Ca : canonical a). { rewrite (parse_set_unfold s p P) in A. destruct (parsed_made s p P) as [M1 M2]. now apply convert_sound in A. }
  assert (Cb : canonical b). { rewrite (parse_set_unfold t q Q) in B. destruct (parsed_made t q Q) as [M1 M2]. now apply convert_sound in B. }
  destruct (union_exact a b Ca Cb) as [[X Y]|[X (r & Y & Z)]]; [left|right]; (split; [exact X|]); rewrite E; [exact Y|].
  exists r. split; [exact Y|]. split; [apply Z|]. rewrite Y in E. apply (join_sets d s t a b r A B E).
Qed.

Theorem simplify_stops s e : spec_made s -> each_op plain_op s -> simplify s = Err e <-> specifier_to_version_set s = Err e.
Proof.
  intros M N. unfold simplify. destruct (specifier_to_version_set s) as [a|e'] eqn:E; cbn [bind]; [|split; intros [= ->]; reflexivity].
  split; [|discriminate]. intros H. exfalso. destruct (proj1 (simplify_total s M N)) as (u & U); [eauto|]. unfold simplify in U. rewrite E in U. cbn [bind] in U. congruence.
Qed.
