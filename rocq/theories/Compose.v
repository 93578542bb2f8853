(** Joining specifications with pipes and commas. *)

From Coq Require Import List ZArith NArith String Bool Arith Lia.
From Verif Require Import Py Segments Version VersionSets Operators SetStrings Specifiers Regex Patterns Parsers Orders Spec OrderFacts OperatorFacts SpecifierFacts
  Grammar Clauses RegexFacts Unambiguous VersionRegex ParseFacts ParseTheorems ClauseRegex ClauseFacts SpecText SpecParse SpecStrings SpecFailures SpecMeaning.
Import ListNotations.

(** ** Pipes *)

Lemma visible_pipes d : visible (pipes d) = pipes d.
Proof. now destruct d. Qed.

Lemma alternatives_app c cs d c' cs' : alternatives c cs ++ pipes d ++ alternatives c' cs' = alternatives c (cs ++ (d, c') :: cs').
Proof.
  revert c. induction cs as [|[e x] cs IH]; intros c; [reflexivity|]. cbn [alternatives app]. rewrite <- IH. now rewrite <- !app_assoc.
Qed.

Lemma alternatives_head c cs : c <> [] -> pipeless c -> exists x r, alternatives c cs = x :: r /\ x <> 124%N.
Proof.
  destruct c as [|x c]; [congruence|]. intros _ F. inversion F; subst. destruct cs as [|[e y] cs]; cbn [alternatives app]; eauto.
Qed.

(** Two ways to cut a string at its first separator agree. *)
Lemma first_sep (z : N) c r a w : Forall (fun x => x <> z) c -> c ++ z :: r = a ++ w ->
  (exists b, c = a ++ b /\ w = b ++ z :: r) \/ exists a', a = c ++ z :: a' /\ r = a' ++ w.
Proof.
  revert a. induction c as [|x c IH]; intros a P E.
  - destruct a as [|y a]; [left; exists []; auto|]. cbn [app] in E. injection E as <- E. right. exists a. auto.
  - inversion P as [|? ? P1 P2]; subst. destruct a as [|y a]; [left; exists (x :: c); cbn [app] in *; auto|].
    cbn [app] in E. injection E as <- E. destruct (IH a P2 E) as [(b & -> & ->)|(a' & -> & ->)]; [left; exists b|right; exists a']; auto.
Qed.

Lemma alternatives_cut cs : forall c a b, c <> [] -> pipeless c -> Forall (fun x => pipeless (snd x) /\ snd x <> []) cs ->
  alternatives c cs = a ++ [124%N; 124%N] ++ b ->
  exists cs1 c2 cs2, cs = cs1 ++ (true, c2) :: cs2 /\ a = alternatives c cs1 /\ b = alternatives c2 cs2.
Proof.
  induction cs as [|[d c'] cs IH]; intros c a b N P F E.
  - exfalso. cbn [alternatives] in E. unfold pipeless in P. rewrite E, Forall_app in P. destruct P as [_ P]. inversion P; subst. congruence.
  - inversion F as [|? ? [P' N'] F']; subst. cbn [snd] in P', N'. cbn [alternatives] in E.
    destruct (alternatives_head c' cs N' P') as (x & r & H & X).
    assert (E' : c ++ 124%N :: (if d then [124%N] else []) ++ alternatives c' cs = a ++ [124%N; 124%N] ++ b) by (now destruct d).
    clear E. apply first_sep in E' as [(e & -> & W)|(a' & -> & W)]; auto.
    + destruct e as [|y e].
      * cbn [app] in W. injection W as W. destruct d; cbn [app] in W; [|rewrite H in W; injection W; intros; congruence]. injection W as W.
        exists [], c', cs. rewrite app_nil_r. cbn [app]. auto.
      * exfalso. cbn [app] in W. injection W as <- _. apply Forall_app in P as [_ P]. inversion P; subst. congruence.
    + destruct d; cbn [app] in W.
      * destruct a' as [|y a']; cbn [app] in W; [injection W as W; rewrite H in W; injection W; intros; congruence|]. injection W as <- W.
        apply IH in W as (cs1 & c2 & cs2 & -> & -> & ->); auto. exists ((true, c') :: cs1), c2, cs2. auto.
      * apply IH in W as (cs1 & c2 & cs2 & -> & -> & ->); auto. exists ((false, c') :: cs1), c2, cs2. auto.
Qed.

Definition inner (c : pstr) : Prop := c <> [] /\ unbroken c.

Lemma inner_conjuncts c cs : Forall inner (c :: cs) -> conjuncts c cs <> [] /\ pipeless (conjuncts c cs).
Proof.
  intros F. inversion F as [|? ? [N _] _]; subst. split; [now apply conjuncts_nonempty|]. apply conjuncts_forall; [discriminate|].
  eapply Forall_impl; [|exact F]. intros x [_ U]. eapply Forall_impl; [|exact U]. cbn. tauto.
Qed.

(** [s || t] is the alternatives of [s] followed by those of [t]. *)
Lemma specification_join d s t css css' : specification s css -> specification t css' -> specification (s ++ pipes d ++ t) (css ++ css').
Proof.
  intros (c & cs & al & -> & F & R) (c' & cs' & al' & -> & F' & R'). exists c, cs, (al ++ (d, (c', cs')) :: al'). split; [|split].
  - cbn [app]. now rewrite map_app.
  - now apply Forall_app.
  - apply respaced_visible in R, R'. apply respaced_visible. rewrite map_app. cbn [map fst snd]. rewrite <- alternatives_app, !visible_app. now rewrite R, R'.
Qed.

Lemma specification_cut s t css : specification (s ++ pipes true ++ t) css ->
  exists css1 css2, css = css1 ++ css2 /\ specification s css1 /\ specification t css2.
Proof.
  intros (c & cs & al & -> & F & R). apply respaced_visible in R. rewrite !visible_app, visible_pipes in R. inversion F as [|? ? F1 F2]; subst.
  assert (U : Forall (fun x => is_space x = false) (alternatives (conjuncts c cs) (map (fun x => (fst x, conjuncts (fst (snd x)) (snd (snd x)))) al))).
  { apply alternatives_forall; [reflexivity|]. rewrite map_map. cbn [snd].
    assert (K : forall d ds, Forall inner (d :: ds) -> Forall (fun x => is_space x = false) (conjuncts d ds)).
    { intros d ds G. apply conjuncts_forall; [reflexivity|]. eapply Forall_impl; [|exact G]. intros x [_ V]. eapply Forall_impl; [|exact V].
      cbn. intros y (_ & _ & W). destruct (is_space y) eqn:E; auto. now apply white_iff in E. }
    constructor; [now apply K|]. apply Forall_map. rewrite Forall_map in F2. eapply Forall_impl; [|exact F2]. cbn. intros x. apply K. }
  rewrite (visible_fixed _ U) in R. symmetry in R. destruct (inner_conjuncts c cs F1) as [N P]. apply alternatives_cut in R as (cs1 & c2 & cs2 & E & A & B); auto.
  - apply map_eq_app in E as (al1 & l & -> & E1 & E2). destruct l as [|[d2 [c2' cs2']] al2]; [discriminate|]. cbn [map fst snd] in E2. injection E2 as -> E2 E3. subst.
    rewrite map_app in F2. cbn [map fst snd] in F2. apply Forall_app in F2 as [G1 G2].
    exists ((c :: cs) :: map (fun x => fst (snd x) :: snd (snd x)) al1), ((c2' :: cs2') :: map (fun x => fst (snd x) :: snd (snd x)) al2). split; [cbn [app]; now rewrite map_app|]. split.
    + exists c, cs, al1. split; [reflexivity|]. split; [now constructor|]. apply respaced_visible. rewrite A. symmetry. apply visible_fixed. rewrite <- A. apply Forall_forall.
      intros y Hy. apply filter_In in Hy as [_ Hy]. now apply negb_true_iff.
    + exists c2', cs2', al2. split; [reflexivity|]. split; [assumption|]. apply respaced_visible. rewrite B. symmetry. apply visible_fixed. rewrite <- B. apply Forall_forall.
      intros y Hy. apply filter_In in Hy as [_ Hy]. now apply negb_true_iff.
  - apply Forall_map. rewrite Forall_map in F2. eapply Forall_impl; [|exact F2]. cbn [fst snd]. intros x G. destruct (inner_conjuncts _ _ G). split; auto.
Qed.

(** ** Accepting *)

Lemma any_r_app {A} (f : A -> result bool) xs ys : any_r f (xs ++ ys) = let* b := any_r f xs in if b then Ok true else any_r f ys.
Proof. induction xs as [|x xs IH]; [reflexivity|]. cbn [app any_r]. destruct (f x) as [[]|]; cbn [bind]; auto. Qed.

Lemma all_r_app {A} (f : A -> result bool) xs ys : all_r f (xs ++ ys) = let* b := all_r f xs in if b then all_r f ys else Ok false.
Proof. induction xs as [|x xs IH]; [reflexivity|]. cbn [app all_r]. destruct (f x) as [[]|]; cbn [bind]; auto. Qed.

Lemma accepts_any ss v : ss <> [] -> accepts (grouped AnyOf ss) v = any_r (fun s => accepts s v) ss.
Proof. destruct ss as [|s [|u ss]]; intros N; [congruence| |reflexivity]. cbn [grouped any_r]. now destruct (accepts s v) as [[]|]. Qed.

Lemma accepts_all ss v : ss <> [] -> accepts (grouped AllOf ss) v = all_r (fun s => accepts s v) ss.
Proof. destruct ss as [|s [|u ss]]; intros N; [congruence| |reflexivity]. cbn [grouped all_r]. now destruct (accepts s v) as [[]|]. Qed.

Lemma Forall2_cut {A B} (R : A -> B -> Prop) xs ys zs : Forall2 R (xs ++ ys) zs -> exists zs1 zs2, zs = zs1 ++ zs2 /\ Forall2 R xs zs1 /\ Forall2 R ys zs2.
Proof. intros F. apply Forall2_app_inv_l in F as (a & b & F & G & ->). eauto. Qed.

Lemma spec_of_nonempty s css xss : specification s css -> Forall2 (Forall2 proper_clause) css xss -> xss <> [] /\ Forall (fun xs => xs <> []) xss.
Proof. intros S F. destruct (specification_nonempty _ _ S) as [N G]. now apply (shaped_rows css). Qed.

Lemma accepts_join xss yss v : xss <> [] -> yss <> [] ->
  accepts (spec_of (xss ++ yss)) v = let* b := accepts (spec_of xss) v in if b then Ok true else accepts (spec_of yss) v.
Proof.
  intros N M. unfold spec_of. rewrite map_app. destruct xss as [|xs xss]; [congruence|]. destruct yss as [|ys yss]; [congruence|].
  rewrite !accepts_any by discriminate. apply any_r_app.
Qed.

Theorem join_parses d s t p q : parse_specifier s = Ok p -> parse_specifier t = Ok q ->
  exists r, parse_specifier (s ++ pipes d ++ t) = Ok r /\ forall v, accepts r v = let* b := accepts p v in if b then Ok true else accepts q v.
Proof.
  intros P Q. apply parse_specifier_ok in P as (css & xss & S & F & ->). apply parse_specifier_ok in Q as (css' & yss & S' & F' & ->).
  exists (spec_of (xss ++ yss)). split.
  - apply parse_specifier_ok. exists (css ++ css'), (xss ++ yss). split; [now apply specification_join|]. split; [now apply Forall2_app|reflexivity].
  - intros v. apply accepts_join; [now apply (spec_of_nonempty s css)|now apply (spec_of_nonempty t css')].
Qed.

Theorem join_parsed s t r : parse_specifier (s ++ pipes true ++ t) = Ok r -> exists p q, parse_specifier s = Ok p /\ parse_specifier t = Ok q.
Proof.
  intros P. apply parse_specifier_ok in P as (css & xss & S & F & ->). apply specification_cut in S as (css1 & css2 & -> & S1 & S2).
  apply Forall2_cut in F as (xss1 & xss2 & -> & F1 & F2). exists (spec_of xss1), (spec_of xss2). split; apply parse_specifier_ok; eauto.
Qed.

Theorem join_iff s t : (exists r, parse_specifier (s ++ pipes true ++ t) = Ok r) <-> (exists p, parse_specifier s = Ok p) /\ exists q, parse_specifier t = Ok q.
Proof.
  split.
  - intros (r & P). apply join_parsed in P as (p & q & P & Q). eauto.
  - intros [(p & P) (q & Q)]. destruct (join_parses true s t p q P Q) as (r & H & _). eauto.
Qed.

(** ** Commas *)

Lemma conjuncts_app c cs c' cs' : conjuncts c cs ++ [44%N] ++ conjuncts c' cs' = conjuncts c (cs ++ c' :: cs').
Proof. revert c. induction cs as [|x cs IH]; intros c; [reflexivity|]. cbn [conjuncts app]. rewrite <- IH. now rewrite <- !app_assoc. Qed.

Lemma conjuncts_cut cs : forall c a b, Forall (Forall (fun x => x <> 44%N)) (c :: cs) -> conjuncts c cs = a ++ [44%N] ++ b ->
  exists cs1 c2 cs2, cs = cs1 ++ c2 :: cs2 /\ a = conjuncts c cs1 /\ b = conjuncts c2 cs2.
Proof.
  induction cs as [|c' cs IH]; intros c a b F E; inversion F as [|? ? P F']; subst.
  - exfalso. cbn [conjuncts] in E. rewrite E, Forall_app in P. destruct P as [_ P]. inversion P; subst. congruence.
  - cbn [conjuncts] in E. apply (first_sep 44 c _ a) in E as [(e & -> & W)|(a' & -> & W)]; auto.
    + destruct e as [|y e].
      * cbn [app] in W. injection W as W. exists [], c', cs. rewrite app_nil_r. auto.
      * exfalso. cbn [app] in W. injection W as <- _. apply Forall_app in P as [_ P]. inversion P; subst. congruence.
    + apply IH in W as (cs1 & c2 & cs2 & -> & -> & ->); auto. exists (c' :: cs1), c2, cs2. auto.
Qed.

Lemma in_visible x s : In x (visible s) -> In x s.
Proof. intros H. now apply filter_In in H. Qed.

(** Without pipes there is one alternative. *)
Lemma specification_one s css : ~ In 124%N s -> specification s css <-> exists c cs, css = [c :: cs] /\ Forall inner (c :: cs) /\ visible s = conjuncts c cs.
Proof.
  intros N. split.
  - intros (c & cs & al & -> & F & R). apply respaced_visible in R. inversion F as [|? ? F1 F2]; subst. destruct al as [|[d [c' cs']] al].
    + exists c, cs. split; [reflexivity|]. split; [assumption|]. rewrite R. apply visible_fixed, conjuncts_forall; [reflexivity|].
      eapply Forall_impl; [|exact F1]. intros x [_ V]. eapply Forall_impl; [|exact V].
      cbn. intros y (_ & _ & W). destruct (is_space y) eqn:E; auto. now apply white_iff in E.
    + exfalso. apply N, in_visible. rewrite R. cbn [map alternatives]. apply filter_In. split; [|reflexivity]. apply in_app_iff. right. apply in_app_iff. left.
      destruct d; cbn; auto.
  - intros (c & cs & -> & F & E). exists c, cs, []. split; [reflexivity|]. split; [constructor; [assumption|constructor]|].
    apply respaced_visible. cbn [map alternatives]. rewrite E. symmetry. apply visible_fixed. rewrite <- E. apply Forall_forall.
    intros y Hy. apply filter_In in Hy as [_ Hy]. now apply negb_true_iff.
Qed.

Lemma comma_pipeless s t : ~ In 124%N s -> ~ In 124%N t -> ~ In 124%N (s ++ [44%N] ++ t).
Proof. intros N M H. apply in_app_iff in H as [H|H]; [auto|]. destruct H as [H|H]; [discriminate|auto]. Qed.

Lemma visible_comma s t : visible (s ++ [44%N] ++ t) = visible s ++ [44%N] ++ visible t.
Proof. now rewrite !visible_app. Qed.

Lemma spec_of_one xs : spec_of [xs] = grouped AllOf (map clause_spec xs).
Proof. reflexivity. Qed.

Lemma row_nonempty (cs : list pstr) xs : Forall2 proper_clause cs xs -> cs <> [] -> map clause_spec xs <> [].
Proof. intros F N. destruct F; [congruence|discriminate]. Qed.

Lemma comma_rows s t p q : ~ In 124%N s -> ~ In 124%N t -> parse_specifier s = Ok p -> parse_specifier t = Ok q ->
  exists xs ys, xs <> [] /\ ys <> [] /\ p = grouped AllOf (map clause_spec xs) /\ q = grouped AllOf (map clause_spec ys)
    /\ parse_specifier (s ++ [44%N] ++ t) = Ok (grouped AllOf (map clause_spec xs ++ map clause_spec ys)).
Proof.
  intros N M P Q. apply parse_specifier_ok in P as (css & xss & S & F & ->). apply parse_specifier_ok in Q as (css' & yss & S' & F' & ->).
  apply specification_one in S as (c & cs & -> & I & V); auto. apply specification_one in S' as (c' & cs' & -> & I' & V'); auto.
  inversion F as [|? xs ? ? G G0]; subst. inversion G0; subst. inversion F' as [|? ys ? ? H H0]; subst. inversion H0; subst.
  exists xs, ys. split; [now inversion G|]. split; [now inversion H|]. split; [reflexivity|]. split; [reflexivity|].
  apply parse_specifier_ok. exists [(c :: cs) ++ c' :: cs'], [xs ++ ys]. split; [|split; [constructor; [now apply Forall2_app|constructor]|]].
  - apply specification_one; [now apply comma_pipeless|]. exists c, (cs ++ c' :: cs'). split; [reflexivity|]. split; [now apply (Forall_app inner (c :: cs))|].
    now rewrite visible_comma, V, V', conjuncts_app.
  - now rewrite spec_of_one, map_app.
Qed.

Theorem comma_parses s t p q : ~ In 124%N s -> ~ In 124%N t -> parse_specifier s = Ok p -> parse_specifier t = Ok q ->
  exists r, parse_specifier (s ++ [44%N] ++ t) = Ok r /\ forall v, accepts r v = let* b := accepts p v in if b then accepts q v else Ok false.
Proof.
  intros N M P Q. destruct (comma_rows s t p q N M P Q) as (xs & ys & X & Y & -> & -> & R). eexists. split; [exact R|]. intros v.
  destruct xs; [congruence|]. destruct ys; [congruence|]. rewrite !accepts_all by discriminate. apply all_r_app.
Qed.

Theorem comma_iff s t : ~ In 124%N s -> ~ In 124%N t ->
  (exists r, parse_specifier (s ++ [44%N] ++ t) = Ok r) <-> (exists p, parse_specifier s = Ok p) /\ exists q, parse_specifier t = Ok q.
Proof.
  intros N M. split; [|intros [(p & P) (q & Q)]; destruct (comma_parses s t p q N M P Q) as (r & H & _); eauto].
  intros (r & P). apply parse_specifier_ok in P as (css & xss & S & F & ->). apply specification_one in S as (c & cs & -> & I & V); [|now apply comma_pipeless].
  rewrite visible_comma in V. symmetry in V. apply conjuncts_cut in V as (cs1 & c2 & cs2 & -> & V1 & V2).
  2:{ eapply Forall_impl; [|exact I]. intros x [_ U]. eapply Forall_impl; [|exact U]. cbn. tauto. }
  apply (Forall_app inner (c :: cs1)) in I as [I1 I2]. inversion F as [|? xs ? ? G _]; subst. apply (Forall2_cut _ (c :: cs1)) in G as (xs1 & xs2 & -> & G1 & G2).
  split; [exists (spec_of [xs1])|exists (spec_of [xs2])]; apply parse_specifier_ok.
  - exists [c :: cs1], [xs1]. split; [apply specification_one; eauto|]. split; [constructor; [assumption|constructor]|reflexivity].
  - exists [c2 :: cs2], [xs2]. split; [apply specification_one; eauto|]. split; [constructor; [assumption|constructor]|reflexivity].
Qed.

(** ** Sets *)

Lemma set_parts s a : parse_version_set s = Ok a -> exists p, parse_specifier s = Ok p /\ forall v, accepts p v = Ok (contains a v).
Proof.
  unfold parse_version_set. destruct (parse_specifier s) as [p|] eqn:P; cbn [bind]; [|discriminate]. intros H. exists p. split; [reflexivity|].
  destruct (parsed_made s p P) as [M N]. now apply (convert_accepts p a M N).
Qed.

Theorem join_sets d s t a b c : parse_version_set s = Ok a -> parse_version_set t = Ok b -> parse_version_set (s ++ pipes d ++ t) = Ok c ->
  forall v, contains c v = contains a v || contains b v.
Proof.
  intros A B C v. apply set_parts in A as (p & P & A), B as (q & Q & B), C as (r & R & C). destruct (join_parses d s t p q P Q) as (r' & R' & H).
  rewrite R in R'. injection R' as <-. specialize (H v). rewrite A, B, C in H. cbn [bind] in H. now destruct (contains a v), (contains b v); injection H.
Qed.

Theorem comma_sets s t a b c : ~ In 124%N s -> ~ In 124%N t -> parse_version_set s = Ok a -> parse_version_set t = Ok b -> parse_version_set (s ++ [44%N] ++ t) = Ok c ->
  forall v, contains c v = contains a v && contains b v.
Proof.
  intros N M A B C v. apply set_parts in A as (p & P & A), B as (q & Q & B), C as (r & R & C). destruct (comma_parses s t p q N M P Q) as (r' & R' & H).
  rewrite R in R'. injection R' as <-. specialize (H v). rewrite A, B, C in H. cbn [bind] in H. now destruct (contains a v), (contains b v); injection H.
Qed.

Lemma each_op_group (P : op_type -> version -> Prop) ss : each_op P (grouped AllOf ss) <-> Forall (each_op P) ss.
Proof.
  destruct ss as [|s [|u ss]]; [|split; [intros H; constructor; [exact H|constructor]|now inversion 1]|apply each_op_all]. apply each_op_all.
Qed.

Theorem comma_total s t a b : ~ In 124%N s -> ~ In 124%N t -> parse_version_set s = Ok a -> parse_version_set t = Ok b ->
  exists c, parse_version_set (s ++ [44%N] ++ t) = Ok c /\ canonical c /\ forall v, contains c v = contains a v && contains b v.
Proof.
  intros N M A B. assert (A' := A). assert (B' := B). unfold parse_version_set in A', B'. destruct (parse_specifier s) as [p|] eqn:P; [|discriminate].
  destruct (parse_specifier t) as [q|] eqn:Q; [|discriminate]. cbn [bind] in A', B'. destruct (parsed_made s p P) as [M1 N1]. destruct (parsed_made t q Q) as [M2 N2].
  destruct (comma_rows s t p q N M P Q) as (xs & ys & X & Y & -> & -> & R). destruct (parsed_made _ _ R) as [M3 N3].
  apply convert_sound in A' as (_ & _ & A'); auto. apply convert_sound in B' as (_ & _ & B'); auto. apply each_op_group in A', B'.
  destruct (convert_total (grouped AllOf (map clause_spec xs ++ map clause_spec ys)) M3 N3) as (c & C).
  - apply each_op_group. now apply Forall_app.
  - destruct xs as [|x xs]; [congruence|]. destruct ys as [|y ys]; [congruence|].
    assert (K : no_any (AllOf (map clause_spec (x :: xs) ++ map clause_spec (y :: ys)))).
    { apply no_any_all, Forall_app. split; apply Forall_map, Forall_forall; intros z _; exact I. }
    revert K. cbn [map app]. destruct xs; exact (fun K => K).
  - assert (C' : parse_version_set (s ++ [44%N] ++ t) = Ok c) by (unfold parse_version_set; rewrite R; exact C).
    exists c. split; [exact C'|]. split; [now apply (convert_accepts _ c M3 N3)|]. intros v. exact (comma_sets s t a b c N M A B C' v).
Qed.
