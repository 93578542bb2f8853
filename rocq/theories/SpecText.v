(** Whitespace, commas and pipes in specifications. *)

From Coq Require Import List ZArith NArith String Bool Arith Lia.
From Verif Require Import Py Segments Version VersionSets Operators Specifiers Regex Patterns Parsers Orders Grammar Clauses
  RegexFacts Unambiguous VersionRegex ParseFacts ParseTheorems ClauseRegex ClauseFacts.
Import ListNotations.

(** ** Whitespace *)

Definition visible (s : pstr) : pstr := filter (fun c => negb (is_space c)) s.

Lemma white_iff c : is_space c = true <-> white c.
Proof.
  unfold is_space, white. cbn [In]. rewrite !orb_true_iff, !andb_true_iff, !N.leb_le, !N.eqb_eq. lia.
Qed.

Lemma visible_app a b : visible (a ++ b) = visible a ++ visible b.
Proof. apply filter_app. Qed.

Lemma visible_white s : Forall (fun c => is_space c = true) s -> visible s = [].
Proof. induction 1 as [|c s H F IH]; auto. unfold visible. cbn [filter]. rewrite H. exact IH. Qed.

Lemma visible_rev s : visible (rev s) = rev (visible s).
Proof.
  induction s as [|c s IH]; auto. cbn [rev]. rewrite visible_app, IH. unfold visible. cbn [filter]. destruct (is_space c); cbn [negb rev app]; auto.
  now rewrite app_nil_r.
Qed.

Lemma visible_lstrip s : visible (lstrip s) = visible s.
Proof. induction s as [|c s IH]; auto. cbn [lstrip]. unfold visible in *. cbn [filter]. destruct (is_space c) eqn:E; auto. cbn [filter]. now rewrite E. Qed.

Lemma visible_strip s : visible (strip s) = visible s.
Proof. unfold strip. now rewrite visible_rev, visible_lstrip, visible_rev, rev_involutive, visible_lstrip. Qed.

Lemma split_ws_visible s : forall cur, List.concat (split_ws_go s cur) = rev cur ++ visible s.
Proof.
  induction s as [|c s IH]; intros cur.
  - destruct cur as [|x cur]; [reflexivity|]. change (rev (x :: cur) ++ [] = rev (x :: cur) ++ []). reflexivity.
  - cbn [split_ws_go]. unfold visible. cbn [filter]. fold (visible s). destruct (is_space c); cbn [negb].
    + destruct cur; [now rewrite IH|]. cbn [List.concat]. now rewrite IH.
    + rewrite IH. cbn [rev]. now rewrite <- app_assoc.
Qed.

Lemma clear_visible s : clear_whitespace s = visible s.
Proof. unfold clear_whitespace, split_ws. rewrite split_ws_visible. cbn [rev app]. apply visible_strip. Qed.

Lemma respaced_visible s u : respaced s u <-> visible s = visible u.
Proof.
  split.
  - induction 1 as [| | |a c b W]; auto; [congruence|]. rewrite !visible_app. f_equal. unfold visible. cbn [filter]. apply white_iff in W. now rewrite W.
  - assert (K : forall a s, respaced (a ++ s) (a ++ visible s)).
    { intros a w. revert a. induction w as [|c w IH]; intros a; [apply respaced_refl|]. unfold visible. cbn [filter]. fold (visible w).
      destruct (is_space c) eqn:E; cbn [negb].
      - apply white_iff in E. eapply respaced_trans; [apply respaced_sym, (respaced_insert a c w E)|apply IH].
      - specialize (IH (a ++ [c])). now rewrite <- !app_assoc in IH. }
    intros E. eapply respaced_trans; [apply (K [] s)|]. cbn [app]. rewrite E. apply respaced_sym, (K [] u).
Qed.

Theorem respaced_parse s u : respaced s u -> parse_specifier s = parse_specifier u /\ parse_version_set s = parse_version_set u.
Proof.
  intros H. apply respaced_visible in H. unfold parse_version_set, parse_specifier. now rewrite !clear_visible, H.
Qed.

(** ** Commas *)

Lemma split_last a w : Forall (fun c => c <> a) w -> split_on a w = [w].
Proof.
  intros F. rewrite <- (app_nil_r w) at 1. rewrite split_on_app; [cbn; now rewrite app_nil_r|].
  eapply Forall_impl; [|exact F]. intros c H. now apply N.eqb_neq.
Qed.

Lemma split_first a w r : Forall (fun c => c <> a) w -> split_on a (w ++ a :: r) = w :: split_on a r.
Proof.
  intros F. rewrite split_on_app; [cbn [split_on]; now rewrite N.eqb_refl, app_nil_r|].
  eapply Forall_impl; [|exact F]. intros c H. now apply N.eqb_neq.
Qed.

Lemma split_conjuncts cs : forall c, Forall (Forall (fun x => x <> 44%N)) (c :: cs) -> split_on 44 (conjuncts c cs) = c :: cs.
Proof.
  induction cs as [|d cs IH]; intros c F; inversion F; subst; cbn [conjuncts].
  - now apply split_last.
  - cbn [app]. rewrite split_first by assumption. now rewrite IH.
Qed.

Lemma conjuncts_split s : exists c cs, split_on 44 s = c :: cs /\ s = conjuncts c cs /\ Forall (Forall (fun x => x <> 44%N)) (c :: cs)
  /\ forall P : N -> Prop, Forall P s -> Forall (Forall P) (c :: cs).
Proof.
  induction s as [|x s (c & cs & E & -> & F & Q)]; [exists [], []; cbn; repeat split; auto|].
  cbn [split_on]. rewrite E. destruct (N.eqb_spec x 44) as [-> |N].
  - exists [], (c :: cs). repeat split; auto. intros P H. inversion H; subst. constructor; auto.
  - exists (x :: c), cs. split; auto. split; [destruct cs; reflexivity|]. inversion F; subst. split; [constructor; auto|].
    intros P H. inversion H; subst. apply Q in H5. inversion H5; subst. constructor; auto.
Qed.

(** ** Pipes *)

Definition pipeless (s : pstr) : Prop := Forall (fun x => x <> 124%N) s.

Lemma replace_pipeless s r : pipeless s -> match r with 124%N :: _ => True | _ => r = [] end -> replace_double 124 (s ++ r) = s ++ replace_double 124 r.
Proof.
  intros F H. induction F as [|x s N F IH]; auto. cbn [app]. destruct (s ++ r) as [|y w] eqn:E.
  - apply app_eq_nil in E as [-> ->]. reflexivity.
  - cbn [replace_double]. apply N.eqb_neq in N. rewrite N. cbn [andb]. f_equal. exact IH.
Qed.

Lemma split_alternatives cs : forall c, pipeless c -> Forall (fun x => pipeless (snd x) /\ snd x <> []) cs ->
  split_pipes (alternatives c cs) = c :: map snd cs.
Proof.
  unfold split_pipes. induction cs as [|[b d] cs IH]; intros c P F.
  - cbn [alternatives map]. rewrite <- (app_nil_r c) at 1. rewrite replace_pipeless by auto. cbn [replace_double]. rewrite app_nil_r. now apply split_last.
  - inversion F as [|? ? [F1 F2] F']; subst. cbn [snd] in F1, F2. cbn [alternatives map snd]. specialize (IH d F1 F').
    rewrite replace_pipeless by (auto; destruct b; exact I).
    assert (H : exists y w, alternatives d cs = y :: w /\ y <> 124%N).
    { destruct d as [|y w]; [now destruct F2|]. inversion F1; subst. destruct cs as [|[b' d'] cs]; cbn [alternatives app]; eauto. }
    destruct H as (y & w & E & N). apply N.eqb_neq in N. rewrite E in *.
    replace (replace_double 124 ((if b then [124%N; 124%N] else [124%N]) ++ y :: w)) with (124%N :: replace_double 124 (y :: w)).
    + rewrite split_first by assumption. now rewrite IH.
    + destruct b; cbn [app]; [reflexivity|]. cbn [replace_double]. cbn. now rewrite N.
Qed.

Lemma alternatives_split s : exists c cs, split_pipes s = c :: map snd cs /\ s = alternatives c cs /\ Forall pipeless (c :: map snd cs)
  /\ forall P : N -> Prop, Forall P s -> Forall (Forall P) (c :: map snd cs).
Proof.
  unfold split_pipes. remember (List.length s) as n eqn:L. assert (L' : (List.length s <= n)%nat) by lia. clear L. revert s L'.
  induction n as [|n IH]; intros s L.
  { destruct s; [|cbn in L; lia]. exists [], []. cbn. unfold pipeless. repeat split; auto. }
  destruct s as [|x s]; [exists [], []; cbn; unfold pipeless; repeat split; auto|]. cbn [List.length] in L.
  destruct (N.eqb_spec x 124) as [-> |X].
  - destruct s as [|y s].
    { exists [], [(false, [])]. cbn. unfold pipeless. repeat split; auto. }
    destruct (N.eqb_spec y 124) as [-> |Y].
    + cbn [List.length] in L. destruct (IH s) as (c & cs & E & A & F & Q); [lia|]. exists [], ((true, c) :: cs). cbn [replace_double andb N.eqb Pos.eqb split_on map snd].
      rewrite E. split; auto. split; [cbn; now rewrite <- A|]. split; [constructor; [constructor|auto]|].
      intros P H. inversion H as [|? ? H1 H2]; subst. inversion H2; subst. constructor; auto.
    + destruct (IH (y :: s)) as (c & cs & E & A & F & Q); [lia|]. exists [], ((false, c) :: cs).
      replace (replace_double 124 (124%N :: y :: s)) with (124%N :: replace_double 124 (y :: s)).
      2:{ apply N.eqb_neq in Y. cbn [replace_double]. cbn. now rewrite Y. }
      cbn [split_on N.eqb Pos.eqb map snd]. rewrite E. split; auto. split; [cbn; now rewrite <- A|]. split; [constructor; [constructor|auto]|].
      intros P H. inversion H as [|? ? H1 H2]; subst. constructor; auto.
  - destruct (IH s) as (c & cs & E & A & F & Q); [lia|]. exists (x :: c), cs.
    replace (replace_double 124 (x :: s)) with (x :: replace_double 124 s).
    2:{ apply N.eqb_neq in X. destruct s; [reflexivity|]. cbn [replace_double]. now rewrite X. }
    apply N.eqb_neq in X as X'. cbn [split_on]. rewrite X', E. split; auto. split.
    { rewrite A at 1. destruct cs as [|[b d] cs]; reflexivity. }
    inversion F; subst. split; [constructor; auto; now constructor|]. intros P H. inversion H; subst. apply Q in H5 as H6. inversion H6; subst. constructor; auto.
Qed.

(** ** Whole specifications *)

Lemma unbroken_parts c : unbroken c -> Forall (fun x => x <> 44%N) c /\ pipeless c /\ visible c = c.
Proof.
  induction 1 as [|x c (A & B & C) F (IH1 & IH2 & IH3)]; [repeat split; constructor|].
  split; [constructor; auto|]. split; [constructor; auto|]. unfold visible in *. cbn [filter]. rewrite IH3.
  destruct (is_space x) eqn:E; auto. now apply white_iff in E.
Qed.

Lemma conjuncts_forall (P : N -> Prop) cs : P 44%N -> forall c, Forall (Forall P) (c :: cs) -> Forall P (conjuncts c cs).
Proof.
  intros K. induction cs as [|d cs IH]; intros c F; inversion F; subst; auto. cbn [conjuncts]. apply Forall_app. split; auto. constructor; auto. 
Qed.

Lemma visible_fixed s : Forall (fun x => is_space x = false) s -> visible s = s.
Proof. induction 1 as [|x s H F IH]; auto. unfold visible in *. cbn [filter]. now rewrite H, IH. Qed.

Lemma alternatives_forall (P : N -> Prop) cs : P 124%N -> forall c, Forall (Forall P) (c :: map snd cs) -> Forall P (alternatives c cs).
Proof.
  intros K. induction cs as [|[b d] cs IH]; intros c F; inversion F; subst; auto. cbn [alternatives]. apply Forall_app. split; auto.
  apply Forall_app. split; [destruct b; auto|auto].
Qed.

Definition all_parsed (cs : list pstr) : result spec := let* ss := mapM parse_single cs in Ok (all_of ss).

Lemma mapM_ext {A B} (f g : A -> result B) xs : Forall (fun x => f x = g x) xs -> mapM f xs = mapM g xs.
Proof. induction 1 as [|x xs H F IH]; auto. cbn [mapM]. now rewrite H, IH. Qed.

Lemma mapM_map {A B C} (f : B -> result C) (g : A -> B) xs : mapM f (map g xs) = mapM (fun x => f (g x)) xs.
Proof. induction xs as [|x xs IH]; auto. cbn [map mapM]. now rewrite IH. Qed.

Lemma conjuncts_nonempty c cs : c <> [] -> conjuncts c cs <> [].
Proof. destruct c; [congruence|]. destruct cs; discriminate. Qed.

Lemma specification_pieces s css : specification s css -> map (split_on 44) (split_pipes (clear_whitespace s)) = css.
Proof.
  intros (c & cs & al & -> & F & R). apply respaced_visible in R. rewrite clear_visible, R.
  assert (G : Forall (Forall unbroken) ((c :: cs) :: map (fun x => fst (snd x) :: snd (snd x)) al)).
  { eapply Forall_impl; [|exact F]. intros xs H. eapply Forall_impl; [|exact H]. now intros x []. }
  assert (U : forall (P : N -> Prop), P 44%N -> P 124%N -> (forall x, x <> 44%N /\ x <> 124%N /\ ~ white x -> P x) ->
    Forall (Forall P) (conjuncts c cs :: map snd (map (fun x : bool * (pstr * list pstr) => (fst x, conjuncts (fst (snd x)) (snd (snd x)))) al))).
  { intros P P1 P2 P3. rewrite map_map. cbn [snd]. inversion G as [|? ? G1 G2]; subst. constructor.
    - apply conjuncts_forall; auto. eapply Forall_impl; [|exact G1]. intros x H. eapply Forall_impl; [|exact H]. exact P3.
    - apply Forall_map. rewrite Forall_map in G2. eapply Forall_impl; [|exact G2]. cbn beta. intros x H. apply conjuncts_forall; auto.
      eapply Forall_impl; [|exact H]. intros y Hy. eapply Forall_impl; [|exact Hy]. exact P3. }
  rewrite visible_fixed.
  2:{ apply alternatives_forall; [reflexivity|]. apply U; auto. intros x (_ & _ & N). destruct (is_space x) eqn:E; auto. now apply white_iff in E. }
  rewrite split_alternatives.
  - cbn [map]. rewrite !map_map. cbn [snd]. inversion G as [|? ? G1 G2]; subst.
    assert (K : forall x xs, Forall unbroken (x :: xs) -> split_on 44 (conjuncts x xs) = x :: xs).
    { intros x xs H. apply split_conjuncts. eapply Forall_impl; [|exact H]. intros y Hy. now apply unbroken_parts in Hy. }
    rewrite K by auto. f_equal. apply map_ext_in. rewrite Forall_map, Forall_forall in G2. intros x I. now apply K, G2.
  - assert (X : Forall (fun x => x <> 124%N) (conjuncts c cs)); [|exact X]. inversion G as [|? ? G1 G2]; subst. apply conjuncts_forall; [discriminate|].
    eapply Forall_impl; [|exact G1]. intros y Hy. now apply unbroken_parts in Hy.
  - apply Forall_map. cbn [snd]. inversion F as [|? ? F1 F2]; subst. rewrite Forall_map in F2. eapply Forall_impl; [|exact F2]. cbn beta. intros x H. split.
    + apply conjuncts_forall; [discriminate|]. eapply Forall_impl; [|exact H]. intros y [_ Hy]. now apply unbroken_parts in Hy.
    + apply conjuncts_nonempty. inversion H as [|? ? [H1 _] _]; subst. exact H1.
Qed.

Theorem specification_parse s css : specification s css ->
  parse_specifier s = let* ss := mapM all_parsed css in Ok (any_of ss).
Proof.
  intros H. rewrite <- (specification_pieces s css H). rewrite mapM_map. reflexivity.
Qed.
