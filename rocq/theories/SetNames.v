(** Strings of version sets tell sets apart. *)

From Coq Require Import List ZArith NArith String Bool Arith Lia.
From Verif Require Import Py Segments Version VersionSets Operators SetStrings Specifiers Regex Patterns Parsers Orders Spec SetVersions Cuts SetItems SetChains SetMerge SetOps SetAlgebra
  SetTheorems OrderFacts OperatorFacts SpecifierFacts Provenance
  Grammar Clauses RegexFacts Unambiguous VersionRegex ParseFacts ParseTheorems ClauseRegex ClauseFacts SpecText SpecParse SpecStrings SetTexts MetaFacts Compose.
Import ListNotations.
Local Opaque key.

(** ** Strings of versions *)

Lemma join_head s w ws : exists r, join s (w :: ws) = w ++ r.
Proof. destruct ws as [|u ws]; [exists []; symmetry; apply app_nil_r|]. now exists (s ++ join s (u :: ws)). Qed.

Lemma str_int_head z : (0 <= z)%Z -> exists d r, str_int z = d :: r /\ digit d.
Proof. intros Z. destruct (str_int_digits z Z) as [[N F] _]. destruct (str_int z) as [|d r]; [congruence|]. inversion F; subst. eauto. Qed.

(** Strings that start with a digit, without commas, pipes and whitespace. *)
Definition numeric (s : pstr) : Prop := (exists d r, s = d :: r /\ digit d) /\ unbroken s.

Lemma head_digit v : wf v -> exists d r, head_text v = d :: r /\ digit d.
Proof.
  intros (E & R & N & _). unfold nonneg_release in N. unfold head_text. destruct (v_epoch v =? 0)%Z.
  - cbn [app]. destruct (v_release v) as [|z r]; [congruence|]. unfold rel_to_string. cbn [map].
    destruct (join_head (lit ".") (str_int z) (map str_int r)) as (x & ->). inversion N; subst.
    destruct (str_int_head z) as (d & y & -> & D); auto. cbn [app]. eauto.
  - destruct (str_int_head (v_epoch v) E) as (d & y & -> & D). cbn [app]. eauto.
Qed.

Lemma short_numeric v : wf v -> numeric (to_short_string v).
Proof.
  intros W. split.
  - destruct (head_digit v W) as (d & r & E & D). unfold to_short_string. rewrite app_assoc. unfold head_text in E. rewrite E. cbn [app]. eauto.
  - destruct (short_tree_ok v W) as (T & L & <- & _). now apply bare_clause in L as [C%clause_inner _]; [|assumption].
Qed.

Lemma long_numeric v : wf v -> numeric (to_string v).
Proof.
  intros W. split.
  - destruct (head_digit v W) as (d & r & E & D). unfold to_string. rewrite app_assoc. unfold head_text in E. rewrite E. cbn [app]. eauto.
  - assert (K : forall v, wf v -> candidate v = false -> unbroken (to_string v)).
    { intros u U C. destruct (long_tree_ok u U C) as (T & L & <- & _). now apply bare_clause in L as [H%clause_inner _]; [|assumption]. }
    destruct (candidate v) eqn:C; [|now apply K]. apply candidate_iff in C as (t & T & P). rewrite (to_string_parts v t T), P.
    set (u := set_pre v (Some (Tag (lit "rc") (value t)))).
    assert (U : unbroken (to_string u)).
    { apply K; [|reflexivity]. destruct W as (A1 & A2 & A3 & A4 & A5). rewrite T in A4. destruct A4 as [_ A4]. split; [exact A1|]. split; [exact A2|]. split; [exact A3|].
      split; [split; [reflexivity|exact A4]|exact A5]. }
    rewrite (to_string_parts u (Tag (lit "rc") (value t)) eq_refl) in U. unfold unbroken in *. apply Forall_app in U as [U1 U2]. pose proof (Forall_inv U2) as U3. pose proof (Forall_inv_tail U2) as U4. cbn [phase value] in U4.
    apply Forall_app in U4 as [_ U4]. apply Forall_app. split; [exact U1|]. constructor; [exact U3|]. apply Forall_app. split; [|exact U4].
    apply Forall_forall. intros x X. unfold white. cbn [lit In] in *. repeat (destruct X as [<-|X]; [now intuition discriminate|]). destruct X.
Qed.

Lemma short_inj v w : wf v -> wf w -> to_short_string v = to_short_string w -> v = w.
Proof. intros V W E. pose proof (parse_short v V) as P. rewrite E, (parse_short w W) in P. congruence. Qed.

(** ** Strings of sets *)

Section Names.
  Variables (vs : version -> pstr) (os : op_type -> version -> pstr).
  Hypothesis vs_numeric : forall v, wf v -> numeric (vs v).
  Hypothesis vs_inj : forall v w, wf v -> wf w -> vs v = vs w -> v = w.
  Hypothesis os_lo : forall b v, os (lo_op b) v = (if b then [62%N; 61%N] else [62%N]) ++ vs v.
  Hypothesis os_hi : forall b v, os (hi_op b) v = (if b then [60%N; 61%N] else [60%N]) ++ vs v.
  Hypothesis os_ne : forall v, os NOT_EQUAL v = [33%N; 61%N] ++ vs v.

  Lemma vs_head v : wf v -> exists d r, vs v = d :: r /\ digit d.
  Proof. intros W. now destruct (vs_numeric v W). Qed.

  Lemma lo_inj b c v w : wf v -> wf w -> os (lo_op b) v = os (lo_op c) w -> b = c /\ v = w.
  Proof.
    intros V W. rewrite !os_lo. destruct (vs_head v V) as (d & r & E & D), (vs_head w W) as (e & u & F & G). destruct b, c; cbn [app]; intros H.
    - injection H as H. split; auto.
    - rewrite F in H. injection H as H _. subst e. unfold digit in G. lia.
    - rewrite E in H. injection H as H _. subst d. unfold digit in D. lia.
    - injection H as H. split; auto.
  Qed.

  Lemma hi_inj b c v w : wf v -> wf w -> os (hi_op b) v = os (hi_op c) w -> b = c /\ v = w.
  Proof.
    intros V W. rewrite !os_hi. destruct (vs_head v V) as (d & r & E & D), (vs_head w W) as (e & u & F & G). destruct b, c; cbn [app]; intros H.
    - injection H as H. split; auto.
    - rewrite F in H. injection H as H _. subst e. unfold digit in G. lia.
    - rewrite E in H. injection H as H _. subst d. unfold digit in D. lia.
    - injection H as H. split; auto.
  Qed.

  Lemma lo_hi b c v w : os (lo_op b) v <> os (hi_op c) w.
  Proof. rewrite os_lo, os_hi. destruct b, c; discriminate. Qed.
  Lemma vs_lo b v w : wf v -> vs v <> os (lo_op b) w.
  Proof. intros V. rewrite os_lo. destruct (vs_head v V) as (d & r & -> & D). unfold digit in D. destruct b; cbn [app]; intros [= -> _]; lia. Qed.
  Lemma vs_hi b v w : wf v -> vs v <> os (hi_op b) w.
  Proof. intros V. rewrite os_hi. destruct (vs_head v V) as (d & r & -> & D). unfold digit in D. destruct b; cbn [app]; intros [= -> _]; lia. Qed.
  Lemma vs_ne v w : wf v -> vs v <> os NOT_EQUAL w.
  Proof. intros V. rewrite os_ne. destruct (vs_head v V) as (d & r & -> & D). unfold digit in D. cbn [app]; intros [= -> _]; lia. Qed.
  Lemma vs_star v : wf v -> vs v <> lit "*".
  Proof. intros V. destruct (vs_head v V) as (d & r & -> & D). unfold digit in D. cbn; intros [= -> _]; lia. Qed.
  Lemma lo_star b v : os (lo_op b) v <> lit "*".
  Proof. rewrite os_lo. destruct b; discriminate. Qed.
  Lemma hi_star b v : os (hi_op b) v <> lit "*".
  Proof. rewrite os_hi. destruct b; discriminate. Qed.
  Lemma lo_ne b v w : os (lo_op b) v <> os NOT_EQUAL w.
  Proof. rewrite os_lo, os_ne. destruct b; discriminate. Qed.
  Lemma hi_ne b v w : os (hi_op b) v <> os NOT_EQUAL w.
  Proof. rewrite os_hi, os_ne. destruct b; discriminate. Qed.
  Lemma ne_inj v w : wf v -> wf w -> os NOT_EQUAL v = os NOT_EQUAL w -> v = w.
  Proof. intros V W. rewrite !os_ne. intros [= H]. auto. Qed.

  Lemma texts_item i j : Forall wf (item_bounds i) -> Forall wf (item_bounds j) -> proper i -> proper j -> item_texts vs os i = item_texts vs os j -> i = j.
  Proof.
    intros I J P Q E. destruct i as [v|[m|] [M|] b c], j as [w|[n|] [N|] d e]; cbn [item_texts some_text app item_bounds proper] in *;
      repeat match goal with H : Forall _ (_ :: _) |- _ => inversion H; clear H; subst end;
      repeat match goal with H : _ /\ _ |- _ => destruct H | H : None = None -> _ |- _ => specialize (H eq_refl); subst end;
      try discriminate E; try reflexivity; injection E; clear E; intros;
      repeat match goal with
      | H : vs _ = vs _ |- _ => apply vs_inj in H; auto; subst
      | H : os (lo_op _) _ = os (lo_op _) _ |- _ => apply lo_inj in H; auto; destruct H; subst
      | H : os (hi_op _) _ = os (hi_op _) _ |- _ => apply hi_inj in H; auto; destruct H; subst
      end; try reflexivity; exfalso;
      repeat match goal with
      | H : os (hi_op _) _ = os (lo_op _) _ |- _ => symmetry in H
      | H : os _ _ = vs _ |- _ => symmetry in H
      | H : [_] = os _ _ |- _ => symmetry in H
      | H : [_] = vs _ |- _ => symmetry in H
      end; first [eapply lo_hi; eassumption | eapply vs_lo; [|eassumption]; assumption | eapply vs_hi; [|eassumption]; assumption
        | eapply vs_star; [|eassumption]; assumption | eapply lo_star; eassumption | eapply hi_star; eassumption].
  Qed.

  Definition set_texts (a : vset) : list (list pstr) :=
    match a with
    | Empty => [[EMPTY_VERSION]]
    | Item i => [item_texts vs os i]
    | Union items => match exclude_version items with Ok (Some v) => [[os NOT_EQUAL v]] | _ => map (item_texts vs os) items end
    end.

  Lemma excludes_total items : canonical (Union items) -> exists r, exclude_version items = Ok r
    /\ forall u, r = Some u -> In u (flat_map item_bounds items) /\ complement (Union items) = Ok (Item (Point u)).
  Proof.
    intros C. apply canonical_canon in C. destruct (complement_spec _ C) as (r & R & _). unfold exclude_version. rewrite R. cbn [bind].
    exists (match r with Item (Point v) => Some v | _ => None end). split; [now destruct r as [|[]|]|]. intros u U. destruct r as [|[w|]|]; try discriminate. injection U as ->.
    split; [|reflexivity]. apply complement_bounds in R. apply (R u). now left.
  Qed.

  Lemma render_texts a : canonical a -> set_render vs os a = Ok (join [124%N; 124%N] (map (join [44%N]) (set_texts a))).
  Proof.
    intros C. destruct a as [|i|items]; [reflexivity| |].
    - apply canonical_canon in C. cbn [set_render set_texts map join]. now apply item_render_proper.
    - destruct (excludes_total items C) as (r & E & _). cbn [set_render set_texts]. rewrite E. cbn [bind]. destruct r as [v|]; [reflexivity|].
      apply canonical_canon in C. destruct C as [Ch L]. pose proof (chain_proper _ Ch) as P.
      assert (M : mapM (item_render vs os [44%N]) items = Ok (map (join [44%N]) (map (item_texts vs os) items))); [|now rewrite M].
      clear - P. rewrite map_map. induction P as [|i items P F IH]; auto. cbn [mapM map]. rewrite item_render_proper by assumption. cbn [bind]. now rewrite IH.
  Qed.

  Lemma text_inner s v : wf v -> Forall (fun c => c <> 44%N /\ c <> 124%N /\ ~ white c) s -> Compose.inner (s ++ vs v).
  Proof.
    intros W F. destruct (vs_numeric v W) as [(d & r & E & _) U]. split; [rewrite E; now destruct s|]. apply Forall_app. now split.
  Qed.

  Lemma ops_plain s : In s [[62%N; 61%N]; [62%N]; [60%N; 61%N]; [60%N]; [33%N; 61%N]; []] -> Forall (fun c => c <> 44%N /\ c <> 124%N /\ ~ white c) s.
  Proof.
    cbn [In]. intros H. repeat (destruct H as [<-|H]; [repeat (apply Forall_cons; [split; [discriminate|split; [discriminate|unfold white; cbn [In]; intuition discriminate]]|]); apply Forall_nil|]). destruct H.
  Qed.

  Lemma lo_inner b v : wf v -> Compose.inner (os (lo_op b) v).
  Proof. intros W. rewrite os_lo. apply text_inner; auto. apply ops_plain. destruct b; cbn; tauto. Qed.
  Lemma hi_inner b v : wf v -> Compose.inner (os (hi_op b) v).
  Proof. intros W. rewrite os_hi. apply text_inner; auto. apply ops_plain. destruct b; cbn; tauto. Qed.
  Lemma ne_inner v : wf v -> Compose.inner (os NOT_EQUAL v).
  Proof. intros W. rewrite os_ne. apply text_inner; auto. apply ops_plain. cbn; tauto. Qed.
  Lemma vs_inner v : wf v -> Compose.inner (vs v).
  Proof. intros W. apply (text_inner []); auto. Qed.
  Lemma word_inner s : s = lit "0" \/ s = lit "*" -> Compose.inner s.
  Proof.
    intros [-> | ->]; (split; [discriminate|]); (apply Forall_cons; [|apply Forall_nil]); (split; [discriminate|split; [discriminate|unfold white; cbn [In]; intuition discriminate]]).
  Qed.

  Lemma item_inner i : Forall wf (item_bounds i) -> Forall Compose.inner (item_texts vs os i).
  Proof.
    intros F. destruct i as [v|[m|] [M|] b c]; cbn [item_texts some_text app item_bounds] in *;
      repeat match goal with H : Forall _ (_ :: _) |- _ => inversion H; clear H; subst end;
      repeat (apply Forall_cons; [auto using lo_inner, hi_inner, vs_inner, word_inner|]); apply Forall_nil.
  Qed.

  Lemma bounds_items items : Forall wf (flat_map item_bounds items) -> Forall (fun i => Forall wf (item_bounds i)) items.
  Proof. induction items as [|i items IH]; cbn [flat_map]; intros F; constructor; apply Forall_app in F as [F1 F2]; auto. Qed.

  Lemma texts_inner a : canonical a -> Forall wf (bounds a) -> Forall (fun row => row <> [] /\ Forall Compose.inner row) (set_texts a) /\ set_texts a <> [].
  Proof.
    intros C F. assert (K : forall i, Forall wf (item_bounds i) -> item_texts vs os i <> [] /\ Forall Compose.inner (item_texts vs os i)).
    { intros i B. split; [apply item_texts_nonempty|now apply item_inner]. }
    rewrite bounds_extract in F. destruct a as [|i|items]; cbn [set_texts extract flat_map] in *.
    - split; [|discriminate]. constructor; [|constructor]. split; [discriminate|]. constructor; [|constructor]. apply word_inner. now left.
    - rewrite app_nil_r in F. split; [|discriminate]. constructor; [now apply K|constructor].
    - destruct (excludes_total items C) as (r & -> & U). destruct r as [v|].
      + destruct (U v eq_refl) as [I _]. rewrite Forall_forall in F. apply F in I. split; [|discriminate]. constructor; [|constructor]. split; [discriminate|]. constructor; [now apply ne_inner|constructor].
      + split; [apply Forall_map; apply bounds_items in F; eapply Forall_impl; [|exact F]; auto|]. apply canonical_canon in C. destruct C as [_ L]. destruct items; [cbn in L; lia|discriminate].
  Qed.

  (** Rows of texts are read off their joined string. *)
  Lemma joined_inj css dss : css <> [] -> dss <> [] -> Forall (fun row => row <> [] /\ Forall Compose.inner row) css -> Forall (fun row => row <> [] /\ Forall Compose.inner row) dss ->
    join [124%N; 124%N] (map (join [44%N]) css) = join [124%N; 124%N] (map (join [44%N]) dss) -> css = dss.
  Proof.
    intros N M F G E.
    assert (K : forall css, css <> [] -> Forall (fun row => row <> [] /\ Forall Compose.inner row) css -> map (split_on 44) (split_pipes (join [124%N; 124%N] (map (join [44%N]) css))) = css).
    { clear. intros css N F. assert (R : Forall (fun row => pipeless (join [44%N] row) /\ join [44%N] row <> [] /\ split_on 44 (join [44%N] row) = row) css).
      { eapply Forall_impl; [|exact F]. intros row [N' I]. destruct row as [|c row]; [congruence|]. rewrite join_conjuncts. destruct (inner_conjuncts c row I) as [A B].
        split; [exact B|]. split; [exact A|]. apply split_conjuncts. eapply Forall_impl; [|exact I]. intros x [_ U]. eapply Forall_impl; [|exact U]. cbn. tauto. }
      destruct css as [|row css]; [congruence|]. cbn [map]. rewrite join_alternatives. pose proof (Forall_inv R) as (R1 & _ & R3). pose proof (Forall_inv_tail R) as R4. rewrite split_alternatives; auto.
      - cbn [map]. rewrite R3. f_equal. rewrite !map_map. cbn [snd]. clear - R4. induction R4 as [|x l (_ & _ & X) R IH]; auto. cbn [map]. now rewrite X, IH.
      - rewrite map_map. apply Forall_map. eapply Forall_impl; [|exact R4]. cbn. tauto. }
    rewrite <- (K css N F), <- (K dss M G). now rewrite E.
  Qed.

  Lemma texts_items items items' : Forall (fun i => Forall wf (item_bounds i)) items -> Forall (fun i => Forall wf (item_bounds i)) items' -> Forall proper items -> Forall proper items' ->
    map (item_texts vs os) items = map (item_texts vs os) items' -> items = items'.
  Proof.
    revert items'. induction items as [|i items IH]; intros [|j items'] F G P Q E; try discriminate; auto. cbn [map] in E. injection E as E1 E2.
    inversion F; inversion G; inversion P; inversion Q; subst. f_equal; [now apply texts_item|now apply IH].
  Qed.

  Definition excluded (a : vset) : option version := match a with Union items => match exclude_version items with Ok r => r | Err _ => None end | _ => None end.

  Lemma item_not_ne i v : Forall wf (item_bounds i) -> item_texts vs os i <> [os NOT_EQUAL v].
  Proof.
    intros F E. destruct i as [w|[m|] [M|] b c]; cbn [item_texts some_text app item_bounds] in *;
      repeat match goal with H : Forall _ (_ :: _) |- _ => inversion H; clear H; subst end; try discriminate E; try (injection E; clear E; intros E).
    - revert E. now apply vs_ne.
    - now apply lo_ne in E.
    - now apply hi_ne in E.
    - rewrite os_ne in E. discriminate.
  Qed.

  Lemma texts_inj a b : canonical a -> canonical b -> a <> Empty -> b <> Empty -> Forall wf (bounds a) -> Forall wf (bounds b) -> set_texts a = set_texts b ->
    a = b \/ exists u, excluded a = Some u /\ excluded b = Some u.
  Proof.
    intros Ca Cb Na Nb Fa Fb E. rewrite bounds_extract in Fa, Fb. apply bounds_items in Fa, Fb.
    assert (Pa := Ca). assert (Pb := Cb). apply canonical_canon in Pa, Pb. pose proof (canon_proper a Pa) as Qa. pose proof (canon_proper b Pb) as Qb.
    destruct a as [|i|xs], b as [|j|ys]; try congruence; cbn [set_texts extract excluded] in *.
    - left. f_equal. injection E as E. inversion Fa; inversion Fb; inversion Qa; inversion Qb; subst. now apply texts_item.
    - exfalso. destruct (excludes_total ys Cb) as (r & X & _). rewrite X in E. destruct r as [v|].
      + injection E as E. inversion Fa; subst. now apply item_not_ne in E.
      + destruct Pb as [_ L]. apply (f_equal (@List.length _)) in E. rewrite map_length in E. cbn in E, L. lia.
    - exfalso. destruct (excludes_total xs Ca) as (r & X & _). rewrite X in E. destruct r as [v|].
      + injection E as E. symmetry in E. inversion Fb; subst. now apply item_not_ne in E.
      + destruct Pa as [_ L]. apply (f_equal (@List.length _)) in E. rewrite map_length in E. cbn in E, L. lia.
    - destruct (excludes_total xs Ca) as (r & X & U). destruct (excludes_total ys Cb) as (r' & X' & U'). rewrite X, X' in *. destruct r as [v|], r' as [w|].
      + right. exists v. split; [reflexivity|]. injection E as E. f_equal. symmetry. destruct (U v eq_refl) as [I _]. destruct (U' w eq_refl) as [I' _].
        apply ne_inj; [| |exact E].
        * apply in_flat_map in I as (k & K1 & K2). rewrite Forall_forall in Fa. apply Fa in K1. rewrite Forall_forall in K1. auto.
        * apply in_flat_map in I' as (k & K1 & K2). rewrite Forall_forall in Fb. apply Fb in K1. rewrite Forall_forall in K1. auto.
      + exfalso. destruct Pb as [_ L]. apply (f_equal (@List.length _)) in E. rewrite map_length in E. cbn in E, L. lia.
      + exfalso. destruct Pa as [_ L]. apply (f_equal (@List.length _)) in E. rewrite map_length in E. cbn in E, L. lia.
      + left. f_equal. now apply texts_items.
  Qed.

  Lemma render_inj a b : canonical a -> canonical b -> a <> Empty -> b <> Empty -> Forall wf (bounds a) -> Forall wf (bounds b) -> set_render vs os a = set_render vs os b ->
    a = b \/ exists u, excluded a = Some u /\ excluded b = Some u.
  Proof.
    intros Ca Cb Na Nb Fa Fb E. apply texts_inj; auto. rewrite !render_texts in E by assumption. injection E as E.
    destruct (texts_inner a Ca Fa), (texts_inner b Cb Fb). now apply joined_inj.
  Qed.

  Lemma render_clear a s : canonical a -> Forall wf (bounds a) -> set_render vs os a = Ok s -> visible s = s.
  Proof.
    intros C F E. rewrite render_texts in E by assumption. injection E as <-. destruct (texts_inner a C F) as [I _]. apply visible_fixed.
    apply Forall_forall. intros x X. apply join_chars in X as [X|(w & W & X)]; [cbn in X; intuition (subst; reflexivity)|].
    apply in_map_iff in W as (row & <- & W). rewrite Forall_forall in I. apply I in W as [_ W]. apply join_chars in X as [X|(y & Y & X)]; [cbn in X; intuition (subst; reflexivity)|].
    rewrite Forall_forall in W. apply W in Y as [_ Y]. unfold unbroken in Y. rewrite Forall_forall in Y. apply Y in X as (_ & _ & X).
    destruct (is_space x) eqn:S; auto. now apply white_iff in S.
  Qed.
End Names.

(** ** Holes *)

Lemma hole_canon u : canon (Union [Range None (Some u) false false; Range (Some u) None false false]).
Proof.
  split; [|cbn; lia]. cbn [chain chain_from proper]. rewrite range_lo, range_hi. cbn [lo_of hi_of negb].
  split; [split; [reflexivity|split; [discriminate|reflexivity]]|]. split; [split; [discriminate|split; reflexivity]|]. split; [|exact I].
  apply cut_step. apply cle_refl.
Qed.

Lemma dens_top xs : ~ dens xs PosInf.
Proof. intros (x & _ & _ & H). unfold clt in H. now destruct (hi x) as [|[]|]. Qed.

Lemma excluded_dset items u : canonical (Union items) -> exclude_version items = Ok (Some u) ->
  forall c, dset (Union items) c <-> clt c PosInf /\ c <> at_version u.
Proof.
  intros C X. destruct (excludes_total items C) as (r & X' & U). rewrite X in X'. injection X' as <-. destruct (U u eq_refl) as [_ K].
  apply canonical_canon in C. destruct (complement_spec _ C) as (r & R & _ & D). rewrite K in R. injection R as <-. intros c.
  pose proof (D c) as Dc. rewrite dset_item, den_point in Dc. split.
  - intros H. split; [|intros E; apply Dc in E as [_ E]; auto]. destruct c; try reflexivity. exfalso. revert H. apply dens_top.
  - intros [H N]. destruct (dset_dec (Union items) c) as [|K']; auto. exfalso. apply N, Dc. auto.
Qed.

Lemma excluded_hole items u : canonical (Union items) -> exclude_version items = Ok (Some u) -> hole (Union items).
Proof.
  intros C X. pose proof (excluded_dset items u C X) as D.
  assert (Q : set_eqb (Union items) (Union [Range None (Some u) false false; Range (Some u) None false false]) = true).
  { apply canonical_canon in C. apply set_eqb_iff; auto using hole_canon. intros c. rewrite D. unfold dset. cbn [extract]. rewrite !dens_cons, dens_nil. unfold den.
    rewrite !range_lo, !range_hi. cbn [lo_of hi_of negb]. unfold at_version. split.
    - intros [H N]. pose proof (cneg_le c). destruct (clt_cle_dec c (Fin (key u, false))) as [K|K]; [tauto|]. right; left. split; auto.
      destruct (clt_cle_dec c (Fin (key u, true))) as [K'|K']; auto. exfalso. apply N. apply cle_antisym; auto. now apply cut_step.
    - intros [[_ H]|[[H H']|[]]].
      + split; [|intros ->; now apply clt_irrefl in H]. eapply clt_trans; [exact H|]. apply cpos_gt.
      + split; auto. intros ->. rewrite <- not_clt in H. apply H. apply cut_step, cle_refl. }
  apply canonical_canon in C. pose proof (canon_proper _ C) as P. cbn [extract] in P. cbn [set_eqb] in Q.
  destruct items as [|i [|j [|k items]]]; cbn [items_eqb] in Q; try discriminate; [now rewrite andb_false_r in Q| |now rewrite !andb_false_r in Q].
  apply andb_true_iff in Q as [Q1 Q2]. rewrite andb_true_r in Q2. inversion P as [|? ? P1 P']; subst. inversion P' as [|? ? P2 _]; subst.
  apply item_eqb_iff in Q1, Q2; try (apply proper_valid; assumption); try (apply proper_valid; now destruct (hole_canon u) as [(? & ? & ? & ?) _]).
  rewrite range_lo, range_hi in Q1, Q2. cbn [lo_of hi_of negb] in Q1, Q2. destruct Q1 as [L1 H1], Q2 as [L2 H2].
  destruct i as [v|[m|] [M|] b c]; rewrite ?point_lo, ?point_hi, ?range_lo, ?range_hi in L1, H1; try discriminate L1; try discriminate H1.
  destruct j as [w|[n|] [N|] d e]; rewrite ?point_lo, ?point_hi, ?range_lo, ?range_hi in L2, H2; try discriminate L2; try discriminate H2.
  rewrite range_hi in H1. rewrite range_lo in L2. cbn [lo_of hi_of] in *. destruct P1 as (P1 & _), P2 as (_ & P2 & _). rewrite P1, P2 by reflexivity. assert (K1 : key M = key u /\ c = false) by (split; congruence). assert (K2 : key n = key u /\ negb d = true) by (split; congruence).
  destruct K1 as [K1 ->], K2 as [K2 G]. destruct d; [discriminate|].
  exists M, n. split; [reflexivity|]. apply eq_key. congruence.
Qed.

(** ** Both strings *)

Lemma holes_equal a b u : canonical a -> canonical b -> excluded a = Some u -> excluded b = Some u -> set_eqb a b = true /\ hole a /\ hole b.
Proof.
  intros Ca Cb A B. destruct a as [|i|xs]; try discriminate. destruct b as [|j|ys]; try discriminate. cbn [excluded] in A, B.
  destruct (exclude_version xs) as [r|] eqn:X; [|discriminate]. destruct (exclude_version ys) as [r'|] eqn:Y; [|discriminate]. subst r r'.
  split; [|split; eapply excluded_hole; eauto]. assert (Ka := Ca). assert (Kb := Cb). apply canonical_canon in Ka, Kb. apply set_eqb_iff; auto. intros c.
  now rewrite (excluded_dset xs u Ca X), (excluded_dset ys u Cb Y).
Qed.

Lemma named a b : canonical a -> canonical b -> (a = b \/ exists u, excluded a = Some u /\ excluded b = Some u) -> set_eqb a b = true /\ (a = b \/ hole a /\ hole b).
Proof.
  intros Ca Cb [<-|(u & A & B)].
  - split; [|now left]. assert (Ka := Ca). apply canonical_canon in Ka. apply set_eqb_iff; tauto.
  - destruct (holes_equal a b u Ca Cb A B) as (E & H). auto.
Qed.

Lemma short_ops : (forall b v, op_to_short_string (lo_op b) v = (if b then [62%N; 61%N] else [62%N]) ++ to_short_string v)
  /\ (forall b v, op_to_short_string (hi_op b) v = (if b then [60%N; 61%N] else [60%N]) ++ to_short_string v)
  /\ forall v, op_to_short_string NOT_EQUAL v = [33%N; 61%N] ++ to_short_string v.
Proof. split; [|split]; [intros [] v; reflexivity..|intros v; reflexivity]. Qed.

Lemma tight_ops : (forall b v, tight (lo_op b) v = (if b then [62%N; 61%N] else [62%N]) ++ to_string v)
  /\ (forall b v, tight (hi_op b) v = (if b then [60%N; 61%N] else [60%N]) ++ to_string v)
  /\ forall v, tight NOT_EQUAL v = [33%N; 61%N] ++ to_string v.
Proof. split; [|split]; [intros [] v; reflexivity..|intros v; reflexivity]. Qed.

Theorem short_names a b : canonical a -> canonical b -> a <> Empty -> b <> Empty -> Forall wf (bounds a) -> Forall wf (bounds b) ->
  set_to_short_string a = set_to_short_string b -> set_eqb a b = true /\ (a = b \/ hole a /\ hole b).
Proof.
  intros Ca Cb Na Nb Fa Fb E. apply named; auto. rewrite !short_render in E. destruct short_ops as (O1 & O2 & O3).
  exact (render_inj to_short_string op_to_short_string short_numeric short_inj O1 O2 O3 a b Ca Cb Na Nb Fa Fb E).
Qed.

Theorem long_names a b : canonical a -> canonical b -> a <> Empty -> b <> Empty -> Forall wf (bounds a) -> Forall wf (bounds b) ->
  set_to_string a = set_to_string b -> set_eqb a b = true /\ (a = b \/ hole a /\ hole b).
Proof.
  intros Ca Cb Na Nb Fa Fb E. apply named; auto. destruct tight_ops as (O1 & O2 & O3).
  apply (render_inj to_string tight long_numeric to_string_inj O1 O2 O3 a b Ca Cb Na Nb Fa Fb).
  pose proof (set_spaced a) as A. pose proof (set_spaced b) as B. rewrite (render_texts _ _ a Ca) in *. rewrite (render_texts _ _ b Cb) in *.
  destruct (set_to_string a) as [s|]; [|contradiction]. destruct (set_to_string b) as [t|]; [|contradiction]. injection E as <-.
  cbn [same_text] in A, B. apply respaced_visible in A, B. 
  pose proof (render_clear to_string tight long_numeric O1 O2 O3 a _ Ca Fa (render_texts _ _ a Ca)) as VA.
  pose proof (render_clear to_string tight long_numeric O1 O2 O3 b _ Cb Fb (render_texts _ _ b Cb)) as VB. congruence.
Qed.

(** Every set has both strings. *)
Lemma has_strings a : canonical a -> exists s t, set_to_string a = Ok s /\ set_to_short_string a = Ok t.
Proof.
  intros C. pose proof (set_spaced a) as A. rewrite (render_texts _ _ a C) in A. destruct (set_to_string a) as [s|]; [|contradiction].
  rewrite short_render, (render_texts _ _ a C). eauto.
Qed.

(** The empty set shares its strings with a version. *)
Theorem zero_names a : canonical a -> Forall wf (bounds a) -> a <> Empty -> (set_to_string a = set_to_string Empty <-> a = Item (Point (bare 0 [0%Z])))
  /\ (set_to_short_string a = set_to_short_string Empty <-> a = Item (Point (bare 0 [0%Z]))).
Proof.
  intros C F N. assert (Z : canonical (Item (Point (bare 0 [0%Z])))) by exact I.
  assert (W : Forall wf (bounds (Item (Point (bare 0 [0%Z]))))).
  { constructor; [|constructor]. split; [reflexivity|]. split; [discriminate|]. split; [constructor; [reflexivity|constructor]|]. now repeat split. }
  assert (H : ~ hole (Item (Point (bare 0 [0%Z])))) by (intros (v & w & E & _); discriminate E).
  split; (split; [intros E|intros ->; reflexivity]).
  - apply (long_names a _ C Z N) in E as [_ [E|[_ E]]]; auto; solve [discriminate|contradiction].
  - apply (short_names a _ C Z N) in E as [_ [E|[_ E]]]; auto; solve [discriminate|contradiction].
Qed.
