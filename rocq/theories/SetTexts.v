(** Printed version sets parse back. *)

From Coq Require Import List ZArith NArith String Bool Arith Lia.
From Verif Require Import Py Segments Version VersionSets Operators SetStrings Specifiers Regex Patterns Parsers Orders Spec SetVersions Cuts SetItems SetChains SetMerge SetOps SetAlgebra
  SetTheorems OrderFacts OperatorFacts SpecifierFacts Provenance
  Grammar Clauses RegexFacts Unambiguous VersionRegex ParseFacts ParseTheorems ClauseRegex ClauseFacts SpecText SpecParse SpecStrings.
Import ListNotations.
Local Opaque key.

(** ** Texts of specifications *)

Definition doubled (cs : list pstr) : list (bool * (pstr * list pstr)) := map (fun s => (true, (s, []))) cs.

Lemma join_conjuncts cs : forall c, join [44%N] (c :: cs) = conjuncts c cs.
Proof. induction cs as [|d cs IH]; intros c; auto. cbn [join conjuncts app]. now rewrite <- IH. Qed.

Lemma join_alternatives al : forall c, join [124%N; 124%N] (c :: al) = alternatives c (map (fun s => (true, s)) al).
Proof. induction al as [|d cs IH]; intros c; auto. cbn [join map alternatives app]. now rewrite <- IH. Qed.

Lemma joined_specification css xss : css <> [] -> Forall (fun cs => cs <> []) css -> Forall2 (Forall2 proper_clause) css xss ->
  parse_specifier (join [124%N; 124%N] (map (join [44%N]) css)) = Ok (spec_of xss).
Proof.
  intros N F P. assert (S : specification (join [124%N; 124%N] (map (join [44%N]) css)) css).
  { destruct css as [|[|c cs] css]; [congruence|inversion F; congruence|]. clear N. inversion F as [|? ? _ F']; subst.
    exists c, cs, (map (fun cs => (true, (hd [] cs, tl cs))) css). split; [|split].
    - f_equal. rewrite map_map. cbn [fst snd]. clear - F'. induction F' as [|x css N F IH]; auto. cbn [map]. rewrite <- IH. destruct x; [congruence|reflexivity].
    - clear - P. remember ((c :: cs) :: css) as l. clear Heql. induction P as [|y x l xs H P IH]; constructor; auto. now apply proper_all in H.
    - cbn [map]. rewrite join_alternatives, join_conjuncts, !map_map. cbn [fst snd].
      assert (E : map (fun x => (true, join [44%N] x)) css = map (fun x => (true, conjuncts (hd [] x) (tl x))) css).
      { apply map_ext_in. intros x X. rewrite Forall_forall in F'. apply F' in X. destruct x; [now destruct X|]. now rewrite join_conjuncts. }
      rewrite E. apply respaced_refl. }
  apply parse_specifier_ok. eauto.
Qed.

(** ** Texts of sets *)

Definition zero_tree : gversion := GVersion None None [48%N] [] None None None None.
Definition star_tree : gversion := GVersion None None [42%N] [] None None None None.

Lemma zero_tree_ok : tree zero_tree.
Proof. unfold tree, zero_tree. cbn [g_v g_epoch g_first g_more g_pre g_post g_dev g_local opt]. repeat split; auto; try discriminate; auto using digits_zero; try apply digits_zero. Qed.

Lemma star_clause : proper_clause (lit "*") (WILDCARD_EQUAL, zero_tree).
Proof.
  split; [|split; [apply lower_case_iff; reflexivity|discriminate]]. apply (clause_wild _ _ _ [] 42%N star_tree).
  - cbn. tauto.
  - now left.
  - apply wild_any.
  - apply zero_tree_ok.
  - reflexivity.
Qed.

Lemma bare_clause g : tree g -> lower_case g -> proper_clause (text g) (EQUAL, g).
Proof. intros T L. split; [|split; [exact L|discriminate]]. apply (clause_equal _ _ _ []); auto. cbn. tauto. Qed.

Section Print.
  Variables (good : version -> Prop) (tr : version -> gversion) (vs : version -> pstr) (os : op_type -> version -> pstr).
  Hypothesis os_clause : forall t v, writable t v -> good v -> proper_clause (os t v) (t, tr v).
  Hypothesis vs_clause : forall v, wf v -> good v -> proper_clause (vs v) (EQUAL, tr v).
  Hypothesis tr_reading : forall v, wf v -> good v -> reading (tr v) = v.

  Definition some_text (f : bool -> op_type) (o : option version) (b : bool) : list pstr := match o with None => [] | Some m => [os (f b) m] end.
  Definition some_tree (f : bool -> op_type) (o : option version) (b : bool) : list (op_type * gversion) := match o with None => [] | Some m => [(f b, tr m)] end.

  Definition item_texts (i : item) : list pstr :=
    match i with
    | Point v => [vs v]
    | Range None None _ _ => [lit "*"]
    | Range m M b c => some_text lo_op m b ++ some_text hi_op M c
    end.
  Definition item_trees (i : item) : list (op_type * gversion) :=
    match i with
    | Point v => [(EQUAL, tr v)]
    | Range None None _ _ => [(WILDCARD_EQUAL, zero_tree)]
    | Range m M b c => some_tree lo_op m b ++ some_tree hi_op M c
    end.

  Definition fine (v : version) : Prop := wf v /\ good v.
  Definition fine_item (i : item) : Prop := Forall fine (item_bounds i) /\ match i with Point _ => True | _ => Forall (fun v => v_local v = None) (item_bounds i) end.

  Lemma item_render_proper sep i : proper i -> item_render vs os sep i = Ok (join sep (item_texts i)).
  Proof.
    intros P. destruct i as [v|min max imin imax]; [reflexivity|]. unfold item_render. rewrite item_is_empty_proper, item_is_point_proper by exact P.
    unfold item_is_universal, is_unbounded. destruct min as [m|], max as [M|]; destruct imin, imax; reflexivity.
  Qed.

  Lemma item_texts_nonempty i : item_texts i <> [].
  Proof. destruct i as [v|[m|] [M|] b c]; discriminate. Qed.

  Lemma order_writable t v : In t [LESS; LESS_OR_EQUAL; GREATER; GREATER_OR_EQUAL] -> wf v -> v_local v = None -> writable t v.
  Proof.
    intros T W L. split; auto. split; [|split; auto]; cbn [In] in T; repeat (destruct T as [<-|T]; [try discriminate|]); try destruct T;
      (split; [now apply wf_valid|discriminate]).
  Qed.

  Lemma item_clauses i : fine_item i -> Forall2 proper_clause (item_texts i) (item_trees i).
  Proof.
    assert (LO : forall b, In (lo_op b) [LESS; LESS_OR_EQUAL; GREATER; GREATER_OR_EQUAL]) by (intros []; cbn; tauto).
    assert (HI : forall b, In (hi_op b) [LESS; LESS_OR_EQUAL; GREATER; GREATER_OR_EQUAL]) by (intros []; cbn; tauto).
    intros [F L]. destruct i as [v|[m|] [M|] b c]; cbn [item_texts item_trees some_text some_tree item_bounds app] in *;
      repeat match goal with H : Forall _ (_ :: _) |- _ => inversion H; clear H; subst | H : fine _ |- _ => destruct H end;
      repeat apply Forall2_cons; try apply Forall2_nil; auto using order_writable, star_clause.
  Qed.

  Lemma item_spec_trees i : fine_item i -> specifier_to_version_set (grouped AllOf (map clause_spec (item_trees i))) = specifier_to_version_set (item_spec i).
  Proof.
    intros [F _]. destruct i as [v|[m|] [M|] b c]; cbn [item_trees some_tree item_bounds app map grouped item_spec clause_spec fst snd] in *;
      repeat match goal with H : Forall _ (_ :: _) |- _ => inversion H; clear H; subst | H : fine _ |- _ => destruct H end; unfold clause_spec; cbn [fst snd]; rewrite ?tr_reading by auto; try reflexivity.
  Qed.

  Lemma reduce_from_ext {A B} f (g : A -> result vset) (h : B -> result vset) xs ys : Forall2 (fun x y => g x = h y) xs ys -> forall acc, reduce_from f g acc xs = reduce_from f h acc ys.
  Proof.
    induction 1 as [|x y xs ys H F IH]; intros acc; auto. cbn [reduce_from]. rewrite H. destruct (h y) as [z|]; auto. cbn [bind]. destruct (f acc z); auto. cbn [bind]. auto.
  Qed.

  Lemma items_spec_trees items : items <> [] -> Forall fine_item items ->
    specifier_to_version_set (spec_of (map item_trees items)) = specifier_to_version_set (any_of (map item_spec items)).
  Proof.
    intros N F. unfold spec_of. rewrite map_map. destruct items as [|i [|j items]]; [congruence| |].
    - inversion F; subst. cbn [map grouped any_of]. now apply item_spec_trees.
    - inversion F as [|? ? Fi F']; subst. change (map ?f (i :: j :: items)) with (f i :: map f (j :: items)) at 1. change (map ?f (i :: j :: items)) with (f i :: map f (j :: items)) at 1. 
      cbn [grouped any_of map specifier_to_version_set reduce_map]. rewrite item_spec_trees by auto. destruct (specifier_to_version_set (item_spec i)) as [y|]; auto. cbn [bind].
      apply reduce_from_ext. change (Forall2 (fun x y => specifier_to_version_set x = specifier_to_version_set y)
        (map (fun x => grouped AllOf (map clause_spec (item_trees x))) (j :: items)) (map item_spec (j :: items))). clear - F' tr_reading.
      induction F' as [|x xs H F IH]; cbn [map]; constructor; auto. now apply item_spec_trees.
  Qed.

  Definition set_render (a : vset) : result pstr :=
    match a with
    | Empty => Ok EMPTY_VERSION
    | Item i => item_render vs os [44%N] i
    | Union items =>
        let* e := exclude_version items in
        match e with
        | Some v => Ok (os NOT_EQUAL v)
        | None => let* ss := mapM (item_render vs os [44%N]) items in Ok (join [124%N; 124%N] ss)
        end
    end.

  Lemma items_parse items : items <> [] -> Forall proper items -> Forall fine_item items ->
    mapM (item_render vs os [44%N]) items = Ok (map (join [44%N]) (map item_texts items))
    /\ parse_version_set (join [124%N; 124%N] (map (join [44%N]) (map item_texts items))) = specifier_to_version_set (any_of (map item_spec items)).
  Proof.
    intros N P F. split.
    - rewrite map_map. clear - P. induction P as [|i items P F IH]; auto. cbn [mapM map]. rewrite item_render_proper by assumption. cbn [bind]. now rewrite IH.
    - unfold parse_version_set. rewrite (joined_specification _ (map item_trees items)).
      + cbn [bind]. now apply items_spec_trees.
      + now destruct items.
      + apply Forall_map, Forall_forall. intros i _. apply item_texts_nonempty.
      + clear - F os_clause vs_clause. induction F as [|i items H F IH]; constructor; auto. now apply item_clauses.
  Qed.

  Lemma set_render_parses a : canonical a -> a <> Empty -> Forall fine (bounds a) ->
    (Forall fine_item (extract a) \/ exists items v, a = Union items /\ exclude_version items = Ok (Some v)) ->
    exists s b, set_render a = Ok s /\ parse_version_set s = Ok b /\ set_eqb b a = true.
  Proof.
    intros C N FB H. destruct (set_convert a C) as (p & E & _ & b & B & _ & Q).
    assert (X : exists s, set_render a = Ok s /\ parse_version_set s = specifier_to_version_set p).
    2:{ destruct X as (s & S & X). exists s, b. rewrite X. auto. }
    destruct a as [|i|items]; [congruence| |].
    - apply canonical_canon in C. destruct H as [H|(? & ? & ? & _)]; [|discriminate].
      inversion H as [|? ? F _]; subst. assert (R : parse_version_set (join [124%N; 124%N] (map (join [44%N]) (map item_texts [i]))) = specifier_to_version_set (any_of (map item_spec [i]))).
      { apply items_parse; [discriminate| |]; (constructor; [assumption|constructor]). }
      cbn [map join any_of] in R. exists (join [44%N] (item_texts i)). split; [now apply item_render_proper|]. rewrite R.
      cbn [version_set_to_specifier] in E. rewrite item_to_specifier_eq in E by auto. now injection E as <-.
    - cbn [set_render version_set_to_specifier extract bounds] in *. destruct (exclude_version items) as [[v|]|] eqn:X; [| |discriminate].
      + cbn [bind] in *. injection E as <-. eexists. split; [reflexivity|]. unfold parse_version_set.
        assert (V : In v (flat_map item_bounds items)).
        { unfold exclude_version in X. destruct (complement (Union items)) as [r|] eqn:K; [|discriminate]. cbn [bind] in X. destruct r as [|[w|]|]; try discriminate.
          injection X as ->. apply complement_bounds in K. apply (K v). now left. }
        rewrite Forall_forall in FB. apply FB in V as [W G]. rewrite (proper_parse _ (NOT_EQUAL, tr v)).
        * cbn [bind]. unfold clause_spec. cbn [fst snd]. now rewrite tr_reading.
        * apply os_clause; auto. split; auto. split; [split; [now apply wf_valid|discriminate]|]. split; discriminate.
      + cbn [bind] in *. destruct H as [H|(? & ? & H & X')]; [|congruence]. apply canonical_canon in C. destruct C as [Ch L]. pose proof (chain_proper _ Ch) as P.
        destruct (items_parse items) as [M R]; auto; [destruct items; [cbn in L; lia|discriminate]|]. rewrite M. cbn [bind]. eexists. split; [reflexivity|]. rewrite R.
        rewrite mapM_items in E by auto. cbn [bind] in E. now injection E as <-.
  Qed.
End Print.

(** ** Everything but a version *)

Lemma hole_excludes a : canonical a -> hole a -> exists items u, a = Union items /\ exclude_version items = Ok (Some u).
Proof.
  intros C (v & w & -> & E). apply canonical_canon in C. destruct (complement_spec _ C) as (r & R & Cr & D).
  assert (Q : set_eqb r (Item (Point v)) = true).
  { apply set_eqb_iff; auto; [exact I|]. intros c. rewrite D, dset_item, den_point. unfold dset. cbn [extract]. rewrite !dens_cons, dens_nil. unfold den.
    rewrite !range_lo, !range_hi. cbn [lo_of hi_of negb]. apply eq_key in E. rewrite <- E. unfold at_version. split.
    - intros [H N]. pose proof (cneg_le c). assert (K : ~ clt c (Fin (key v, false)) /\ ~ cle (Fin (key v, true)) c) by tauto. clear N. destruct K as [K1 K2].
      rewrite not_clt in K1. apply cle_antisym; auto. apply cut_step. destruct (clt_cle_dec c (Fin (key v, true))); tauto.
    - intros ->. split; [apply cpos_gt|]. intros [[_ H]|[[H _]|[]]]; [now apply clt_irrefl in H|]. rewrite <- not_clt in H. apply H. apply cut_step. apply cle_refl. }
  destruct r as [|j|]; cbn [set_eqb] in Q; try discriminate.
  destruct j as [u|min max imin imax]; [eexists _, u; split; [reflexivity|]; unfold exclude_version; rewrite R; reflexivity|]. exfalso. apply item_eqb_iff in Q; [|exact (proper_valid _ Cr)|exact I].
  destruct Q as [Q1 Q2]. apply (inside_range (Point v) (Range min max imin imax)); try exact I; try exact Cr; rewrite ?Q1, ?Q2; apply cle_refl.
Qed.

(** ** Both renderings *)

Lemma short_render a : set_to_short_string a = set_render to_short_string op_to_short_string a.
Proof. destruct a; reflexivity. Qed.

Lemma readable_parses (good : version -> Prop) tr vs os a :
  (forall t v, writable t v -> good v -> proper_clause (os t v) (t, tr v)) -> (forall v, wf v -> good v -> proper_clause (vs v) (EQUAL, tr v)) ->
  (forall v, wf v -> good v -> reading (tr v) = v) -> readable (fun v => wf v /\ good v) a ->
  exists s b, set_render vs os a = Ok s /\ parse_version_set s = Ok b /\ set_eqb b a = true.
Proof.
  intros A B R (C & N & F & H). apply (set_render_parses good tr); auto. destruct H as [H|H]; [right; now apply hole_excludes|left].
  rewrite bounds_extract in F. clear - F H. induction H as [|i items H G IH]; constructor; cbn [flat_map] in F; apply Forall_app in F as [F1 F2]; auto; split; auto; now destruct i.
Qed.

Theorem set_short_parses a : readable wf a -> exists s b, set_to_short_string a = Ok s /\ parse_version_set s = Ok b /\ set_eqb b a = true.
Proof.
  intros H. rewrite short_render. apply (readable_parses (fun _ => True) short_tree).
  - intros t v W _. now apply short_clause.
  - intros v W _. destruct (short_tree_ok v W) as (T & L & <- & _). now apply bare_clause.
  - intros v W _. now apply short_tree_ok.
  - destruct H as (C & N & F & H). split; auto. split; auto. split; auto. eapply Forall_impl; [|exact F]. auto.
Qed.

(** The long strings differ from tight ones in spaces only. *)
Lemma respaced_app a b c d : respaced a b -> respaced c d -> respaced (a ++ c) (b ++ d).
Proof. rewrite !respaced_visible, !visible_app. congruence. Qed.

Lemma respaced_join sep sep' xs ys : respaced sep sep' -> Forall2 respaced xs ys -> respaced (join sep xs) (join sep' ys).
Proof.
  intros S F. induction F as [|x y xs ys H F IH]; [apply respaced_refl|]. destruct F as [|x' y' xs ys H' F]; auto. 
  change (respaced (x ++ sep ++ join sep (x' :: xs)) (y ++ sep' ++ join sep' (y' :: ys))). auto using respaced_app.
Qed.

Definition same_text (r r' : result pstr) : Prop := match r, r' with Ok s, Ok u => respaced s u | Err e, Err e' => e = e' | _, _ => False end.

Lemma item_spaced i : same_text (item_to_string i) (item_render to_string tight [44%N] i).
Proof.
  assert (S : respaced (lit ", ") [44%N]) by (apply respaced_visible; reflexivity).
  unfold item_to_string, item_render. destruct i as [v|min max imin imax]; [apply respaced_refl|]. destruct (item_is_empty _); [apply respaced_refl|].
  destruct (item_is_point _); [destruct (item_version _); [apply respaced_refl|reflexivity]|]. destruct (item_is_universal _); [apply respaced_refl|].
  apply respaced_join; auto. destruct min, max; cbn [app]; repeat apply Forall2_cons; try apply Forall2_nil; apply op_to_string_spaced.
Qed.

Lemma set_spaced a : same_text (set_to_string a) (set_render to_string tight a).
Proof.
  destruct a as [|i|items]; [apply respaced_refl|apply item_spaced|]. cbn [set_to_string set_render]. destruct (exclude_version items) as [[v|]|]; [apply op_to_string_spaced| |reflexivity].
  cbn [bind]. assert (X : match mapM item_to_string items, mapM (item_render to_string tight [44%N]) items with
    | Ok ss, Ok us => Forall2 respaced ss us | Err e, Err e' => e = e' | _, _ => False end).
  { induction items as [|i items IH]; [constructor|]. cbn [mapM]. pose proof (item_spaced i) as H. destruct (item_to_string i), (item_render _ _ _ i); cbn [same_text] in H; try contradiction; auto.
    cbn [bind]. destruct (mapM item_to_string items), (mapM _ items); try contradiction; auto. cbn [bind]. constructor; auto. }
  destruct (mapM item_to_string items), (mapM _ items); try contradiction; auto. cbn [bind same_text]. apply respaced_join; auto. apply respaced_visible. reflexivity.
Qed.

Theorem set_long_parses a : readable printable a -> exists s b, set_to_string a = Ok s /\ parse_version_set s = Ok b /\ set_eqb b a = true.
Proof.
  intros H. destruct (readable_parses (fun v => candidate v = false) long_tree to_string tight a) as (s & b & S & P & E).
  - intros t v W G. now apply long_clause.
  - intros v W G. destruct (long_tree_ok v W G) as (T & L & <- & _). now apply bare_clause.
  - intros v W G. now apply long_tree_ok.
  - destruct H as (C & N & F & H). split; auto. split; auto. split; auto. eapply Forall_impl; [|exact F]. intros v [W K]. split; auto.
    destruct (candidate v) eqn:E; auto. apply candidate_iff in E as (u & E & P). now destruct (K u E).
  - pose proof (set_spaced a) as X. rewrite S in X. destruct (set_to_string a) as [u|]; [|contradiction]. exists u, b. split; auto. split; auto.
    destruct (respaced_parse _ _ X) as [_ ->]. exact P.
Qed.
