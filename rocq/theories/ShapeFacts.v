(** What the specifier parser can return (C122): proofs. *)

From Coq Require Import List ZArith NArith String Bool Arith Lia.
From Verif Require Import Py Segments Version VersionSets Operators SetStrings Specifiers Parsers Orders Spec
  Cuts SetItems SetChains SetMerge SetOps OrderFacts SetVersions SetTheorems BumpFacts OperatorFacts SpecifierFacts Provenance Normal DecideFacts
  Grammar Clauses ParseFacts ParseTheorems ClauseFacts SpecText SpecParse SpecStrings SpecFailures SpecMeaning SetTexts Compose SetNames SpecNames ParenSpec ParenFacts ShapeSpec.
Import ListNotations.
Open Scope Z_scope.

Lemma writes_writable t v : writes t v <-> writable t v.
Proof.
  unfold writes, writable, op_made. split.
  - intros (W & L & T & C). split; [exact W|]. split; [split; [now apply wf_valid|exact T]|]. split.
    + intros H. destruct (v_local v) as [l|]; [|reflexivity]. specialize (L ltac:(discriminate)). cbn in L. repeat (destruct L as [<-|L]; [discriminate H|]). destruct L.
    + intros H. apply C. destruct t; try discriminate H; cbn; tauto.
  - intros (W & (_ & T) & L & C). split; [exact W|]. split; [|split; [exact T|]].
    + intros N. destruct t; cbn; try tauto; destruct N; now apply L.
    + intros H. apply C. cbn in H. repeat (destruct H as [<-|H]; [reflexivity|]). destruct H.
Qed.

(** ** Shapes *)

Lemma grouped_many (P : spec -> Prop) (mk : list spec -> spec) ss : ss <> [] -> Forall P ss ->
  P (grouped mk ss) \/ exists us, grouped mk ss = mk us /\ (2 <= List.length us)%nat /\ Forall P us.
Proof.
  intros N F. destruct ss as [|s [|u ss]]; [congruence|left; now inversion F|right]. exists (s :: u :: ss). split; [reflexivity|]. split; [cbn; lia|exact F].
Qed.

Lemma spec_of_shape xss : xss <> [] -> Forall (fun xs => xs <> []) xss -> disjunction (spec_of xss).
Proof.
  intros N F. unfold spec_of. apply grouped_many; [destruct xss; [congruence|discriminate]|]. apply Forall_map. eapply Forall_impl; [|exact F].
  intros xs X. apply grouped_many; [destruct xs; [congruence|discriminate]|]. apply Forall_map, Forall_forall. intros x _. now exists (fst x), (reading (snd x)).
Qed.

Lemma many_grouped (mk : list spec -> spec) ss : (2 <= List.length ss)%nat -> grouped mk ss = mk ss.
Proof. destruct ss as [|s [|u ss]]; cbn [List.length]; try lia. reflexivity. Qed.

Lemma single_rows s : single s -> each_op writes s -> exists c x, proper_clause c x /\ clause_spec x = s.
Proof.
  intros (t & v & ->) W. apply writes_writable in W. exists (op_to_short_string t v), (t, short_tree v). split; [now apply short_clause|].
  unfold clause_spec. cbn [fst snd]. f_equal. destruct W as [W _]. now apply short_tree_ok.
Qed.

Lemma singles_rows ss : Forall single ss -> Forall (each_op writes) ss -> exists cs xs, Forall2 proper_clause cs xs /\ map clause_spec xs = ss.
Proof.
  induction 1 as [|s ss S F IH]; intros W; [exists [], []; split; [constructor|reflexivity]|]. inversion W as [|? ? W1 W2]; subst.
  destruct (IH W2) as (cs & xs & P & <-), (single_rows s S W1) as (c & x & Q & <-). exists (c :: cs), (x :: xs). split; [now constructor|reflexivity].
Qed.

Lemma conjunction_rows s : conjunction s -> each_op writes s -> exists cs xs, Forall2 proper_clause cs xs /\ xs <> [] /\ grouped AllOf (map clause_spec xs) = s.
Proof.
  intros [S|(ss & -> & N & F)] W.
  - destruct (single_rows s S W) as (c & x & P & <-). exists [c], [x]. split; [constructor; [exact P|constructor]|]. split; [discriminate|reflexivity].
  - apply each_op_all in W. destruct (singles_rows ss F W) as (cs & xs & P & <-). exists cs, xs. split; [exact P|]. split; [|now apply many_grouped].
    intros ->. cbn in N. lia.
Qed.

Lemma conjunctions_rows ss : Forall conjunction ss -> Forall (each_op writes) ss ->
  exists css xss, Forall2 (Forall2 proper_clause) css xss /\ Forall (fun xs => xs <> []) xss /\ map (fun xs => grouped AllOf (map clause_spec xs)) xss = ss.
Proof.
  induction 1 as [|s ss S F IH]; intros W; [exists [], []; split; [constructor|split; [constructor|reflexivity]]|]. inversion W as [|? ? W1 W2]; subst.
  destruct (IH W2) as (css & xss & P & N & <-), (conjunction_rows s S W1) as (cs & xs & Q & M & <-). exists (cs :: css), (xs :: xss).
  split; [now constructor|]. split; [now constructor|reflexivity].
Qed.

Lemma disjunction_rows s : disjunction s -> each_op writes s ->
  exists css xss, Forall2 (Forall2 proper_clause) css xss /\ xss <> [] /\ Forall (fun xs => xs <> []) xss /\ spec_of xss = s.
Proof.
  intros [S|(ss & -> & N & F)] W.
  - destruct (conjunction_rows s S W) as (cs & xs & P & M & <-). exists [cs], [xs]. split; [constructor; [exact P|constructor]|]. split; [discriminate|]. split; [constructor; [exact M|constructor]|reflexivity].
  - apply each_op_any in W. destruct (conjunctions_rows ss F W) as (css & xss & P & M & <-). exists css, xss. split; [exact P|]. rewrite map_length in N.
    split; [intros ->; cbn in N; lia|]. split; [exact M|]. unfold spec_of. apply many_grouped. now rewrite map_length.
Qed.

(** ** The image of the parser *)

(** Rows of clauses are written by some string. *)
Lemma rows_specified css xss : Forall2 (Forall2 proper_clause) css xss -> xss <> [] -> Forall (fun xs => xs <> []) xss ->
  exists s, parse_specifier s = Ok (spec_of xss).
Proof.
  intros F N M.
  exists (unparenthesised (SpecNames.words to_short_string (spec_of xss))).
  apply (bare_parses to_short_string short_numeric (fun v W => proj2 (bald_version v W)) css); auto.
  clear N M. induction F as [|cs xs css xss H F IH]; constructor; auto. induction H as [|c x cs xs P H IH']; constructor; auto.
  apply proper_writable in P. exact (short_string_parses _ _ P).
Qed.

Theorem parser_image q : (exists s, parse_specifier s = Ok q) <-> disjunction q /\ each_op writes q.
Proof.
  split.
  - intros (s & H). split.
    + apply parse_specifier_ok in H as (css & xss & S & F & ->). destruct (specification_nonempty _ _ S) as [N G]. destruct (shaped_rows _ _ F N G) as [N' G'].
      now apply spec_of_shape.
    + apply (each_op_impl writable); [intros t w; apply writes_writable|now apply (parsed_writable s)].
  - intros [D W]. destruct (disjunction_rows q D W) as (css & xss & F & N & M & <-). now apply (rows_specified css).
Qed.

Lemma single_height s : single s -> height s = 0%nat.
Proof. now intros (t & v & ->). Qed.

Lemma most_height n ss : Forall (fun s => (height s <= n)%nat) ss -> (fold_right (fun s n => Nat.max (height s) n) 0 ss <= n)%nat.
Proof. induction 1; cbn [fold_right]; lia. Qed.

Lemma conjunction_height s : conjunction s -> (height s <= 1)%nat.
Proof.
  intros [S|(ss & -> & _ & F)]; [rewrite single_height by exact S; lia|]. cbn [height]. apply le_n_S. apply most_height.
  eapply Forall_impl; [|exact F]. intros s S. rewrite single_height by exact S. lia.
Qed.

Theorem disjunction_height s : disjunction s -> (height s <= 2)%nat.
Proof.
  intros [S|(ss & -> & _ & F)]; [apply conjunction_height in S; lia|]. cbn [height]. apply le_n_S. apply most_height.
  eapply Forall_impl; [|exact F]. intros s S. now apply conjunction_height.
Qed.

(** ** Specifiers of sets *)

Lemma item_shape i : item_spec i = Always \/ conjunction (item_spec i).
Proof.
  destruct i as [v|[m|] [M|] b c]; cbn [item_spec]; try (right; left; unfold single; eauto; fail); [|now left].
  right. right. eexists. split; [reflexivity|]. split; [cbn; lia|]. repeat constructor; unfold single; eauto.
Qed.

Lemma chained_shape items : chain items -> (2 <= List.length items)%nat -> Forall (fun i => conjunction (item_spec i)) items.
Proof.
  intros C N. apply Forall_forall. intros i I. destruct (item_shape i) as [E|E]; auto. exfalso.
  assert (U : existsb item_is_universal items = true).
  { apply existsb_exists. exists i. split; [exact I|]. destruct i as [v|[m|] [M|] b c]; try discriminate E. reflexivity. }
  apply (chain_universal _ C) in U. rewrite U in N. cbn in N. lia.
Qed.

Theorem set_shape a q : canonical a -> version_set_to_specifier a = Ok q -> q = Never /\ is_empty a = true \/ q = Always /\ is_universal a = true \/ disjunction q.
Proof.
  intros C E. rewrite canonical_canon in C. destruct a as [|i|items].
  - inversion E. left. split; reflexivity.
  - cbn [version_set_to_specifier] in E. rewrite (item_to_specifier_eq i C) in E. inversion E; subst. right. destruct (item_shape i) as [X|X]; [left|right; now left].
    split; [exact X|]. destruct i as [v|[m|] [M|] b c]; try discriminate X. reflexivity.
  - cbn [version_set_to_specifier] in E. destruct (exclude_version items) as [[v|]|] eqn:X; [| |discriminate]; cbn [bind] in E.
    + inversion E. right. right. left. left. unfold unpin_version, single. eauto.
    + destruct C as [Ch Len]. pose proof (chain_proper _ Ch) as F. rewrite mapM_items in E by assumption. cbn [bind] in E. inversion E; subst.
      right. right. right. exists (map item_spec items). split; [|split; [now rewrite map_length|apply Forall_map; now apply chained_shape]].
      assert (N : (2 <= List.length (map item_spec items))%nat) by now rewrite map_length.
      destruct (map item_spec items) as [|x [|y ss]]; cbn [List.length] in N; [lia|lia|reflexivity].
Qed.

(** ** Simplified specifiers *)

Lemma bare_wf e r : 0 <= e -> r <> [] -> Forall (fun x => 0 <= x) r -> wf (bare e r).
Proof. intros E N R. repeat split; auto. Qed.

Lemma op_bound_wf t w u : wf w -> op_made t w -> op_bound t w u -> wf u.
Proof.
  intros W [V L] [-> | H]; auto. destruct W as (E & N & R & _). unfold nonneg_release in R.
  assert (B : forall i r, bumped (v_release w) i r -> wf (bare (v_epoch w) r)) by (intros i r K; destruct (bumped_nonneg _ _ _ R K); now apply bare_wf).
  assert (B0 : wf (bare (v_epoch w) (v_release w))) by now apply bare_wf.
  assert (D : final w \/ ~ final w) by (destruct (is_stable w) eqn:S; [left; now apply stable_final|right; now apply unstable_final]).
  assert (Q : wildcard_upper w u -> wf u).
  { intros (r & -> & H1 & H2 & H3). destruct D as [F|F]; [|now rewrite (H3 F)].
    destruct (v_post w) eqn:X; [now apply (B _ _ (H2 F ltac:(discriminate)))|now apply (B _ _ (H1 F eq_refl))]. }
  destruct t; try contradiction; auto; destruct H as (r & -> & H).
  - now apply (B _ _ H).
  - destruct H as (H1 & H2 & H3). destruct D as [F|F]; [now apply (B _ _ (H1 F))|]. destruct (Z.eq_dec (part (v_release w) 0) 0) as [Z|Z]; [now rewrite (H2 F Z)|now apply (B _ _ (H3 F Z))].
  - destruct H as (H1 & H2). destruct D as [F|F]; [now apply (B _ _ (H1 F))|now rewrite (H2 F)].
Qed.

Theorem simplified_shape x s q : parse_specifier x = Ok s -> simplify s = Ok q ->
  (q = Never \/ q = Always \/ disjunction q)
  /\ ((exists y, parse_specifier y = Ok q) <-> q <> Never /\ q <> Always /\ forall t v, Spec.leaf t v q -> v_local v <> None -> t = DOUBLE_EQUAL \/ t = NOT_EQUAL).
Proof.
  intros X E. destruct (parsed_made x s X) as [M P]. pose proof (parsed_writable x s X) as W. unfold simplify in E.
  destruct (specifier_to_version_set s) as [a|] eqn:A; [|discriminate]. cbn [bind] in E. destruct (convert_sound s M P a A) as (C & _).
  destruct (set_shape a q C E) as [(-> & _)|[(-> & _)|D]].
  - split; [auto|]. split; [|intros (N & _); congruence]. intros (y & Y). exfalso.
    assert (D : disjunction Never) by (apply parser_image; eauto). destruct D as [[(t & v & D)|(ss & D & _)]|(ss & D & _)]; discriminate.
  - split; [auto|]. split; [|intros (_ & N & _); congruence]. intros (y & Y). exfalso.
    assert (D : disjunction Always) by (apply parser_image; eauto). destruct D as [[(t & v & D)|(ss & D & _)]|(ss & D & _)]; discriminate.
  - split; [auto|].
    assert (L : forall t w, Spec.leaf t w q -> compares t /\ wf w).
    { intros t w K. destruct (to_specifier_leaves a q t w E K) as [T B]. split; [exact T|]. destruct (convert_bounds s a w M A B) as (t' & w' & K' & B').
      destruct (proj1 (each_leaf writable s) W t' w' K') as (W1 & W2 & _). now apply (op_bound_wf t' w'). }
    rewrite parser_image, each_leaf. split.
    + intros [_ H]. split; [intros ->; destruct D as [[(t & v & D)|(ss & D & _)]|(ss & D & _)]; discriminate|].
      split; [intros ->; destruct D as [[(t & v & D)|(ss & D & _)]|(ss & D & _)]; discriminate|].
      intros t v K N. destruct (H t v K) as (_ & H2 & _). specialize (H2 N). destruct (L t v K) as [T _]. cbn in H2.
      destruct H2 as [<-|[<-|[<-|[]]]]; [destruct T|auto..].
    + intros (_ & _ & H). split; [exact D|]. intros t v K. destruct (L t v K) as [T V]. split; [exact V|]. split; [|split].
      * intros N. destruct (H t v K N) as [-> | ->]; cbn; tauto.
      * intros ->. destruct T.
      * intros I. cbn in I. destruct I as [<-|[<-|[<-|[]]]]; destruct T.
Qed.
