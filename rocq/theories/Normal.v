(** Conversion invents no bounds, and [simplify] computes a normal form. *)

From Coq Require Import List ZArith NArith String Bool Lia.
From Verif Require Import Py Segments Version VersionSets Operators SetStrings Specifiers Parsers Spec
  Orders Cuts SetItems SetChains SetMerge SetOps OrderFacts SetVersions SetTheorems BumpFacts OperatorFacts SpecifierFacts Provenance CacheFacts
  Grammar Clauses ParseFacts ParseTheorems ClauseFacts SpecText SpecParse SpecStrings SpecMeaning.
Import ListNotations.
Open Scope Z_scope.

Local Opaque key.

(** ** Bounds of a conversion *)

Lemma op_translate_P (P : version -> Prop) t w : op_made t w -> (forall u, op_bound t w u -> P u) -> rP (sP P) (op_translate t w).
Proof.
  intros [V L] H. assert (W : P w) by (apply H; left; reflexivity).
  assert (K : forall u, P u -> rP (sP P) (bind (range_new (Some w) (Some u) true false) (fun r => Ok (Item r)))) by (intros u U; now apply rP_item, range_new_P).
  assert (E : sP P (Item (Point w))) by (repeat constructor; assumption).
  assert (X : (forall u, wildcard_upper w u -> P u) -> rP (sP P) (translate_wildcard_equal w)).
  { intros U. unfold translate_wildcard_equal. destruct (wildcard_bound w V) as [[_ ->]|(_ & u & -> & B)]; cbn [bind]; [apply rP_item, range_new_P; exact I|].
    apply K, U. now apply B. }
  destruct t; cbn [op_translate]; unfold op_bound in H.
  - unfold translate_tilde_equal. destruct (tilde_equal_bound w V (L eq_refl)) as (u & -> & B). cbn [bind]. apply K, H. right. now apply B.
  - exact E.
  - unfold translate_not_equal, translate_equal. cbn [bind]. apply (rP_bind (sP P) (sP P)); [now apply complement_P|]. intros c C. destruct c; try exact I. exact C.
  - apply rP_item, range_new_P; [exact I|exact W].
  - apply rP_item, range_new_P; [exact I|exact W].
  - apply rP_item, range_new_P; [exact W|exact I].
  - apply rP_item, range_new_P; [exact W|exact I].
  - unfold translate_caret. destruct (caret_bound w V) as (u & -> & B). cbn [bind]. apply K, H. right. now apply B.
  - exact E.
  - unfold translate_tilde. destruct (tilde_bound w V) as (u & -> & B). cbn [bind]. apply K, H. right. now apply B.
  - apply X. auto.
  - apply X. auto.
  - unfold translate_wildcard_not_equal. apply (rP_bind (sP P) (sP P)); [apply X; auto|]. intros e Pe.
    apply (rP_bind (sP P) (sP P)); [now apply complement_P|]. intros c C. destruct c; try exact I; exact C.
Qed.

Lemma reduce_from_P (P : version -> Prop) f (H : forall a b, sP P a -> sP P b -> rP (sP P) (f a b)) ss :
  Forall (fun s => rP (sP P) (specifier_to_version_set s)) ss -> forall a, sP P a -> rP (sP P) (reduce_from f specifier_to_version_set a ss).
Proof.
  induction 1 as [|s ss S F IH]; intros a A; [exact A|]. cbn [reduce_from]. apply (rP_bind (sP P) (sP P)); [exact S|]. intros b B.
  apply (rP_bind (sP P) (sP P)); auto.
Qed.
Lemma reduce_map_P (P : version -> Prop) f (H : forall a b, sP P a -> sP P b -> rP (sP P) (f a b)) ss :
  Forall (fun s => rP (sP P) (specifier_to_version_set s)) ss -> rP (sP P) (reduce_map f specifier_to_version_set ss).
Proof.
  intros F. destruct F as [|s ss S F]; [exact I|]. cbn [reduce_map]. apply (rP_bind (sP P) (sP P)); [exact S|]. intros a A. now apply reduce_from_P.
Qed.

Lemma convert_P (P : version -> Prop) s : spec_made s -> (forall t w u, leaf t w s -> op_bound t w u -> P u) -> rP (sP P) (specifier_to_version_set s).
Proof.
  induction s as [| |t w|ss IH|ss IH] using spec_members.
  - intros _ _. constructor.
  - intros _ _. repeat constructor.
  - intros M H. apply op_translate_P; [exact M|]. intros u. apply H. constructor.
  - rewrite made_any. intros [_ M] H. cbn [specifier_to_version_set]. apply reduce_map_P; [apply union_P|]. rewrite Forall_forall in *.
    intros s S. apply IH; auto. intros t w u L. apply H. now apply (leaf_any _ _ s).
  - rewrite made_all. intros [_ M] H. cbn [specifier_to_version_set]. apply reduce_map_P; [apply intersection_P|]. rewrite Forall_forall in *.
    intros s S. apply IH; auto. intros t w u L. apply H. now apply (leaf_all _ _ s).
Qed.

Theorem convert_bounds s a u : spec_made s -> specifier_to_version_set s = Ok a -> In u (bounds a) ->
  exists t w, leaf t w s /\ op_bound t w u.
Proof.
  intros M E. pose proof (convert_P (fun u => exists t w, leaf t w s /\ op_bound t w u) s M) as H.
  specialize (H (fun t w u L B => ex_intro _ t (ex_intro _ w (conj L B)))).
  rewrite E in H. cbn [rP] in H. rewrite sP_bounds, Forall_forall in H. apply H.
Qed.

(** ** Shape of the specifier of a set *)

Lemma each_leaf (P : op_type -> version -> Prop) s : each_op P s <-> forall t w, leaf t w s -> P t w.
Proof.
  induction s as [| |t w|ss IH|ss IH] using spec_members.
  - split; [intros _ t w L; inversion L|exact (fun _ => I)].
  - split; [intros _ t w L; inversion L|exact (fun _ => I)].
  - split; [intros H t' w' L; inversion L; subst; exact H|intros H; apply H; constructor].
  - rewrite each_op_any, Forall_forall in *. split.
    + intros H t w L. inversion L; subst. now apply (IH s); auto.
    + intros H s S. apply IH; auto. intros t w L. apply H. now apply (leaf_any _ _ s).
  - rewrite each_op_all, Forall_forall in *. split.
    + intros H t w L. inversion L; subst. now apply (IH s); auto.
    + intros H s S. apply IH; auto. intros t w L. apply H. now apply (leaf_all _ _ s).
Qed.

Lemma item_leaves (P : version -> Prop) i s : iP P i -> item_to_specifier i = Ok s -> each_op (fun t w => compares t /\ P w) s.
Proof.
  intros [H K]. destruct i as [v|m M b c]; cbn [item_to_specifier i_min i_max oP] in *.
  { intros E. inversion E. split; [exact I|exact H]. }
  unfold try_range_simple. destruct (item_is_empty _); [intros E; inversion E; exact I|]. destruct (item_is_universal _); [intros E; inversion E; exact I|].
  destruct (item_is_point _) eqn:E; cbn [bind].
  - cbn [item_version]. rewrite E. destruct m as [m|]; [|destruct M as [M|]]; cbn [bind]; intros S; inversion S; (split; [exact I|]); assumption.
  - unfold try_range_unwrap. destruct m as [m|], M as [M|]; intros S; inversion S; destruct b, c; repeat split; auto.
Qed.

Lemma items_leaves (P : version -> Prop) items : Forall (iP P) items -> forall ss, mapM item_to_specifier items = Ok ss ->
  Forall (each_op (fun t w => compares t /\ P w)) ss.
Proof.
  induction 1 as [|i items Bi B IH]; intros ss M; cbn [mapM] in M; [inversion M; constructor|].
  destruct (item_to_specifier i) as [s|] eqn:S; [|discriminate]. cbn [bind] in M. destruct (mapM item_to_specifier items) as [rest|]; [|discriminate].
  cbn [bind] in M. inversion M; subst. constructor; [now apply (item_leaves P i)|now apply IH].
Qed.

Theorem to_specifier_leaves a s t w : version_set_to_specifier a = Ok s -> leaf t w s -> compares t /\ In w (bounds a).
Proof.
  intros E. revert t w. apply (proj1 (each_leaf (fun t w => compares t /\ In w (bounds a)) s)).
  assert (B : sP (fun w => In w (bounds a)) a) by (apply sP_bounds, Forall_forall; auto).
  destruct a as [|i|items].
  - inversion E; subst. exact I.
  - inversion B as [|? ? Bi _]; subst. now apply (item_leaves _ i).
  - cbn [version_set_to_specifier] in E. destruct (exclude_version items) as [[v|]|] eqn:X; [| |discriminate]; cbn [bind] in E.
    + inversion E; subst. split; [exact I|]. unfold exclude_version in X. pose proof (complement_P _ _ B) as C.
      destruct (complement (Union items)) as [[|[p|]|]|]; try discriminate. cbn [bind] in X. inversion X; subst. cbn [rP] in C. inversion C as [|? ? [Ci _] _]. exact Ci.
    + destruct (mapM item_to_specifier items) as [ss|] eqn:M; [|discriminate]. cbn [bind] in E. inversion E; subst.
      assert (F : Forall (each_op (fun t w => compares t /\ In w (bounds (Union items)))) ss) by (apply (items_leaves (fun w => In w (bounds (Union items))) items); auto).
      destruct ss as [|s [|s' ss]]; cbn [any_of]; [exact I| |].
      * now inversion F.
      * now apply each_op_any.
Qed.

(** ** Normal form *)

Lemma worded_bare e r : r <> [] -> worded (bare e r).
Proof. intros N. split; [|exact I]. unfold bare, valid_version. cbn. now destruct r. Qed.

Lemma op_bound_worded t w u : worded w -> op_made t w -> op_bound t w u -> worded u.
Proof.
  intros W [V L] [-> | H]; auto. assert (N : v_release w <> []) by now destruct (valid_parts w V).
  assert (B : forall i r, bumped (v_release w) i r -> r <> []).
  { intros i r [H1 _] ->. cbn [List.length] in H1. lia. }
  assert (D : final w \/ ~ final w) by (destruct (is_stable w) eqn:S; [left; now apply stable_final|right; now apply unstable_final]).
  assert (Q : wildcard_upper w u -> worded u).
  { intros (r & -> & H1 & H2 & H3). apply worded_bare. destruct D as [F|F]; [|now rewrite (H3 F)].
    destruct (v_post w) eqn:E; [now apply (B _ _ (H2 F ltac:(discriminate)))|now apply (B _ _ (H1 F eq_refl))]. }
  destruct t; try contradiction; auto; destruct H as (r & -> & H); apply worded_bare.
  - now apply (B _ _ H).
  - destruct H as (H1 & H2 & H3). destruct D as [F|F]; [now apply (B _ _ (H1 F))|]. destruct (Z.eq_dec (part (v_release w) 0) 0) as [Z|Z]; [now rewrite (H2 F Z)|now apply (B _ _ (H3 F Z))].
  - destruct H as (H1 & H2). destruct D as [F|F]; [now apply (B _ _ (H1 F))|now rewrite (H2 F)].
Qed.

Lemma convert_worded s a : spec_made s -> each_op (fun _ w => worded w) s -> specifier_to_version_set s = Ok a -> Forall worded (bounds a).
Proof.
  intros M W E. apply Forall_forall. intros u U. destruct (convert_bounds s a u M E U) as (t & w & L & B).
  apply (op_bound_worded t w u); auto; [exact (proj1 (each_leaf _ s) W t w L)|].
  assert (K : each_op op_made s).
  { clear - M. induction s as [| |t w|ss IH|ss IH] using spec_members; try exact I; [exact M| |].
    - apply each_op_any. apply made_any in M as [_ M]. rewrite Forall_forall in *. auto.
    - apply each_op_all. apply made_all in M as [_ M]. rewrite Forall_forall in *. auto. }
  exact (proj1 (each_leaf _ s) K t w L).
Qed.

Lemma lax_paired s u : spec_eqb s u = true -> each_op op_lax s -> paired as_precise s u.
Proof.
  revert u. induction s as [| |t v|ss IH|ss IH] using spec_members; intros u H L; destruct u as [| |t' v'|us|us]; try discriminate H; try (constructor; fail).
  - constructor. left. exact L.
  - constructor. apply spec_eqb_any in H. apply each_op_any in L. induction H; constructor; inversion IH; subst; inversion L; subst; auto.
  - constructor. apply spec_eqb_all in H. apply each_op_all in L. induction H; constructor; inversion IH; subst; inversion L; subst; auto.
Qed.

Lemma compares_lax t w : compares t -> op_lax t w.
Proof. now destruct t. Qed.

Lemma to_specifier_made a s : canonical a -> Forall (fun v => valid_version v = true) (bounds a) -> version_set_to_specifier a = Ok s -> spec_made s.
Proof.
  intros C V E. assert (L : forall t w, leaf t w s -> op_made t w).
  { intros t w H. destruct (to_specifier_leaves a s t w E H) as [T B]. rewrite Forall_forall in V. split; [auto|]. intros ->. destruct T. }
  apply each_leaf in L. rewrite canonical_canon in C. destruct a as [|i|items].
  - inversion E. exact I.
  - cbn [version_set_to_specifier] in E. rewrite (item_to_specifier_eq i C) in E. inversion E; subst. clear - L. destruct i as [v|[m|] [M|] b c]; cbn in *; tauto || auto.
  - cbn [version_set_to_specifier] in E. destruct (exclude_version items) as [[v|]|] eqn:X; [| |discriminate]; cbn [bind] in E; [inversion E; subst; exact L|].
    destruct C as [Ch Len]. pose proof (chain_proper _ Ch) as F. rewrite mapM_items in E by assumption. cbn [bind] in E. inversion E; subst.
    assert (N : (2 <= List.length (map item_spec items))%nat) by now rewrite map_length. destruct (map item_spec items) as [|x [|y ss]] eqn:M; cbn [List.length] in N; [lia|lia|].
    cbn [any_of] in *. apply made_any. split; [exact N|]. apply each_op_any in L. rewrite <- M in *. clear - L. induction items as [|i items IH]; [constructor|].
    cbn [map] in *. inversion L; subst. constructor; [|now apply IH]. destruct i as [v|[m|] [M|] b c]; cbn in *; tauto || auto.
Qed.

Theorem simplified s u t w : simplify s = Ok u -> leaf t w u -> compares t.
Proof.
  unfold simplify. destruct (specifier_to_version_set s) as [a|]; [|discriminate]. cbn [bind]. intros E L. exact (proj1 (to_specifier_leaves a u t w E L)).
Qed.

Theorem normal_form s u s' u' : spec_made s -> each_op plain_op s -> each_op (fun _ w => worded w) s ->
  spec_made u -> each_op plain_op u -> each_op (fun _ w => worded w) u ->
  simplify s = Ok s' -> simplify u = Ok u' ->
  spec_eqb s' u' = true <-> forall v, worded v -> accepts s v = accepts u v.
Proof.
  intros Ms Ns Ws Mu Nu Wu Es Eu. pose proof Es as Es'. pose proof Eu as Eu'. unfold simplify in Es, Eu.
  destruct (specifier_to_version_set s) as [a|] eqn:A; [|discriminate]. destruct (specifier_to_version_set u) as [b|] eqn:B; [|discriminate]. cbn [bind] in Es, Eu.
  destruct (convert_accepts s a Ms Ns A) as [Ca Ka], (convert_accepts u b Mu Nu B) as [Cb Kb]. split.
  - intros E v _. destruct (simplify_same s s' Ms Ns Es') as [<- _]. destruct (simplify_same u u' Mu Nu Eu') as [<- _].
    apply spec_eq_accepts; [| |exact E|].
    + apply (to_specifier_made a); auto. apply (Forall_impl _ (P := worded)); [|now apply (convert_worded s)]. intros x X. apply X.
    + apply (to_specifier_made b); auto. apply (Forall_impl _ (P := worded)); [|now apply (convert_worded u)]. intros x X. apply X.
    + apply lax_paired; [exact E|]. apply each_leaf. intros t w L. apply compares_lax. exact (simplified s s' t w Es' L).
  - intros H. assert (E : set_eqb a b = true).
    { apply equal_worded; auto; [now apply (convert_worded s)|now apply (convert_worded u)|]. intros v W. specialize (H v W). rewrite Ka, Kb in H. rewrite <- !in_set_contains. assert (Q : contains a v = contains b v) by congruence. now rewrite Q. }
    destruct (set_to_specifier_eq a b Ca Cb E) as (x & y & X & Y & K). congruence.
Qed.

(** ** Specifiers that were parsed *)

Lemma grouped_ops (P : op_type -> version -> Prop) (mk : list spec -> spec) ss : (mk = AnyOf \/ mk = AllOf) -> Forall (each_op P) ss -> each_op P (Clauses.grouped mk ss).
Proof.
  intros K F. unfold Clauses.grouped. destruct ss as [|s [|s' ss]]; [destruct K as [-> | ->]; exact I|now inversion F|].
  destruct K as [-> | ->]; [now apply each_op_any|now apply each_op_all].
Qed.

Theorem parsed_writable s p : parse_specifier s = Ok p -> each_op writable p.
Proof.
  intros H. apply parse_specifier_ok in H as (css & xss & _ & F & ->). unfold spec_of. apply grouped_ops; auto. apply Forall_map.
  induction F as [|cs xs css xss F _ IH]; constructor; auto. apply grouped_ops; auto. apply Forall_map.
  clear - F. induction F as [|c x cs xs C _ IH]; constructor; auto. now apply proper_writable in C.
Qed.

Lemma wf_worded v : wf v -> worded v.
Proof.
  intros W. split; [now apply wf_valid|]. destruct W as (_ & _ & _ & _ & _ & _ & L). destruct (v_local v) as [l|]; auto. destruct L as [_ L].
  eapply Forall_impl; [|exact L]. intros [n|x] X; auto.
Qed.

Lemma each_op_impl (P Q : op_type -> version -> Prop) s : (forall t w, P t w -> Q t w) -> each_op P s -> each_op Q s.
Proof. rewrite !each_leaf. auto. Qed.

Theorem parsed_normal_form x y s u s' u' : parse_specifier x = Ok s -> parse_specifier y = Ok u -> simplify s = Ok s' -> simplify u = Ok u' ->
  spec_eqb s' u' = true <-> forall v, worded v -> accepts s v = accepts u v.
Proof.
  intros X Y. destruct (parsed_made x s X) as [Ms Ns], (parsed_made y u Y) as [Mu Nu]. apply normal_form; auto.
  - apply (each_op_impl writable); [|now apply (parsed_writable x)]. intros t w [W _]. now apply wf_worded.
  - apply (each_op_impl writable); [|now apply (parsed_writable y)]. intros t w [W _]. now apply wf_worded.
Qed.

Theorem parsed_leaves s p t w : parse_specifier s = Ok p -> leaf t w p -> wf w /\ op_made t w.
Proof. intros H L. destruct (proj1 (each_leaf writable p) (parsed_writable s p H) t w L) as (W & M & _). now split. Qed.

(** Nothing that can be written lies below the lowest version. *)
Theorem below_everything : exists s u s' u', parse_specifier (lit "<0.dev0") = Ok s /\ parse_specifier (lit "<1,>1") = Ok u
  /\ simplify s = Ok s' /\ simplify u = Ok u' /\ spec_eqb s' u' = false
  /\ forall v, wf v -> accepts s v = Ok false /\ accepts u v = Ok false.
Proof.
  exists (One LESS lowest), (AllOf [One LESS (bare 0 [1]); One GREATER (bare 0 [1])]), (One LESS lowest), Never.
  do 4 (split; [vm_compute; reflexivity|]). split; [reflexivity|]. intros v W. split.
  - cbn [accepts op_matches]. unfold matches_less. f_equal. destruct total_order as (T & _ & _ & _ & G & _). specialize (T v lowest). rewrite G, v_eq_sym in T.
    destruct (lowest_le v W) as [L|L]; rewrite L in T; intuition congruence.
  - cbn [accepts all_r op_matches]. unfold matches_less, matches_greater. cbn [bind]. destruct total_order as (T & _). specialize (T v (bare 0 [1])).
    destruct (v_lt v (bare 0 [1])); [|reflexivity]. cbn [bind]. destruct T as [(_ & _ & ->)|[T|T]]; [reflexivity|intuition discriminate..].
Qed.
