(** What the parser of single specifications returns. *)

From Coq Require Import List ZArith NArith String Bool Arith Lia.
From Verif Require Import Py Segments Version VersionSets Operators Specifiers Regex Patterns Parsers Orders Grammar Clauses
  RegexFacts Unambiguous VersionRegex ParseFacts ParseTheorems ClauseRegex.
Import ListNotations.

(** ** Heads *)

Lemma digit_sym c : digit c -> sym c = false.
Proof. unfold digit, sym. intros H. rewrite !orb_false_iff, !N.eqb_neq. lia. Qed.

Lemma head_stops v e f r : opt (fun c => c = 118%N \/ c = 86%N) v -> opt digits e -> f <> [] -> stops sym f ->
  stops sym (one v ++ spell (fun d => d ++ [33%N]) e ++ f ++ r).
Proof.
  intros V E N S. destruct v as [c|]; [destruct V as [-> | ->]; reflexivity|]. cbn [one app].
  destruct e as [[|c d]|]; cbn [spell app]; [now destruct E| |].
  - destruct E as [_ E]. inversion E; subst. now apply digit_sym.
  - destruct f; [now destruct N|exact S].
Qed.

Lemma digits_stops d : digits d -> stops sym d.
Proof. intros [N F]. destruct d; [now destruct N|]. inversion F; subst. now apply digit_sym. Qed.

Lemma loose_head t : loose t -> stops sym (text t).
Proof.
  intros (V & E & F & _). unfold text, public_text, release_text. rewrite <- !app_assoc. apply head_stops; auto; [apply F|now apply digits_stops].
Qed.

Lemma wild_head c t u : any_wildcard c -> wild c t u -> loose t -> stops sym (text u).
Proof.
  intros C W (V & E & F & _). unfold text, public_text, release_text.
  assert (S : sym c = false) by (destruct C as [-> | [-> | ->]]; reflexivity).
  destruct W; cbn [g_v g_epoch g_first g_more] in *; rewrite <- !app_assoc; apply head_stops; auto; try apply F; try now apply digits_stops. discriminate.
Qed.

Lemma version_head u ds : D VERSION u ds -> stops sym u.
Proof. intros H. apply D_version in H as (t & L & -> & _). now apply loose_head. Qed.

Lemma public_head u ds : D PUBLIC_VERSION u ds -> stops sym u.
Proof.
  intros H. apply D_public in H as (t & L & G & -> & _). apply loose_head in L. unfold text in L. rewrite G in L. cbn [spell] in L. now rewrite app_nil_r in L.
Qed.

Lemma wildcard_head u ds : D WILDCARD_VERSION u ds -> stops sym u.
Proof. intros H. apply wild_sound in H as (c & t & v & C & W & L & -> & _). now apply (wild_head c t). Qed.

(** ** Texts *)

Lemma D_version_tree u : (exists ds, D VERSION u ds) <-> exists t, tree t /\ u = text t.
Proof.
  split.
  - intros (ds & H). apply D_version in H as (t & L & -> & _). exists (regroup t). destruct (regroup_tree t L) as (A & B & _). auto.
  - intros (t & T & ->). exists (all_caps t). apply D_version. exists t. split; auto. now apply tree_loose in T.
Qed.

Lemma D_public_tree u : (exists ds, D PUBLIC_VERSION u ds) <-> exists t, tree t /\ g_local t = None /\ u = text t.
Proof.
  split.
  - intros (ds & H). apply D_public in H as (t & L & G & -> & _). exists (regroup t). destruct (regroup_tree t L) as (A & B & C).
    split; auto. rewrite C. split; auto. rewrite B. unfold text. rewrite G. cbn [spell]. now rewrite app_nil_r.
  - intros (t & T & G & ->). exists (public_caps t). apply D_public. exists t. split; [now apply tree_loose in T|]. split; auto. split; auto.
    unfold text. rewrite G. cbn [spell]. now rewrite app_nil_r.
Qed.

Lemma wild_text c t u : wild c t u -> exists a, text t = a ++ [48%N] /\ text u = a ++ [c] /\ g_local t = None.
Proof.
  intros W. unfold text, public_text, release_text, tag_text, tag_word. destruct W; cbn [g_v g_epoch g_first g_more g_pre g_post g_dev g_local spell post_text];
    unfold tag_text, tag_word; cbn [g_sep g_word g_value fst snd spell map List.concat]; rewrite ?map_app, ?concat_app; cbn [map List.concat]; rewrite ?app_nil_r.
  - eexists. rewrite !app_assoc. eauto.
  - eexists. change [46%N; 48%N] with ([46%N] ++ [48%N]). change [46%N; c] with ([46%N] ++ [c]). rewrite !app_assoc. eauto.
  - eexists. rewrite !app_assoc. eauto.
  - eexists. change [45%N; 48%N] with ([45%N] ++ [48%N]). change [45%N; c] with ([45%N] ++ [c]). rewrite !app_assoc. eauto.
  - eexists. rewrite !app_assoc. eauto.
  - eexists. rewrite !app_assoc. eauto.
Qed.

Lemma wild_plain c t u : wild c t u -> loose t -> exists a, text t = a ++ [48%N] /\ text u = a ++ [c] /\ forallb plain a = true.
Proof.
  intros W L. destruct (wild_text c t u W) as (a & A & B & G). exists a. split; auto. split; auto.
  apply plain_public in L. unfold text in A. rewrite G in A. cbn [spell] in A. rewrite app_nil_r in A. rewrite A, forallb_app in L. now apply andb_true_iff in L.
Qed.

Lemma replace_plain a : forallb plain a = true -> replace_char 42 48 (replace_char 120 42 a) = a.
Proof.
  unfold replace_char. rewrite map_map. induction a as [|c a IH]; auto. cbn [forallb map]. intros H. apply andb_true_iff in H as [H F]. rewrite IH by auto. f_equal.
  unfold plain in H. rewrite negb_true_iff, !orb_false_iff, !N.eqb_neq in H. destruct H as [[[H1 H2] H3] H4].
  destruct (N.eqb_spec c 120) as [-> |X]; [now destruct H2|]. destruct (N.eqb_spec c 42); auto. contradiction.
Qed.

Lemma replace_app a b x y : replace_char x y (a ++ b) = replace_char x y a ++ replace_char x y b.
Proof. apply map_app. Qed.

Lemma wild_replace c t u : wild c t u -> loose t -> wildcard c -> replace_char 42 48 (replace_char 120 42 (text u)) = text t.
Proof.
  intros W L C. destruct (wild_plain c t u W L) as (a & -> & -> & P). rewrite !replace_app, replace_plain by auto. f_equal. destruct C as [-> | ->]; reflexivity.
Qed.

(** A text with a wildcard is not a version. *)
Lemma not_plain_version a c t : forallb plain a = true -> plain c = false -> c <> 43%N -> loose t -> a ++ [c] <> text t.
Proof.
  intros A C N L E. pose proof (plain_public t L) as P. unfold text in E.
  assert (X : a ++ [c] = public_text t).
  { apply (split_plus _ _ [] (spell (fun l => 43%N :: local_text l) (g_local t))); auto.
    - intros x Hx. apply in_app_iff in Hx as [Hx|[<-|[]]]; auto. now apply (not_plus a).
    - intros x. now apply not_plus.
    - destruct (g_local t); cbn; auto.
    - now rewrite app_nil_r. }
  rewrite <- X, forallb_app in P. cbn in P. rewrite C in P. now rewrite andb_false_r in P.
Qed.

Lemma wildcard_not_plain c : any_wildcard c -> plain c = false /\ c <> 43%N.
Proof. intros [-> | [-> | ->]]; split; reflexivity || discriminate. Qed.

Lemma wild_not_version c t u t' : any_wildcard c -> wild c t u -> loose t -> loose t' -> text u <> text t'.
Proof.
  intros C W L L'. destruct (wild_plain c t u W L) as (a & _ & -> & P). apply wildcard_not_plain in C as [C1 C2]. now apply not_plain_version.
Qed.

Lemma wild_last c t u c' t' u' : wild c t u -> wild c' t' u' -> text u = text u' -> c = c'.
Proof.
  intros W W' E. apply wild_text in W as (a & _ & A & _). apply wild_text in W' as (b & _ & B & _). rewrite A, B in E. now apply app_inj_tail in E.
Qed.

(** ** Operators *)

Definition eq_strs : list pstr := [lit "=="; lit "="; lit "!="].

Lemma strs_sym l : forallb (fun o => negb (str_eqb o []) && forallb sym o) l = true -> forall o, In o l -> o <> [] /\ forallb sym o = true.
Proof. rewrite forallb_forall. intros H o Ho. apply H in Ho. apply andb_true_iff in Ho as [A B]. split; auto. now intros ->. Qed.

Lemma version_no_operator : ~ In (group_index G_OPERATOR) (groups VERSION).
Proof. vm_compute. intuition discriminate. Qed.
Lemma public_no_operator : ~ In (group_index G_OPERATOR) (groups PUBLIC_VERSION).
Proof. vm_compute. intuition discriminate. Qed.
Lemma wildcard_no_operator : ~ In (group_index G_OPERATOR) (groups WILDCARD_VERSION).
Proof. vm_compute. intuition discriminate. Qed.

Lemma equal_ops_strs o t : In (o, t) equal_ops -> (o = [] \/ In o eq_strs) /\
  (match given o with None => Ok EQUAL | Some o => op_of_value o end = Ok t).
Proof.
  unfold equal_ops. cbn [In]. intros H. repeat (destruct H as [H|H]; [injection H as <- <-; split; [cbn; auto 6|reflexivity]|]). destruct H.
Qed.

Lemma strs_equal_ops o : o = [] \/ In o eq_strs -> exists t, In (o, t) equal_ops.
Proof. cbn. intros [<-|[<-|[<-|[<-|[]]]]]; eexists; cbn; eauto 6. Qed.

Lemma wild_ops_strs o t : In (o, t) wild_ops -> (o = [] \/ In o eq_strs) /\
  (match given o with None => Ok WILDCARD_EQUAL | Some o => op_of_value (o ++ lit "*") end = Ok t).
Proof.
  unfold wild_ops. cbn [In]. intros H. repeat (destruct H as [H|H]; [injection H as <- <-; split; [cbn; auto 6|reflexivity]|]). destruct H.
Qed.

Lemma strs_wild_ops o : o = [] \/ In o eq_strs -> exists t, In (o, t) wild_ops.
Proof. cbn. intros [<-|[<-|[<-|[<-|[]]]]]; eexists; cbn; eauto 6. Qed.

(** ** The parsers *)

Definition outcome (t : op_type) (v : gversion) : result spec :=
  if lower_caseb v then one_new t (reading v) else Err ValueError.

Lemma eq_strs_ok : forall o, In o eq_strs -> o <> [] /\ forallb sym o = true.
Proof. now apply strs_sym. Qed.

Lemma eq_strs_some : eq_strs <> [].
Proof. discriminate. Qed.

Lemma try_equal o t v : In (o, t) equal_ops -> tree v -> try_parse_equal (o ++ text v) = bind (outcome t v) (fun s => Ok (Some s)).
Proof.
  intros O T. apply equal_ops_strs in O as [O E]. assert (H : exists ds, D VERSION (text v) ds) by (apply D_version_tree; eauto). destruct H as [ds H].
  destruct (optional_match eq_strs eq_strs_ok eq_strs_some VERSION version_head version_no_operator o (text v) ds O H) as (m & M & M1 & M2).
  unfold try_parse_equal, EQUAL_SPECIFICATION, EQUAL_OPERATOR. fold eq_strs. rewrite M, M1, M2, E. cbn [bind]. rewrite parse_tree by auto.
  unfold outcome. destruct (lower_caseb v); reflexivity.
Qed.

Lemma try_equal_none s : (forall o t v, In (o, t) equal_ops -> tree v -> s <> o ++ text v) -> try_parse_equal s = Ok None.
Proof.
  intros N. unfold try_parse_equal, EQUAL_SPECIFICATION, EQUAL_OPERATOR. fold eq_strs. rewrite (optional_none eq_strs eq_strs_ok eq_strs_some); auto.
  intros o u ds O H. apply strs_equal_ops in O as [t O]. assert (X : exists v, tree v /\ u = text v) by (apply D_version_tree; eauto).
  destruct X as (v & T & ->). eauto.
Qed.

Lemma try_wild o t c v u : In (o, t) wild_ops -> any_wildcard c -> wild c v u -> tree v ->
  try_parse_wildcard (o ++ text u) = if (c =? 88)%N then Err ParseVersionError else bind (outcome t v) (fun s => Ok (Some s)).
Proof.
  intros O C W T. apply wild_ops_strs in O as [O E]. assert (H : D WILDCARD_VERSION (text u) []) by (apply wild_iff; split; eauto 8).
  destruct (optional_match eq_strs eq_strs_ok eq_strs_some WILDCARD_VERSION wildcard_head wildcard_no_operator o (text u) [] O H) as (m & M & M1 & M2).
  unfold try_parse_wildcard, WILDCARD_SPECIFICATION, EQUAL_OPERATOR. fold eq_strs. rewrite M, M1, M2, E. cbn [bind].
  apply tree_loose in T as T'. destruct T' as [L _].
  destruct (N.eqb_spec c 88) as [-> |X].
  - rewrite parse_no_tree; auto. intros (t' & T' & E'). apply tree_loose in T' as [L' _].
    destruct (wild_plain 88%N v u W L) as (a & _ & B & P). rewrite B, !replace_app, replace_plain in E' by auto.
    symmetry in E'. revert E'. apply not_plain_version; auto. discriminate.
  - rewrite (wild_replace c v u), parse_tree; auto; [unfold outcome; destruct (lower_caseb v); reflexivity|].
    destruct C as [C|[C|C]]; [left|right|]; auto. contradiction.
Qed.

Lemma try_wild_none s : (forall o t c v u, In (o, t) wild_ops -> any_wildcard c -> wild c v u -> tree v -> s <> o ++ text u) -> try_parse_wildcard s = Ok None.
Proof.
  intros N. unfold try_parse_wildcard, WILDCARD_SPECIFICATION, EQUAL_OPERATOR. fold eq_strs. rewrite (optional_none eq_strs eq_strs_ok eq_strs_some); auto.
  intros o u ds O H. apply strs_wild_ops in O as [t O]. apply wild_iff in H as [(c & v & w & C & W & T & ->) ->]. eauto.
Qed.

Definition op_strs (l : list (pstr * op_type)) : list pstr := map fst l.

Section Public.
  Variable l : list (pstr * op_type).
  Variable ops : list pstr.
  Hypothesis ops_l : forall o, In o ops -> In o (op_strs l).
  Hypothesis l_ops : forall o t, In (o, t) l -> In o ops /\ op_of_value o = Ok t.
  Hypothesis ops_ok : forallb (fun o => negb (str_eqb o []) && forallb sym o) ops = true.
  Hypothesis ops_some : ops <> [].

  Lemma try_public o t v : In (o, t) l -> tree v -> g_local v = None ->
    try_parse_with (Cat (Grp G_OPERATOR (alts ops)) (Grp G_VERSION PUBLIC_VERSION)) (o ++ text v) = bind (outcome t v) (fun s => Ok (Some s)).
  Proof.
    intros O T G. apply l_ops in O as [O E]. assert (H : exists ds, D PUBLIC_VERSION (text v) ds) by (apply D_public_tree; eauto). destruct H as [ds H].
    destruct (operator_match ops (strs_sym ops ops_ok) ops_some PUBLIC_VERSION public_head public_no_operator o (text v) ds O H) as (m & M & M1 & M2).
    unfold try_parse_with. rewrite M, M1, M2, E. cbn [bind]. rewrite parse_tree by auto. unfold outcome. destruct (lower_caseb v); reflexivity.
  Qed.

  Lemma try_public_none s : (forall o t v, In (o, t) l -> tree v -> g_local v = None -> s <> o ++ text v) ->
    try_parse_with (Cat (Grp G_OPERATOR (alts ops)) (Grp G_VERSION PUBLIC_VERSION)) s = Ok None.
  Proof.
    intros N. unfold try_parse_with. rewrite (operator_none ops (strs_sym ops ops_ok) ops_some); auto.
    intros o u ds O H. apply ops_l in O. unfold op_strs in O. apply in_map_iff in O as ([o' t] & <- & O).
    assert (X : exists v, tree v /\ g_local v = None /\ u = text v) by (apply D_public_tree; eauto).
    destruct X as (v & T & G & ->). cbn [fst]. eauto.
  Qed.
End Public.

Definition order_ops : list (pstr * op_type) := [(lit "<", LESS); (lit "<=", LESS_OR_EQUAL); (lit ">", GREATER); (lit ">=", GREATER_OR_EQUAL)].
Definition caret_ops : list (pstr * op_type) := [(lit "^", CARET)].
Definition tilde_ops : list (pstr * op_type) := [(lit "~", TILDE); (lit "~=", TILDE_EQUAL)].

Ltac op_cases H := cbn in H; repeat (destruct H as [H|H]; [try injection H as <- <-; try subst; cbn; auto 8|]); destruct H.

Lemma order_strs : (forall o, In o [lit "<="; lit ">="; lit "<"; lit ">"] -> In o (op_strs order_ops))
  /\ forall o t, In (o, t) order_ops -> In o [lit "<="; lit ">="; lit "<"; lit ">"] /\ op_of_value o = Ok t.
Proof. split; intros; op_cases H. Qed.
Lemma caret_strs : (forall o, In o [lit "^"] -> In o (op_strs caret_ops)) /\ forall o t, In (o, t) caret_ops -> In o [lit "^"] /\ op_of_value o = Ok t.
Proof. split; intros; op_cases H. Qed.
Lemma tilde_strs : (forall o, In o [lit "~="; lit "~"] -> In o (op_strs tilde_ops))
  /\ forall o t, In (o, t) tilde_ops -> In o [lit "~="; lit "~"] /\ op_of_value o = Ok t.
Proof. split; intros; op_cases H. Qed.

Definition all_strs : list pstr := op_strs (equal_ops ++ public_ops).

Lemma all_strs_sym o : In o all_strs -> forallb sym o = true.
Proof. intros H. op_cases H. Qed.

Lemma strs_neq o t v o' t' v' : In (o, t) (equal_ops ++ public_ops ++ wild_ops) -> In (o', t') (equal_ops ++ public_ops ++ wild_ops) -> stops sym v -> stops sym v' ->
  o ++ v = o' ++ v' -> o = o' /\ v = v'.
Proof.
  assert (S : forall o t, In (o, t) (equal_ops ++ public_ops ++ wild_ops) -> forallb sym o = true) by (clear; intros o t H; op_cases H).
  intros A B H H' E. apply op_split in E; auto; eapply S; eauto.
Qed.

Lemma tree_head t : tree t -> stops sym (text t).
Proof. intros T. apply loose_head. now apply tree_loose in T. Qed.
Lemma wild_tree_head c t u : any_wildcard c -> wild c t u -> tree t -> stops sym (text u).
Proof. intros C W T. apply (wild_head c t); auto. now apply tree_loose in T. Qed.

Lemma in_equal x : In x equal_ops -> In x (equal_ops ++ public_ops ++ wild_ops).
Proof. rewrite !in_app_iff. auto. Qed.
Lemma in_public x : In x public_ops -> In x (equal_ops ++ public_ops ++ wild_ops).
Proof. rewrite !in_app_iff. auto. Qed.
Lemma in_wild x : In x wild_ops -> In x (equal_ops ++ public_ops ++ wild_ops).
Proof. rewrite !in_app_iff. auto. Qed.

Lemma public_cases x : In x public_ops <-> In x order_ops \/ In x caret_ops \/ In x tilde_ops.
Proof. cbn. tauto. Qed.

(** Operators of different kinds are different strings. *)
Definition apart (l m : list (pstr * op_type)) : bool := forallb (fun a => forallb (fun b => negb (str_eqb (fst a) (fst b))) m) l.

Lemma apart_neq l m o t t' : apart l m = true -> In (o, t) l -> In (o, t') m -> False.
Proof.
  unfold apart. rewrite forallb_forall. intros H A B. apply H in A. rewrite forallb_forall in A. apply A in B. cbn in B.
  now rewrite (proj2 (str_eqb_eq o o) eq_refl) in B.
Qed.

Theorem single_clause s t v : clause s t v -> parse_single s = outcome t v.
Proof.
  intros H. unfold parse_single, first_parser. destruct H as [o O T -> |o O T G -> |o c u O C W T ->].
  - rewrite try_wild_none. cbn [bind]. unfold try_parse_order, ORDER_SPECIFICATION.
    rewrite (try_public_none order_ops _ (proj1 order_strs)) by
      first [reflexivity|discriminate|intros o' t' v' O' T' G' E; apply (strs_neq o t _ o' t') in E as [<- _]; [|now apply in_equal|apply in_public, public_cases; auto|now apply tree_head..]; revert O O'; now apply apart_neq].
    cbn [bind]. rewrite (try_equal o t v) by auto. unfold outcome. destruct (lower_caseb v); [unfold one_new; destruct (op_valid t (reading v))|]; reflexivity.
    intros o' t' c v' u' O' C W T' E. apply (strs_neq o t _ o' t') in E as [_ E]; [|now apply in_equal|now apply in_wild|now apply tree_head|now apply (wild_tree_head c v')].
    symmetry in E. revert E. apply (wild_not_version c v'); auto; [now apply tree_loose in T'|now apply tree_loose in T].
  - rewrite try_wild_none by
      (intros o' t' c v' u' O' C W T' E; apply (strs_neq o t _ o' t') in E as [<- _]; [|now apply in_public|now apply in_wild|now apply tree_head|now apply (wild_tree_head c v')]; revert O O'; now apply apart_neq).
    cbn [bind].
    assert (NE : try_parse_equal (o ++ text v) = Ok None).
    { apply try_equal_none. intros o' t' v' O' T' E. apply (strs_neq o t _ o' t') in E as [<- _]; [|now apply in_public|now apply in_equal|now apply tree_head..]; revert O O'; now apply apart_neq. }
    apply public_cases in O as P. unfold try_parse_order, try_parse_caret, try_parse_tilde, ORDER_SPECIFICATION, CARET_SPECIFICATION, TILDE_SPECIFICATION.
    destruct P as [P|[P|P]].
    + rewrite (try_public order_ops _ (proj2 order_strs) eq_refl ltac:(discriminate) o t v) by auto.
      unfold outcome. destruct (lower_caseb v); [unfold one_new; destruct (op_valid t (reading v))|]; reflexivity.
    + rewrite (try_public_none order_ops _ (proj1 order_strs)) by
        first [reflexivity|discriminate|intros o' t' v' O' T' G' E; apply (strs_neq o t _ o' t') in E as [<- _]; [|now apply in_public|apply in_public, public_cases; auto|now apply tree_head..]; revert P O'; now apply apart_neq].
      cbn [bind]. rewrite NE. cbn [bind].
      rewrite (try_public caret_ops _ (proj2 caret_strs) eq_refl ltac:(discriminate) o t v) by auto.
      unfold outcome. destruct (lower_caseb v); [unfold one_new; destruct (op_valid t (reading v))|]; reflexivity.
    + rewrite (try_public_none order_ops _ (proj1 order_strs)) by
        first [reflexivity|discriminate|intros o' t' v' O' T' G' E; apply (strs_neq o t _ o' t') in E as [<- _]; [|now apply in_public|apply in_public, public_cases; auto|now apply tree_head..]; revert P O'; now apply apart_neq].
      cbn [bind]. rewrite NE. cbn [bind].
      rewrite (try_public_none caret_ops _ (proj1 caret_strs)) by
        first [reflexivity|discriminate|intros o' t' v' O' T' G' E; apply (strs_neq o t _ o' t') in E as [<- _]; [|now apply in_public|apply in_public, public_cases; auto|now apply tree_head..]; revert P O'; now apply apart_neq].
      cbn [bind].
      rewrite (try_public tilde_ops _ (proj2 tilde_strs) eq_refl ltac:(discriminate) o t v) by auto.
      unfold outcome. destruct (lower_caseb v); [unfold one_new; destruct (op_valid t (reading v))|]; reflexivity.
  - rewrite (try_wild o t c v u); auto; [|destruct C; [left|right; left]; auto].
    destruct (N.eqb_spec c 88) as [-> |_]; [destruct C; discriminate|].
    unfold outcome. destruct (lower_caseb v); [unfold one_new; destruct (op_valid t (reading v))|]; reflexivity.
Qed.

Theorem single_capital s : capital_wild s -> parse_single s = Err ParseVersionError.
Proof.
  intros (o & t & v & u & O & W & T & ->). unfold parse_single, first_parser. rewrite (try_wild o t 88%N v u); auto. right. now right.
Qed.

Theorem single_other s : (forall t v, ~ clause s t v) -> ~ capital_wild s -> parse_single s = Err ParseSpecificationError.
Proof.
  intros N NC. unfold parse_single, first_parser. rewrite try_wild_none.
  - cbn [bind]. unfold try_parse_order, try_parse_caret, try_parse_tilde, ORDER_SPECIFICATION, CARET_SPECIFICATION, TILDE_SPECIFICATION.
    rewrite (try_public_none order_ops _ (proj1 order_strs)) by
      first [reflexivity|discriminate|intros o t v O T G E; apply (N t v), (clause_public s t v o); auto; apply public_cases; auto].
    cbn [bind]. rewrite try_equal_none by (intros o t v O T E; now apply (N t v), (clause_equal s t v o)). cbn [bind].
    rewrite (try_public_none caret_ops _ (proj1 caret_strs)) by
      first [reflexivity|discriminate|intros o t v O T G E; apply (N t v), (clause_public s t v o); auto; apply public_cases; auto].
    cbn [bind].
    rewrite (try_public_none tilde_ops _ (proj1 tilde_strs)) by
      first [reflexivity|discriminate|intros o t v O T G E; apply (N t v), (clause_public s t v o); auto; apply public_cases; auto].
    reflexivity.
  - intros o t c v u O C W T E. assert (X : wildcard c \/ c = 88%N) by (unfold wildcard; destruct C; tauto).
    destruct X as [X| ->].
    + now apply (N t v), (clause_wild s t v o c u).
    + apply NC. now exists o, t, v, u.
Qed.
