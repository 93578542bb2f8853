(** Printed specifiers that do not parse. *)

From Coq Require Import List ZArith NArith String Bool Arith Lia.
From Verif Require Import Py Segments Version VersionSets Operators SetStrings Specifiers Regex Patterns Parsers Orders Spec OrderFacts OperatorFacts
  Grammar Clauses RegexFacts Unambiguous VersionRegex ParseFacts ParseTheorems ClauseRegex ClauseFacts SpecText SpecParse SpecStrings.
Import ListNotations.

(** ** The letter n *)

(** Every n comes after a plus sign. *)
Definition after_plus (s : pstr) : Prop := forall a b, s = a ++ 110%N :: b -> In 43%N a.

Lemma app_split {A} (x y a : list A) c b : x ++ y = a ++ c :: b -> (exists r, x = a ++ c :: r) \/ (exists r, a = x ++ r /\ y = r ++ c :: b).
Proof.
  revert a. induction x as [|d x IH]; intros a E.
  - right. exists a. auto.
  - destruct a as [|e a]; cbn [app] in E; injection E as -> E; [left; exists x; reflexivity|]. destruct (IH a E) as [(r & ->)|(r & -> & F)]; [left|right]; exists r; auto.
Qed.

Lemma after_app x y : after_plus x -> after_plus y -> after_plus (x ++ y).
Proof.
  intros X Y a b E. apply app_split in E as [(r & E)|(r & -> & E)]; [eapply X; eauto|]. apply in_app_iff. right. eapply Y; eauto.
Qed.

Lemma after_plain s : forallb (fun c => negb (c =? 110)%N) s = true -> after_plus s.
Proof. intros H a b ->. rewrite forallb_app in H. cbn [forallb] in H. apply andb_true_iff in H as [_ H]. discriminate H. Qed.

Lemma plain_n s : forallb plain s = true -> after_plus s.
Proof.
  intros H. apply after_plain. rewrite forallb_forall in *. intros c Hc. apply H in Hc. destruct (N.eqb_spec c 110) as [-> |]; auto.
Qed.

Lemma after_local s : after_plus (43%N :: s).
Proof. intros [|c a] b E; [discriminate|]. injection E as <- E. now left. Qed.

Lemma text_after t : tree t -> after_plus (text t).
Proof.
  intros T. apply tree_loose in T as [L _]. unfold text. apply after_app; [now apply plain_n, plain_public|]. destruct (g_local t); cbn [spell]; [apply after_local|now apply after_plain].
Qed.

Lemma clause_after s t v : clause s t v -> after_plus s.
Proof.
  assert (K : forall o t, In (o, t) (equal_ops ++ public_ops ++ wild_ops) -> after_plus o) by (clear; intros o t H; apply after_plain; op_cases H).
  intros [o O T -> |o O T G -> |o c u O C W T ->].
  - apply after_app; [eapply K, in_equal, O|now apply text_after].
  - apply after_app; [eapply K, in_public, O|now apply text_after].
  - apply after_app; [eapply K, in_wild, O|]. apply tree_loose in T as [L _]. destruct (wild_plain c v u W L) as (a & _ & -> & P).
    apply after_app; [now apply plain_n|]. apply after_plain. destruct C as [-> | ->]; reflexivity.
Qed.

Lemma conjuncts_after cs : forall c, Forall after_plus (c :: cs) -> after_plus (conjuncts c cs).
Proof.
  induction cs as [|d cs IH]; intros c F; inversion F; subst; auto. cbn [conjuncts]. apply after_app; auto. apply after_app; auto. now apply after_plain.
Qed.

Lemma alternatives_after cs : forall c, Forall after_plus (c :: map snd cs) -> after_plus (alternatives c cs).
Proof.
  induction cs as [|[b d] cs IH]; intros c F; inversion F; subst; auto. cbn [alternatives]. apply after_app; auto. apply after_app; auto. now apply after_plain; destruct b.
Qed.

Lemma visible_idem s : visible (visible s) = visible s.
Proof. apply visible_fixed. apply Forall_forall. intros c H. unfold visible in H. apply filter_In in H as [_ H]. now apply negb_true_iff in H. Qed.

Lemma specified_after s css : specification s css -> Forall (Forall after_plus) css -> after_plus (visible s).
Proof.
  intros (c & cs & al & -> & U & R) F. apply respaced_visible in R. rewrite R. rewrite visible_fixed.
  - inversion F as [|? ? F1 F2]; subst. apply alternatives_after. constructor; [now apply conjuncts_after|]. rewrite map_map. cbn [snd]. apply Forall_map. rewrite Forall_map in F2.
    eapply Forall_impl; [|exact F2]. intros x. apply conjuncts_after.
  - assert (G : forall c cs, Forall (fun c => c <> [] /\ unbroken c) (c :: cs) -> Forall (fun x => is_space x = false) (conjuncts c cs)).
    { intros d ds H. apply conjuncts_forall; [reflexivity|]. eapply Forall_impl; [|exact H]. intros x [_ X]. eapply Forall_impl; [|exact X]. intros y (_ & _ & Y).
      destruct (is_space y) eqn:E; auto. now apply white_iff in E. }
    inversion U as [|? ? U1 U2]; subst. apply alternatives_forall; [reflexivity|]. constructor; auto. rewrite map_map. cbn [snd]. apply Forall_map. rewrite Forall_map in U2.
    eapply Forall_impl; [|exact U2]. intros x X. auto.
Qed.

Lemma parsed_after s p : parse_specifier s = Ok p -> after_plus (visible s).
Proof.
  intros H. apply parse_specifier_ok in H as (css & xss & S & F & _). apply (specified_after s css S).
  clear - F. induction F as [|cs xs css xss H F IH]; constructor; auto. clear - H. induction H as [|c x cs xs H F IH]; constructor; auto. destruct H as [H _]. now apply clause_after in H.
Qed.

(** ** Candidates *)

Lemma candidate_text v : wf v -> candidate v = true -> exists a b, to_string v = a ++ 110%N :: b /\ forallb plain a = true.
Proof.
  intros W C. unfold candidate in C. destruct (v_pre v) as [u|] eqn:V; [|discriminate]. apply str_eqb_eq in C.
  set (w := Version (v_epoch v) (v_release v) None None None None).
  assert (WW : wf w) by (destruct W as (WE & WR & WN & _); repeat split; auto).
  destruct (short_tree_ok w WW) as (T & _). apply tree_loose in T as [L _]. apply plain_public in L.
  exists (public_text (short_tree w) ++ lit "-ca"). rewrite <- (long_text v W). unfold text, public_text, short_tree, long_tree, vtree, w. rewrite V.
  cbn [v_epoch v_release v_pre v_post v_dev v_local g_v g_epoch g_first g_more g_pre g_post g_dev g_local spell option_map one app].
  unfold tag_text, tag_word, long_tag. cbn [g_sep g_word g_value one spell fst snd]. rewrite C.
  eexists. split.
  - rewrite !app_nil_r, <- !app_assoc. do 2 f_equal. change (lit "candidate") with (lit "ca" ++ 110%N :: lit "didate"). rewrite <- !app_assoc. cbn [app]. reflexivity.
  - rewrite forallb_app. change (forallb plain (public_text (short_tree w)) && true = true). now rewrite L.
Qed.

Lemma rstrip_keeps a c b : is_digit c = false -> exists r, rstrip_by is_digit (a ++ c :: b) = a ++ c :: r.
Proof.
  intros D. unfold rstrip_by. rewrite rev_app_distr. cbn [rev]. rewrite <- app_assoc. cbn [app].
  assert (X : exists y, drop_while is_digit (rev b ++ c :: rev a) = y ++ c :: rev a).
  { induction (rev b) as [|d l IH]; cbn [app drop_while]; [exists []; now rewrite D|]. destruct (is_digit d); auto. exists (d :: l). reflexivity. }
  destruct X as (y & ->). exists (rev y). rewrite rev_app_distr. cbn [rev]. rewrite rev_involutive, <- app_assoc. reflexivity.
Qed.

Lemma op_string_plain t : forallb plain (op_string t) = true.
Proof. now destruct t. Qed.

Theorem candidate_fails t v : wf v -> candidate v = true -> exists e, parse_specifier (op_to_string t v) = Err e.
Proof.
  intros W C. destruct (parse_specifier (op_to_string t v)) as [p|e] eqn:P; [|eauto]. exfalso.
  apply parsed_after in P. pose proof (op_to_string_spaced t v) as R. apply respaced_visible in R. rewrite R in P. clear R.
  assert (X : exists a b, tight t v = a ++ 110%N :: b /\ forallb plain a = true).
  { destruct (candidate_text v W C) as (a & b & E & A). unfold tight. exists (op_string t ++ a). rewrite E. destruct (op_is_wildcard t).
    - unfold wildcard_string. destruct (rstrip_keeps a 110%N b eq_refl) as (r & ->). eexists. rewrite <- !app_assoc. cbn [app]. split; [reflexivity|]. now rewrite forallb_app, op_string_plain.
    - exists b. rewrite <- app_assoc. split; auto. now rewrite forallb_app, op_string_plain. }
  destruct X as (a & b & E & A). rewrite E, visible_app in P. unfold visible at 2 in P. cbn [filter] in P. change (negb (is_space 110)) with true in P. cbn match in P.
  specialize (P _ _ eq_refl). unfold visible in P. apply filter_In in P as [P _]. rewrite forallb_forall in A. now apply A in P.
Qed.

(** ** Parentheses *)

Definition opens (s : pstr) : Prop := exists c r, s = c :: r /\ c <> 40%N.

Lemma opens_app o s : (o = [] /\ opens s) \/ opens o -> opens (o ++ s).
Proof. intros [[-> H]|(c & r & -> & H)]; auto. exists c, (r ++ s). auto. Qed.

Lemma opens_digits d s : digits d -> opens (d ++ s).
Proof. intros [N F]. destruct d as [|c d]; [congruence|]. inversion F; subst. exists c, (d ++ s). split; auto. intros ->. match goal with H : digit _ |- _ => unfold digit in H; lia end. Qed.

Lemma opens_head v e f r : opt (fun c => c = 118%N \/ c = 86%N) v -> opt digits e -> opens (f ++ r) ->
  opens (one v ++ spell (fun d => d ++ [33%N]) e ++ f ++ r).
Proof.
  intros V E F. destruct v as [c|]; [exists c; eexists; split; [reflexivity|]; destruct V as [-> | ->]; discriminate|]. destruct e as [d|]; auto. cbn [one app spell]. rewrite <- app_assoc. now apply opens_digits.
Qed.

Lemma text_opens t : tree t -> opens (text t).
Proof.
  intros (V & E & F & _). unfold text, public_text, release_text. rewrite <- !app_assoc. apply opens_head; auto. now apply opens_digits.
Qed.

Lemma wild_opens c t u : c <> 40%N -> wild c t u -> tree t -> opens (text u).
Proof.
  intros C W (V & E & F & _). unfold text, public_text, release_text.
  destruct W; cbn [g_v g_epoch g_first g_more] in *; rewrite <- !app_assoc; apply opens_head; auto; try now apply opens_digits. exists c. eexists. split; [reflexivity|auto].
Qed.

Lemma op_opens o t s : In (o, t) (equal_ops ++ public_ops ++ wild_ops) -> opens s -> opens (o ++ s).
Proof.
  intros H S. apply opens_app. assert (X : forallb (fun x => match fst x with [] => true | c :: _ => negb (c =? 40)%N end) (equal_ops ++ public_ops ++ wild_ops) = true) by reflexivity.
  rewrite forallb_forall in X. apply X in H. cbn [fst] in H. destruct o as [|c o]; auto. right. exists c, o. split; auto. apply negb_true_iff, N.eqb_neq in H. auto.
Qed.

Lemma clause_opens s t v : clause s t v -> opens s.
Proof.
  intros [o O T -> |o O T G -> |o c u O C W T ->].
  - eapply op_opens; [apply in_equal; eauto|now apply text_opens].
  - eapply op_opens; [apply in_public; eauto|now apply text_opens].
  - eapply op_opens; [apply in_wild; eauto|]. apply (wild_opens c v); auto. destruct C as [-> | ->]; discriminate.
Qed.

Lemma capital_opens s : capital_wild s -> opens s.
Proof. intros (o & t & v & u & O & W & T & ->). eapply op_opens; [apply in_wild; eauto|]. now apply (wild_opens 88%N v). Qed.

Lemma paren_single s : parse_single (40%N :: s) = Err ParseSpecificationError.
Proof.
  assert (N : ~ opens (40%N :: s)) by (intros (c & r & E & K); injection E as <- _; congruence).
  apply single_other; [intros t v C|intros C]; apply N; [now apply clause_opens in C|now apply capital_opens].
Qed.

Theorem paren_fails s : parse_specifier (40%N :: s) = Err ParseSpecificationError.
Proof.
  unfold parse_specifier. rewrite clear_visible. change (visible (40%N :: s)) with (40%N :: visible s).
  destruct (alternatives_split (40%N :: visible s)) as (c & cs & E & A & P & _). unfold parse_any. rewrite E. cbn [mapM].
  assert (C : parse_all c = Err ParseSpecificationError); [|now rewrite C].
  assert (X : exists c', c = 40%N :: c').
  { destruct c as [|d c]; [|exists c]. 
    - destruct cs as [|[[] d] cs]; cbn in A; discriminate.
    - destruct cs as [|[b e] cs]; cbn [alternatives app] in A; injection A as -> _; reflexivity. }
  destruct X as (c' & ->). destruct (conjuncts_split (40%N :: c')) as (d & ds & E' & A' & _). unfold parse_all. rewrite E'. cbn [mapM].
  assert (X : exists d', d = 40%N :: d').
  { destruct d as [|e d]; [|exists d].
    - destruct ds as [|e ds]; cbn in A'; discriminate.
    - destruct ds as [|e' ds]; cbn [conjuncts app] in A'; injection A' as -> _; reflexivity. }
  destruct X as (d' & ->). now rewrite paren_single.
Qed.
