(** Proofs about [Classes.v]. *)

From Coq Require Import List ZArith NArith String Bool Lia.
From Verif Require Import Py Segments Version VersionSets Operators SetStrings Specifiers Parsers Spec SegmentSpec Clauses Meta MetaFacts
  OrderFacts OperatorFacts SpecifierFacts AccessFacts SetNames SpecNames Classes ClassSpec.
Import ListNotations.

(** ** Names *)

Lemma class_name_inj k k' : class_name k = class_name k' -> k = k'.
Proof. destruct k, k'; intros H; try reflexivity; discriminate H. Qed.

Lemma class_name_plain k : ~ In 32%N (class_name k).
Proof. destruct k; cbn; intuition discriminate. Qed.

Definition name_wrap (n : pstr) : bool := negb (str_eqb n (lit "SpecifierAny") || str_eqb n (lit "SpecifierAll")).
Lemma name_wrap_class k : class_wrap k = name_wrap (class_name k).
Proof. destruct k; reflexivity. Qed.

Theorem repr_class o o' s s' : obj_str o = Ok s -> obj_str o' = Ok s' -> obj_repr o = obj_repr o' -> class_of o = class_of o' /\ s = s'.
Proof.
  unfold obj_repr. intros -> ->. cbn [bind]. rewrite !name_wrap_class. intros E.
  assert (E' : forall x y : pstr, Ok x = Ok y -> x = y) by (intros x y X; now injection X). apply E' in E. clear E'. rename E into E'.
  apply (represent_inj name_wrap) in E' as [A B]; [|apply class_name_plain..]. split; auto. now apply class_name_inj.
Qed.

Lemma has_repr o : written_obj o -> exists s, obj_str o = Ok s /\ exists r, obj_repr o = Ok r.
Proof.
  intros W. assert (H : exists s, obj_str o = Ok s).
  { destruct o; try (eexists; reflexivity). destruct W as [W _]. destruct (has_strings a W) as (s & _ & S & _). exists s. exact S. }
  destruct H as [s H]. exists s. split; auto. unfold obj_repr. rewrite H. cbn [bind]. eexists. reflexivity.
Qed.

Theorem repr_names o o' : written_obj o -> written_obj o' -> obj_repr o = obj_repr o' ->
  o = o' \/ exists a b, o = OSet a /\ o' = OSet b /\ set_eqb a b = true /\ hole a /\ hole b.
Proof.
  intros W W' E. destruct (has_repr o W) as (s & S & _), (has_repr o' W') as (s' & S' & _).
  destruct (repr_class o o' s s' S S' E) as [C X]. rewrite <- X in S'. clear E s' X.
  destruct o as [e|r|c t|l|v|t v|p|a], o' as [e'|r'|c' t'|l'|v'|t' v'|p'|a'];
    try (exfalso; cbn in C; repeat match type of C with context [match ?x with _ => _ end] => destruct x end; discriminate C).
  - left. cbn [obj_str] in S, S', W, W'. pose proof (epoch_string e W) as P. pose proof (epoch_string e' W') as Q. congruence.
  - left. cbn [obj_str] in S, S'. destruct W as [W1 W2], W' as [V1 V2]. pose proof (release_strings r W1 W2) as P. pose proof (release_strings r' V1 V2) as Q. congruence.
  - left. assert (c = c') by (destruct c, c'; try discriminate C; reflexivity). subst c'. cbn [obj_str] in S, S'.
    destruct (tag_strings c t W) as [P _], (tag_strings c t' W') as [Q _]. congruence.
  - left. cbn [obj_str] in S, S'. destruct W as [W1 W2], W' as [V1 V2]. pose proof (local_strings l W1 W2) as P. pose proof (local_strings l' V1 V2) as Q. congruence.
  - left. cbn [obj_str] in S, S'. f_equal. apply to_string_inj; auto. congruence.
  - left. cbn [obj_str] in S, S'. destruct W as [W1 W2], W' as [V1 V2].
    assert (Y : One t v = One t' v'). { apply long_spec_names; auto. cbn. congruence. }
    congruence.
  - left. cbn [obj_str] in S, S'. destruct W as [W1 W2], W' as [V1 V2]. f_equal. apply long_spec_names; auto. congruence.
  - cbn [obj_str] in S, S'. destruct W as [W1 W2], W' as [V1 V2].
    assert (D : a = Empty /\ a' = Empty \/ a <> Empty /\ a' <> Empty).
    { destruct a as [|[]|], a' as [|[]|]; try discriminate C; try (now left); right; split; discriminate. }
    destruct D as [[-> ->]|[N N']]; [now left|].
    destruct (long_names a a' W1 V1 N N' W2 V2) as [Y Z]; [congruence|]. destruct Z as [->|[Z1 Z2]]; [now left|].
    right. exists a, a'. auto.
Qed.

(** ** Guards *)

Ltac kind_tac H := first [discriminate H | reflexivity | solve [eauto] | (destruct H as [? H]; discriminate H) | (destruct H as (? & ? & H); discriminate H)].

Theorem set_guards o :
  (is_version_set o = true <-> exists a, o = OSet a)
  /\ (is_version_empty o = true <-> o = OSet Empty)
  /\ (is_version_point o = true <-> exists v, o = OSet (Item (Point v)))
  /\ (is_version_range o = true <-> exists i, o = OSet (Item i))
  /\ (is_version_item o = true <-> exists i, o = OSet (Item i))
  /\ (is_version_union o = true <-> exists items, o = OSet (Union items)).
Proof.
  destruct o as [e|r|[] t|l|v|t v|[| |t v|ss|ss]|[|[v|a b c d]|items]]; repeat split; intros H; kind_tac H.
Qed.

Theorem specifier_guards o :
  (is_specifier o = true <-> exists s, o = OSpec s)
  /\ (is_specifier_never o = true <-> o = OSpec Never)
  /\ (is_specifier_always o = true <-> o = OSpec Always)
  /\ (is_specifier_one o = true <-> exists t v, o = OSpec (One t v))
  /\ (is_specifier_any o = true <-> exists ss, o = OSpec (AnyOf ss))
  /\ (is_specifier_all o = true <-> exists ss, o = OSpec (AllOf ss)).
Proof.
  destruct o as [e|r|[] t|l|v|t v|[| |t v|ss|ss]|[|[v|a b c d]|items]]; repeat split; intros H; kind_tac H.
Qed.

Theorem specification_guard o v : (forall s, o = OSpec s -> spec_made s) ->
  (is_specification o = true <-> exists b, obj_accepts o v = Ok b)
  /\ (is_specification o = false <-> obj_accepts o v = Err AttributeError)
  /\ is_specification o = is_specifier o || is_version_set o.
Proof.
  intros M. destruct o as [e|r|[] t|l|w|t w|s|a]; try (cbn; repeat split; first [discriminate | reflexivity | (intros [? ?]; discriminate)]).
  - destruct (accepts_sat s v (M s eq_refl)) as (b & B & _).
    assert (E : is_specification (OSpec s) = true /\ is_specifier (OSpec s) = true) by (destruct s; split; reflexivity).
    destruct E as [E1 E2]. rewrite E1, E2. cbn [obj_accepts]. rewrite B. split; [split; eauto|]. split; [split; discriminate|reflexivity].
  - assert (E : is_specification (OSet a) = true /\ is_version_set (OSet a) = true) by (destruct a as [|[]|]; split; reflexivity).
    destruct E as [E1 E2]. rewrite E1, E2. cbn [obj_accepts]. split; [split; eauto|]. split; [split; discriminate|]. now rewrite orb_true_r.
Qed.

(** ** Operators *)

Theorem methods_symbols n new is : In (n, new, is) op_methods -> exists t,
  In (n, op_value t) SYMBOLS
  /\ (forall one v, op_made t v -> new one v = Ok (if one : bool then OSpec (One t v) else OOperator t v))
  /\ (forall one v, valid_version v = true -> ~ op_made t v -> new one v = Err ValueError)
  /\ is t = true /\ (forall u, is u = true -> u = t).
Proof.
  intros H.
  assert (K : exists t, new = operator_new t /\ In (n, op_value t) SYMBOLS /\ is t = true /\ forall u, is u = true -> u = t).
  { unfold op_methods in H. cbn [In] in H.
    repeat (destruct H as [H|H]; [inversion H; subst; eexists; split; [reflexivity|]; split; [cbn; tauto|]; split; [reflexivity|];
      intros u U; destruct u; try reflexivity; discriminate U|]). destruct H. }
  destruct K as (t & -> & A & B & C). exists t. split; auto. split; [|split; [|split; auto]].
  - intros one v M. unfold operator_new. destruct M as [M1 M2].
    assert (V : op_valid t v = true).
    { destruct (one_new_outcome t v M1) as [X _]. specialize (X (conj M1 M2)). unfold one_new in X. now destruct (op_valid t v). }
    now rewrite V.
  - intros one v M1 N. unfold operator_new. destruct (one_new_outcome t v M1) as [_ X]. specialize (X N). unfold one_new in X. now destruct (op_valid t v).
Qed.

Ltac pick := (left; reflexivity) + (right; pick).

Theorem methods_all t : exists n new is, In (n, new, is) op_methods /\ is t = true
  /\ forall n' new' is', In (n', new', is') op_methods -> is' t = true -> n' = n.
Proof.
  assert (K : forall n' new' is', In (n', new', is') op_methods -> forall u, is' u = true -> In (n', op_value u) SYMBOLS).
  { intros n' new' is' H u U. destruct (methods_symbols n' new' is' H) as (x & X & _ & _ & _ & Y). now rewrite (Y u U). }
  assert (Q : forall n m s, In (n, s) SYMBOLS -> In (m, s) SYMBOLS -> n = m).
  { intros n m s A B. cbn in A, B.
    repeat (destruct A as [A|A]; [inversion A; subst; repeat (destruct B as [B|B]; [inversion B; reflexivity|]); destruct B|]). destruct A. }
  assert (F : exists n new is, In (n, new, is) op_methods /\ is t = true).
  { destruct t; do 3 eexists; (split; [unfold op_methods; cbn [In]; pick|reflexivity]). }
  destruct F as (n & new & is & A & B). exists n, new, is. split; auto. split; auto.
  intros n' new' is' A' B'. apply (Q n' n (op_value t)); [now apply (K n' new' is')|now apply (K n new is)].
Qed.

Theorem kinds t :
  (op_is_wildcard t = true <-> exists s, op_value t = s ++ lit "*")
  /\ (op_is_unary t = true <-> List.length (op_string t) = 1%nat /\ In (op_string t) [lit "^"; lit "~"])
  /\ (op_value t = op_string t \/ op_value t = op_string t ++ lit "*").
Proof.
  split; [|split].
  - destruct t; cbn; split; try discriminate; try reflexivity;
      try (intros _; first [exists (lit "=="); reflexivity | exists (lit "="); reflexivity | exists (lit "!="); reflexivity]);
      intros [[|a [|b [|c s]]] H]; try discriminate H; inversion H.
  - destruct t; cbn; split; try discriminate; try (intros [H _]; discriminate H); intuition (try discriminate).
  - destruct t; (now left) || (now right).
Qed.

Theorem predicates p o : ((exists b, op_predicate p o = Ok b) <-> is_instance o KOperator = true)
  /\ (is_instance o KOperator = false -> op_predicate p o = Err AttributeError).
Proof.
  destruct o as [e|r|[] t|l|v|t v|[| |t v|ss|ss]|[|[v|a b c d]|items]]; cbn; (split; [|easy]); split; try discriminate; try reflexivity; eauto;
    intros [? ?]; discriminate.
Qed.

Theorem predicate_answers n new is n' new' is' one v o : In (n, new, is) op_methods -> In (n', new', is') op_methods -> new one v = Ok o ->
  exists b, op_predicate is' o = Ok b /\ (b = true <-> n' = n).
Proof.
  intros H H' N. destruct (methods_symbols n new is H) as (t & _ & A & _ & B & C).
  assert (M : new = operator_new t /\ forall x y, In (n, x, y) op_methods -> y t = true).
  { clear - H B. unfold op_methods in *. cbn [In] in *. split.
    - repeat (destruct H as [H|H]; [inversion H; subst; destruct t; try discriminate B; reflexivity |]). destruct H.
    - intros x y J. repeat (destruct H as [H|H]; [inversion H; subst; clear H; repeat (destruct J as [J|J]; [inversion J; subst; exact B || discriminate |]); destruct J |]). destruct H. }
  destruct M as [M Y]. assert (T : obj_type o = Ok t).
  { rewrite M in N. unfold operator_new in N. destruct (op_valid t v); [| discriminate]. injection N as <-. now destruct one. }
  unfold op_predicate. rewrite T. cbn [bind]. exists (is' t). split; [reflexivity |]. split.
  - intros E. destruct (methods_all t) as (m & x & y & _ & _ & U). now rewrite (U n new is H B), (U n' new' is' H' E).
  - intros ->. exact (Y new' is' H').
Qed.

Theorem repr_total o : written_obj o -> exists s r, obj_str o = Ok s /\ obj_repr o = Ok r.
Proof. intros W. destruct (has_repr o W) as (s & S & r & R). exists s, r. auto. Qed.

Theorem partial_sat t w v : op_made t w -> exists b,
  partial_matches t w v = Ok b /\ operator_matches t v w = Ok b /\ (b = true <-> op_sat t w v).
Proof.
  intros M. destruct (op_matches_sat t w v M) as (b & E & H). exists b. split; [exact E|]. split; [exact E|exact H].
Qed.

Theorem translate_sat t w : ordinary w -> op_made t w -> ~ op_stuck t w ->
  exists a, operator_translate t w = Ok a /\ canonical a /\ forall v, contains a v = true <-> op_sat t w v.
Proof.
  intros O M S. destruct (op_translate_agrees t w O M S) as (a & E & C & A). exists a. split; [exact E|]. split; [exact C|].
  intros v. destruct (op_matches_sat t w v M) as (b & F & H). rewrite A in F. injection F as <-. exact H.
Qed.

Lemma lookup s : (forall t, op_of_value s = Ok t <-> op_value t = s)
  /\ ((forall n, ~ In (n, s) SYMBOLS) -> op_of_value s = Err ValueError) /\ (forall n, In (n, s) SYMBOLS -> exists t, op_of_value s = Ok t).
Proof.
  assert (A : forall t, op_of_value (op_value t) = Ok t) by (intros []; vm_compute; reflexivity).
  assert (B : forall t, op_of_value s = Ok t -> op_value t = s).
  { intros t. unfold op_of_value. destruct (find _ all_ops) as [u|] eqn:E; [|discriminate]. intros [= <-]. apply find_some in E as [_ E]. now apply Orders.str_eqb_eq. }
  assert (C : forall t, exists n, In (n, op_value t) SYMBOLS) by (intros t; destruct (methods_all t) as (n & new & is & M & I & _); destruct (methods_symbols n new is M) as (u & Y & _ & _ & _ & Q); exists n; now rewrite (Q t I)).
  split; [|split].
  - intros t. split; [apply B|intros <-; apply A].
  - intros N. destruct (op_of_value s) as [t|e] eqn:E; [destruct (C t) as [n I]; rewrite (B t eq_refl) in I; now destruct (N n)|].
    unfold op_of_value in E. destruct (find _ all_ops); [discriminate|]. now rewrite <- E.
  - intros n I. cbn [SYMBOLS In] in I. repeat (destruct I as [[= <- <-]|I]; [eexists; vm_compute; reflexivity|]). destruct I.
Qed.
