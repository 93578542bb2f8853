(** Printed specifiers and version sets parse back. *)

From Coq Require Import List ZArith NArith String Bool Arith Lia.
From Verif Require Import Py Segments Version VersionSets Operators SetStrings Specifiers Regex Patterns Parsers Orders Spec SetVersions OrderFacts OperatorFacts SpecifierFacts
  Grammar Clauses RegexFacts Unambiguous VersionRegex ParseFacts ParseTheorems ClauseRegex ClauseFacts SpecText SpecParse.
Import ListNotations.

(** ** Wildcards *)

Lemma rstrip_digits d : forall a, digits d -> rstrip_by is_digit a = a -> rstrip_by is_digit (a ++ d) = a.
Proof.
  intros a [_ F] A. unfold rstrip_by in *. rewrite rev_app_distr. assert (X : drop_while is_digit (rev d ++ rev a) = drop_while is_digit (rev a)).
  { apply Forall_rev in F. induction F as [|c e H F IH]; auto. cbn [app drop_while]. apply digit_iff in H. rewrite H. exact IH. }
  now rewrite X.
Qed.

Lemma rstrip_stop a c : is_digit c = false -> rstrip_by is_digit (a ++ [c]) = a ++ [c].
Proof. intros H. unfold rstrip_by. rewrite rev_app_distr. cbn [rev app drop_while]. rewrite H. cbn [rev]. now rewrite rev_involutive. Qed.

Lemma word_stop ws w p : In ws [pre_words; post_words; dev_words] -> In p ws -> spells w p -> exists b c, w = b ++ [c] /\ is_digit c = false.
Proof.
  intros Hws Hp S. pose proof (in_all_words ws p Hws Hp) as A. destruct (words_letters p A) as [L N].
  destruct w as [|c w] using rev_ind; [inversion S; subst; congruence|]. exists w, c. split; auto.
  apply Forall2_app_inv_l in S as (p1 & p2 & _ & S & ->). inversion S as [|? a ? ? F G]; subst. apply Forall_app in L as [_ L]. inversion L; subst.
  destruct (is_digit c) eqn:E; auto. apply digit_iff in E. unfold digit in E. unfold folds in F. lia.
Qed.

Lemma tag_stop ws o w s : In ws [pre_words; post_words; dev_words] -> (exists p, In p ws /\ spells w p) -> opt separator s ->
  exists b c, one o ++ w ++ one s = b ++ [c] /\ is_digit c = false.
Proof.
  intros Hws (p & Hp & S) O. destruct s as [c|].
  - exists (one o ++ w), c. split; [cbn [one]; now rewrite app_assoc|]. destruct O as [-> | [-> | ->]]; reflexivity.
  - destruct (word_stop ws w p Hws Hp S) as (b & c & -> & D). exists (one o ++ b), c. cbn [one]. rewrite app_nil_r, app_assoc. auto.
Qed.

Lemma wild_string c t u : wild c t u -> loose t -> exists a, text t = a ++ [48%N] /\ text u = a ++ [c] /\ rstrip_by is_digit a = a.
Proof.
  intros W (V & E & F & M & P & Q & G & _). unfold text, public_text, release_text. destruct W as [v e|v e f m|v e f m o w s|v e f m p|v e f m p o w s|v e f m p q o w s];
    cbn [g_v g_epoch g_first g_more g_pre g_post g_dev g_local spell post_text] in *;
    unfold tag_text, tag_word; cbn [g_sep g_word g_value fst snd spell map List.concat]; rewrite ?map_app, ?concat_app; cbn [map List.concat]; rewrite ?app_nil_r.
  - exists (one v ++ spell (fun d => d ++ [33%N]) e). rewrite <- !app_assoc. split; auto. split; auto. destruct e as [e|]; cbn [spell].
    + rewrite app_assoc. now apply rstrip_stop.
    + destruct v as [c'|]; [|reflexivity]. destruct V as [-> | ->]; reflexivity.
  - exists (((one v ++ spell (fun d => d ++ [33%N]) e) ++ f ++ List.concat (map (cons 46%N) m)) ++ [46%N]). rewrite <- !app_assoc. split; auto. split; auto.
    rewrite !app_assoc. now apply rstrip_stop.
  - destruct P as (P1 & P2 & P3). cbn [g_sep g_word g_value opt fst snd] in *. destruct P3 as [P3 _].
    destruct (tag_stop pre_words o w s) as (b & c' & B & D); cbn; auto.
    exists ((one v ++ spell (fun d => d ++ [33%N]) e ++ f ++ List.concat (map (cons 46%N) m)) ++ (one o ++ w ++ one s)). rewrite <- !app_assoc. split; auto. split; auto.
    rewrite B, !app_assoc. now apply rstrip_stop.
  - exists ((one v ++ spell (fun d => d ++ [33%N]) e ++ f ++ List.concat (map (cons 46%N) m) ++ spell tag_text p) ++ [45%N]). rewrite <- !app_assoc. split; auto. split; auto.
    rewrite !app_assoc. now apply rstrip_stop.
  - destruct Q as (P1 & P2 & P3). cbn [g_sep g_word g_value opt fst snd] in *. destruct P3 as [P3 _].
    destruct (tag_stop post_words o w s) as (b & c' & B & D); cbn; auto.
    exists ((one v ++ spell (fun d => d ++ [33%N]) e ++ f ++ List.concat (map (cons 46%N) m) ++ spell tag_text p) ++ (one o ++ w ++ one s)). rewrite <- !app_assoc. split; auto. split; auto.
    rewrite B, !app_assoc. now apply rstrip_stop.
  - destruct G as (P1 & P2 & P3). cbn [g_sep g_word g_value opt fst snd] in *. destruct P3 as [P3 _].
    destruct (tag_stop dev_words o w s) as (b & c' & B & D); cbn; auto.
    exists ((one v ++ spell (fun d => d ++ [33%N]) e ++ f ++ List.concat (map (cons 46%N) m) ++ spell tag_text p ++ spell post_text q) ++ (one o ++ w ++ one s)).
    rewrite <- !app_assoc. split; auto. split; auto.
    rewrite B, !app_assoc. now apply rstrip_stop.
Qed.

Lemma wildcard_string_wild t u : wild 42 t u -> tree t -> wildcard_string (text t) = text u.
Proof.
  intros W T. apply tree_loose in T as [L _]. destruct (wild_string _ t u W L) as (a & -> & -> & A). unfold wildcard_string. rewrite rstrip_digits; auto. apply digits_zero.
Qed.

Lemma wild_last_number c t u : wild c t u -> last_number (reading t) = 0%Z /\ v_local (reading t) = None.
Proof.
  intros W. unfold last_number. destruct W; try (split; reflexivity). split; [|reflexivity].
  cbn [reading g_dev g_post g_pre option_map v_dev v_post v_pre v_release g_first g_more]. cbn [map]. rewrite map_app.
  exact (last_last (number f :: map number m) 0%Z 0%Z).
Qed.

Lemma str_zero : str_int 0 = [48%N].
Proof. reflexivity. Qed.

Lemma release_wild c v e r : r <> [] -> last r 0%Z = 0%Z ->
  exists u, wild c (GVersion v e (str_int (hd 0%Z r)) (map str_int (tl r)) None None None None) u.
Proof.
  intros N L. destruct r as [|x r]; [congruence|]. cbn [hd tl]. destruct r as [|y r] using rev_ind.
  - cbn in L. subst. cbn [map]. rewrite str_zero. eexists. apply wild_any.
  - rewrite map_app. cbn [map]. clear IHr N. change (last ((x :: r) ++ [y]) 0%Z = 0%Z) in L. rewrite last_last in L. subst. rewrite str_zero. eexists. apply wild_release.
Qed.

Lemma short_wild c v : v_release v <> [] -> v_local v = None -> last_number v = 0%Z -> exists u, wild c (short_tree v) u.
Proof.
  intros R L N. unfold short_tree, vtree. rewrite L. unfold last_number in N. destruct (v_dev v) as [d|]; cbn [option_map].
  { unfold short_tag at 3. rewrite N, str_zero. eexists. apply wild_dev. }
  destruct (v_post v) as [d|]; cbn [option_map].
  { unfold short_tag at 2. rewrite N, str_zero. eexists. apply wild_post. }
  destruct (v_pre v) as [d|]; cbn [option_map].
  { unfold short_tag at 1. rewrite N, str_zero. eexists. apply wild_pre. }
  now apply release_wild.
Qed.

Lemma long_wild c v : v_release v <> [] -> v_local v = None -> last_number v = 0%Z -> exists u, wild c (long_tree v) u.
Proof.
  intros R L N. unfold long_tree, vtree. rewrite L. unfold last_number in N. destruct (v_dev v) as [d|]; cbn [option_map].
  { unfold long_tag at 3. rewrite N, str_zero. eexists. apply wild_dev. }
  destruct (v_post v) as [d|]; cbn [option_map].
  { unfold long_tag at 2. rewrite N, str_zero. eexists. apply wild_post. }
  destruct (v_pre v) as [d|]; cbn [option_map].
  { unfold long_tag at 1. rewrite N, str_zero. eexists. apply wild_pre. }
  now apply release_wild.
Qed.

(** ** Operators that can be written down *)

Definition takes_local (t : op_type) : bool := match t with EQUAL | DOUBLE_EQUAL | NOT_EQUAL => true | _ => false end.

Definition writable (t : op_type) (v : version) : Prop :=
  wf v /\ op_made t v /\ (takes_local t = false -> v_local v = None) /\ (op_is_wildcard t = true -> last_number v = 0%Z).

Lemma reading_local t : g_local t = None -> v_local (reading t) = None.
Proof. intros E. unfold reading. cbn [v_local]. now rewrite E. Qed.

Lemma proper_writable c x : proper_clause c x -> writable (fst x) (reading (snd x)).
Proof.
  intros (C & L & M). destruct x as [t v]. cbn [fst snd] in *. pose proof (clause_tree _ _ _ C) as T.
  split; [now apply reading_wf|]. split; [now apply made_more|].
  destruct C as [o O _ _|o O _ G _|o w u O C W _ _].
  - cbn [equal_ops In] in O. repeat (destruct O as [O|O]; [injection O as <- <-; split; discriminate|]). destruct O.
  - split; [intros _; now apply reading_local|]. cbn [public_ops In] in O. repeat (destruct O as [O|O]; [injection O as <- <-; discriminate|]). destruct O.
  - apply wild_last_number in W as [W1 W2]. auto.
Qed.

(** The clause of an operator, before a version. *)
Lemma op_string_cases t : exists o, op_string t = o /\
  ((op_is_wildcard t = false /\ (In (o, t) equal_ops \/ (In (o, t) public_ops /\ takes_local t = false))) \/ (op_is_wildcard t = true /\ takes_local t = false /\ In (o, t) wild_ops)).
Proof. exists (op_string t). split; auto. destruct t; vm_compute; intuition. Qed.

Lemma render_clause t v g : writable t v -> tree g -> lower_case g -> reading g = v -> (v_local v = None -> g_local g = None) ->
  (op_is_wildcard t = true -> exists u, wild 42 g u) ->
  proper_clause (op_string t ++ (if op_is_wildcard t then wildcard_string (text g) else text g)) (t, g).
Proof.
  intros (W & M & L & Z) T C R G X. split; [|cbn [fst snd]; split; auto; apply made_more; auto; now rewrite R].
  cbn [fst snd]. destruct (op_string_cases t) as (o & -> & [[E [O|[O K]]]|(E & K & O)]); rewrite E.
  - now apply (clause_equal _ t g o).
  - apply (clause_public _ t g o); auto.
  - destruct (X E) as [u U]. rewrite (wildcard_string_wild g u) by auto. apply (clause_wild _ t g o 42%N u); auto. now left.
Qed.

Lemma proper_parse c x : proper_clause c x -> parse_specifier c = Ok (clause_spec x).
Proof.
  intros H. pose proof (proper_inner _ _ H) as [N U]. rewrite single_parse by auto. apply single_ok. eauto.
Qed.

Lemma vtree_local pre post dev v : v_local v = None -> g_local (vtree pre post dev v) = None.
Proof. intros E. unfold vtree. cbn [g_local]. now rewrite E. Qed.

Lemma short_clause t v : writable t v -> proper_clause (op_to_short_string t v) (t, short_tree v).
Proof.
  intros W. pose proof W as (F & M & L & Z). destruct (short_tree_ok v F) as (T & C & E & R). unfold op_to_short_string. rewrite <- E. apply (render_clause t v); auto.
  - apply vtree_local.
  - intros H. apply short_wild; auto; [apply F|]. apply L. now destruct t.
Qed.

Definition tight (t : op_type) (v : version) : pstr := op_string t ++ (if op_is_wildcard t then wildcard_string (to_string v) else to_string v).

Lemma long_clause t v : writable t v -> candidate v = false -> proper_clause (tight t v) (t, long_tree v).
Proof.
  intros W NC. pose proof W as (F & M & L & Z). destruct (long_tree_ok v F NC) as (T & C & E & R). unfold tight. rewrite <- E. apply (render_clause t v); auto.
  - apply vtree_local.
  - intros H. apply long_wild; auto; [apply F|]. apply L. now destruct t.
Qed.

Lemma white_space : white 32%N.
Proof. unfold white. cbn. tauto. Qed.

Lemma op_to_string_spaced t v : respaced (op_to_string t v) (tight t v).
Proof.
  unfold op_to_string, tight. destruct (op_is_unary t); [apply respaced_refl|]. apply respaced_sym. apply (respaced_insert (op_string t) 32%N). exact white_space.
Qed.

Theorem short_string_parses t v : writable t v -> parse_specifier (op_to_short_string t v) = Ok (One t v).
Proof.
  intros W. rewrite (proper_parse _ _ (short_clause t v W)). unfold clause_spec. cbn [fst snd]. destruct W as [F _]. now destruct (short_tree_ok v F) as (_ & _ & _ & ->).
Qed.

Theorem long_string_parses t v : writable t v -> candidate v = false -> parse_specifier (op_to_string t v) = Ok (One t v).
Proof.
  intros W NC. destruct (respaced_parse _ _ (op_to_string_spaced t v)) as [-> _]. rewrite (proper_parse _ _ (long_clause t v W NC)).
  unfold clause_spec. cbn [fst snd]. destruct W as [F _]. now destruct (long_tree_ok v F NC) as (_ & _ & _ & ->).
Qed.
