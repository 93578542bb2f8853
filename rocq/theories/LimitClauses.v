(** The digit limit (Limits.v) and specifications. *)

From Coq Require Import List ZArith NArith String Bool Arith Lia.
From Verif Require Import Py Segments Version VersionSets Operators SetStrings Specifiers Regex Patterns Parsers Spec Orders Grammar Clauses
  RegexFacts Unambiguous VersionRegex ParseFacts ParseTheorems SpecifierFacts ClauseRegex ClauseFacts SpecText SpecParse Limits LimitSpec LimitFacts.
Import ListNotations.

Section By.
Variable pv : pstr -> result version.

Lemma with_none p s : try_parse_with p s = Ok None -> try_with_by pv p s = Ok None.
Proof.
  unfold try_parse_with, try_with_by. destruct (fullmatch p s) as [m|]; [|auto]. destruct (get_group G_OPERATOR m) as [o|]; [|discriminate].
  destruct (op_of_value o) as [t|]; [|discriminate]. cbn [bind]. destruct (get_group G_VERSION m) as [w|]; [|discriminate].
  destruct (parse_version w) as [v|]; [|discriminate]. cbn [bind]. destruct (one_new t v); discriminate.
Qed.
Lemma equal_none s : try_parse_equal s = Ok None -> try_equal_by pv s = Ok None.
Proof.
  unfold try_parse_equal, try_equal_by. destruct (fullmatch EQUAL_SPECIFICATION s) as [m|]; [|auto].
  destruct (match get_group G_OPERATOR m with None => Ok EQUAL | Some o => op_of_value o end) as [t|]; [|discriminate].
  cbn [bind]. destruct (get_group G_VERSION m) as [w|]; [|discriminate].
  destruct (parse_version w) as [v|]; [|discriminate]. cbn [bind]. destruct (one_new t v); discriminate.
Qed.
Lemma wildcard_none s : try_parse_wildcard s = Ok None -> try_wildcard_by pv s = Ok None.
Proof.
  unfold try_parse_wildcard, try_wildcard_by. destruct (fullmatch WILDCARD_SPECIFICATION s) as [m|]; [|auto].
  destruct (match get_group G_OPERATOR m with None => Ok WILDCARD_EQUAL | Some o => op_of_value (o ++ lit "*") end) as [t|]; [|discriminate].
  cbn [bind]. destruct (get_group G_VERSION m) as [w|]; [|discriminate].
  destruct (parse_version _) as [v|]; [|discriminate]. cbn [bind]. destruct (one_new t v); discriminate.
Qed.

Definition outcome_by (t : op_type) (v : gversion) : result spec := bind (pv (text v)) (one_new t).

Lemma outcome_some t v : bind (pv (text v)) (fun x => bind (one_new t x) (fun s => Ok (Some s))) = bind (outcome_by t v) (fun s => Ok (Some s)).
Proof. unfold outcome_by. now destruct (pv (text v)). Qed.

Lemma some_first t v (f : result spec) : bind (bind (outcome_by t v) (fun s => Ok (Some s))) (fun o => match o with Some x => Ok x | None => f end) = outcome_by t v.
Proof. now destruct (outcome_by t v). Qed.

Lemma by_equal o t v : In (o, t) equal_ops -> tree v -> try_equal_by pv (o ++ text v) = bind (outcome_by t v) (fun s => Ok (Some s)).
Proof.
  intros O T. apply equal_ops_strs in O as [O E]. assert (H : exists ds, D VERSION (text v) ds) by (apply D_version_tree; eauto). destruct H as [ds H].
  destruct (optional_match eq_strs eq_strs_ok eq_strs_some VERSION version_head version_no_operator o (text v) ds O H) as (m & M & M1 & M2).
  unfold try_equal_by, EQUAL_SPECIFICATION, EQUAL_OPERATOR. fold eq_strs. rewrite M, M1, M2, E. cbn [bind]. apply outcome_some.
Qed.

Lemma by_wild o t c v u : In (o, t) wild_ops -> wildcard c -> wild c v u -> tree v ->
  try_wildcard_by pv (o ++ text u) = bind (outcome_by t v) (fun s => Ok (Some s)).
Proof.
  intros O C W T. apply wild_ops_strs in O as [O E]. assert (H : D WILDCARD_VERSION (text u) []).
  { apply wild_iff; split; [|reflexivity]. exists c, v, u. split; [|auto]. destruct C as [C|C]; [left|right; left]; exact C. }
  destruct (optional_match eq_strs eq_strs_ok eq_strs_some WILDCARD_VERSION wildcard_head wildcard_no_operator o (text u) [] O H) as (m & M & M1 & M2).
  unfold try_wildcard_by, WILDCARD_SPECIFICATION, EQUAL_OPERATOR. fold eq_strs. rewrite M, M1, M2, E. cbn [bind].
  rewrite (wild_replace c v u); [apply outcome_some| | |]; auto. now apply tree_loose in T.
Qed.

Lemma by_public (l : list (pstr * op_type)) (ops : list pstr) : (forall o t, In (o, t) l -> In o ops /\ op_of_value o = Ok t) ->
  forallb (fun o => negb (str_eqb o []) && forallb sym o) ops = true -> ops <> [] -> forall o t v, In (o, t) l -> tree v -> g_local v = None ->
    try_with_by pv (Cat (Grp G_OPERATOR (alts ops)) (Grp G_VERSION PUBLIC_VERSION)) (o ++ text v) = bind (outcome_by t v) (fun s => Ok (Some s)).
Proof.
  intros l_ops ops_ok ops_some o t v O T G. apply l_ops in O as [O E].
  assert (H : exists ds, D PUBLIC_VERSION (text v) ds) by (apply D_public_tree; eauto). destruct H as [ds H].
  destruct (operator_match ops (strs_sym ops ops_ok) ops_some PUBLIC_VERSION public_head public_no_operator o (text v) ds O H) as (m & M & M1 & M2).
  unfold try_with_by. rewrite M, M1, M2, E. cbn [bind]. apply outcome_some.
Qed.

Theorem single_clause_by s t v : clause s t v -> parse_single_by pv s = outcome_by t v.
Proof.
  intros H. unfold parse_single_by, first_parser. destruct H as [o O T -> |o O T G -> |o c u O C W T ->].
  - rewrite wildcard_none. cbn [bind]. unfold ORDER_SPECIFICATION.
    assert (Norder : try_with_by pv ORDER_SPECIFICATION (o ++ text v) = Ok None) by
        (apply with_none; apply (try_public_none order_ops _ (proj1 order_strs)); first [reflexivity|discriminate|intros o' t' v' O' T' G' E; apply (strs_neq o t _ o' t') in E as [<- _]; [|now apply in_equal|apply in_public, public_cases; auto|now apply tree_head..]; revert O O'; now apply apart_neq]).
      unfold ORDER_SPECIFICATION in Norder. rewrite Norder.
    cbn [bind]. rewrite (by_equal o t v) by auto. apply some_first.
    apply try_wild_none.
    intros o' t' c v' u' O' C W T' E. apply (strs_neq o t _ o' t') in E as [_ E]; [|now apply in_equal|now apply in_wild|now apply tree_head|now apply (wild_tree_head c v')].
    symmetry in E. revert E. apply (wild_not_version c v'); auto; [now apply tree_loose in T'|now apply tree_loose in T].
  - rewrite wildcard_none by (apply try_wild_none;
      intros o' t' c v' u' O' C W T' E; apply (strs_neq o t _ o' t') in E as [<- _]; [|now apply in_public|now apply in_wild|now apply tree_head|now apply (wild_tree_head c v')]; revert O O'; now apply apart_neq).
    cbn [bind].
    assert (NE : try_equal_by pv (o ++ text v) = Ok None).
    { apply equal_none, try_equal_none. intros o' t' v' O' T' E. apply (strs_neq o t _ o' t') in E as [<- _]; [|now apply in_public|now apply in_equal|now apply tree_head..]; revert O O'; now apply apart_neq. }
    apply public_cases in O as P. unfold ORDER_SPECIFICATION, CARET_SPECIFICATION, TILDE_SPECIFICATION.
    destruct P as [P|[P|P]].
    + rewrite (by_public order_ops _ (proj2 order_strs) eq_refl ltac:(discriminate) o t v) by auto. apply some_first.
    + assert (Norder : try_with_by pv ORDER_SPECIFICATION (o ++ text v) = Ok None) by
        (apply with_none; apply (try_public_none order_ops _ (proj1 order_strs)); first [reflexivity|discriminate|intros o' t' v' O' T' G' E; apply (strs_neq o t _ o' t') in E as [<- _]; [|now apply in_public|apply in_public, public_cases; auto|now apply tree_head..]; revert P O'; now apply apart_neq]).
      unfold ORDER_SPECIFICATION in Norder. rewrite Norder.
      cbn [bind]. rewrite NE. cbn [bind].
      rewrite (by_public caret_ops _ (proj2 caret_strs) eq_refl ltac:(discriminate) o t v) by auto. apply some_first.
    + assert (Norder : try_with_by pv ORDER_SPECIFICATION (o ++ text v) = Ok None) by
        (apply with_none; apply (try_public_none order_ops _ (proj1 order_strs)); first [reflexivity|discriminate|intros o' t' v' O' T' G' E; apply (strs_neq o t _ o' t') in E as [<- _]; [|now apply in_public|apply in_public, public_cases; auto|now apply tree_head..]; revert P O'; now apply apart_neq]).
      unfold ORDER_SPECIFICATION in Norder. rewrite Norder.
      cbn [bind]. rewrite NE. cbn [bind].
      assert (Ncaret : try_with_by pv CARET_SPECIFICATION (o ++ text v) = Ok None) by
        (apply with_none; apply (try_public_none caret_ops _ (proj1 caret_strs)); first [reflexivity|discriminate|intros o' t' v' O' T' G' E; apply (strs_neq o t _ o' t') in E as [<- _]; [|now apply in_public|apply in_public, public_cases; auto|now apply tree_head..]; revert P O'; now apply apart_neq]).
      unfold CARET_SPECIFICATION in Ncaret. rewrite Ncaret.
      cbn [bind].
      rewrite (by_public tilde_ops _ (proj2 tilde_strs) eq_refl ltac:(discriminate) o t v) by auto. apply some_first.
  - rewrite (by_wild o t c v u) by auto. apply some_first.
Qed.

(** ** A parser that agrees with the model's or raises *)

Hypothesis agrees : forall s, pv s = parse_version s \/ pv s = Err ValueError.

Lemma bind_agrees {A B} (x y : result A) (f g : A -> result B) : x = y \/ x = Err ValueError -> (forall a, f a = g a \/ f a = Err ValueError) ->
  bind x f = bind y g \/ bind x f = Err ValueError.
Proof. intros [-> | ->] H; [|now right]. destruct y; [apply H|now left]. Qed.

Lemma with_agrees p s : try_with_by pv p s = try_parse_with p s \/ try_with_by pv p s = Err ValueError.
Proof.
  unfold try_parse_with, try_with_by. destruct (fullmatch p s) as [m|]; [|auto]. destruct (get_group G_OPERATOR m) as [o|]; [|auto].
  apply bind_agrees; [auto|]. intros t. destruct (get_group G_VERSION m) as [w|]; [|auto]. apply bind_agrees; auto.
Qed.
Lemma equal_agrees s : try_equal_by pv s = try_parse_equal s \/ try_equal_by pv s = Err ValueError.
Proof.
  unfold try_parse_equal, try_equal_by. destruct (fullmatch EQUAL_SPECIFICATION s) as [m|]; [|auto].
  apply bind_agrees; [auto|]. intros t. destruct (get_group G_VERSION m) as [w|]; [|auto]. apply bind_agrees; auto.
Qed.
Lemma wildcard_agrees s : try_wildcard_by pv s = try_parse_wildcard s \/ try_wildcard_by pv s = Err ValueError.
Proof.
  unfold try_parse_wildcard, try_wildcard_by. destruct (fullmatch WILDCARD_SPECIFICATION s) as [m|]; [|auto].
  apply bind_agrees; [auto|]. intros t. destruct (get_group G_VERSION m) as [w|]; [|auto]. apply bind_agrees; auto.
Qed.

Lemma mapM_agrees {A B} (f g : A -> result B) xs : (forall x, f x = g x \/ f x = Err ValueError) -> mapM f xs = mapM g xs \/ mapM f xs = Err ValueError.
Proof. intros H. induction xs as [|x xs IH]; [auto|]. cbn [mapM]. apply bind_agrees; auto. intros y. apply bind_agrees; auto. Qed.

Lemma single_agrees s : parse_single_by pv s = parse_single s \/ parse_single_by pv s = Err ValueError.
Proof.
  unfold parse_single_by, parse_single, first_parser. apply bind_agrees; [apply wildcard_agrees|intros [x|]; [auto|]].
  apply bind_agrees; [apply with_agrees|intros [x|]; [auto|]]. apply bind_agrees; [apply equal_agrees|intros [x|]; [auto|]].
  apply bind_agrees; [apply with_agrees|intros [x|]; [auto|]]. apply bind_agrees; [apply with_agrees|intros [x|]; auto].
Qed.

Lemma specifier_agrees s : parse_specifier_by pv s = parse_specifier s \/ parse_specifier_by pv s = Err ValueError.
Proof.
  unfold parse_specifier_by, parse_specifier, parse_any_by, parse_any. apply bind_agrees; auto. apply mapM_agrees. intros c.
  unfold parse_all_by, parse_all. apply bind_agrees; auto. apply mapM_agrees. apply single_agrees.
Qed.

End By.

Lemma specifier_by s css pv : specification s css -> parse_specifier_by pv s = let* ss := mapM (fun cs => let* xs := mapM (parse_single_by pv) cs in Ok (all_of xs)) css in Ok (any_of ss).
Proof. intros H. rewrite <- (specification_pieces s css H), mapM_map. reflexivity. Qed.

(** ** The limit *)

Lemma within_agrees k s : parse_version_within k s = parse_version s \/ parse_version_within k s = Err ValueError.
Proof. apply parse_within_cases. Qed.

Lemma single_within k c x : proper_clause c x -> parse_single_by (parse_version_within (Some k)) c
  = if forallb (within (Some k)) (tree_numbers (snd x)) then Ok (clause_spec x) else Err ValueError.
Proof.
  intros (C & L & M). rewrite (single_clause_by _ c (fst x) (snd x) C). unfold outcome_by.
  pose proof (clause_tree _ _ _ C) as T. rewrite tree_within by exact T. apply lower_case_iff in L as L'. rewrite L'. cbn [andb].
  destruct (forallb (within (Some k)) (tree_numbers (snd x))); [|reflexivity]. cbn [bind].
  pose proof (proj2 (outcome_ok (fst x) (snd x) (clause_spec x) T)) as O. unfold outcome in O. rewrite L' in O. apply O.
  split; [exact L|]. split; [now apply made_more|reflexivity].
Qed.

Theorem specifier_within_ok k s p : parse_specifier_within (Some k) s = Ok p <->
  exists css xss, specification s css /\ Forall2 (Forall2 (fun c x => proper_clause c x /\ short k (snd x))) css xss /\ p = spec_of xss.
Proof.
  assert (K : forall css xss, Forall2 (Forall2 proper_clause) css xss ->
    mapM (fun cs => let* xs := mapM (parse_single_by (parse_version_within (Some k))) cs in Ok (all_of xs)) css
    = if forallb (forallb (fun x => forallb (within (Some k)) (tree_numbers (snd x)))) xss then Ok (map (fun xs => all_of (map clause_spec xs)) xss) else Err ValueError).
  { induction 1 as [|cs xs css xss H _ IH]; [reflexivity|]. cbn [mapM forallb map]. rewrite IH.
    assert (X : mapM (parse_single_by (parse_version_within (Some k))) cs
      = if forallb (fun x => forallb (within (Some k)) (tree_numbers (snd x))) xs then Ok (map clause_spec xs) else Err ValueError).
    { clear IH. induction H as [|c x cs xs H _ IH]; [reflexivity|]. cbn [mapM forallb map]. rewrite (single_within k c x H), IH.
      destruct (forallb (within (Some k)) (tree_numbers (snd x))); [|reflexivity]. cbn [bind andb].
      destruct (forallb (fun x => forallb (within (Some k)) (tree_numbers (snd x))) xs); reflexivity. }
    rewrite X. destruct (forallb (fun x => forallb (within (Some k)) (tree_numbers (snd x))) xs); [|reflexivity]. cbn [bind andb].
    destruct (forallb (forallb (fun x => forallb (within (Some k)) (tree_numbers (snd x)))) xss); reflexivity. }
  assert (G : forall s css xss, specification s css -> Forall2 (Forall2 proper_clause) css xss ->
    any_of (map (fun xs => all_of (map clause_spec xs)) xss) = spec_of xss).
  { intros s' css xss S F. apply specification_nonempty in S as [N M]. unfold spec_of. rewrite any_of_grouped.
    - f_equal. apply map_ext_in. intros xs I. apply all_of_grouped. revert M I. clear N. induction F as [|cs ys css yss H _ IH]; intros M I; [destruct I|].
      inversion M; subst. destruct I as [<-|I]; [|auto]. destruct H; [congruence|discriminate].
    - destruct F; [congruence|discriminate]. }
  split.
  - intros H. assert (E : parse_specifier s = Ok p).
    { destruct (specifier_agrees (parse_version_within (Some k)) (within_agrees (Some k)) s) as [E|E]; unfold parse_specifier_within in H; congruence. }
    apply parse_specifier_ok in E as (css & xss & S & F & ->). exists css, xss. split; [exact S|]. split; [|reflexivity].
    unfold parse_specifier_within in H. rewrite (specifier_by s css) in H by exact S. rewrite (K _ _ F) in H.
    destruct (forallb (forallb _) xss) eqn:B; [|discriminate]. clear H S. revert B.
    induction F as [|cs xs css xss H _ IH]; intros B; cbn [forallb] in B; constructor; apply andb_true_iff in B as [B1 B2]; [|auto].
    clear IH B2. induction H as [|c x cs xs H _ IH]; cbn [forallb] in B1; constructor; apply andb_true_iff in B1 as [B1 B2]; [|auto].
    split; [exact H|now apply forallb_within].
  - intros (css & xss & S & F & ->).
    assert (F' : Forall2 (Forall2 proper_clause) css xss).
    { clear S. induction F as [|cs xs css xss H _ IH]; constructor; [|exact IH]. induction H as [|c x cs xs [H _] _ IHH]; constructor; auto. }
    unfold parse_specifier_within. rewrite (specifier_by s css) by exact S. rewrite (K _ _ F').
    replace (forallb (forallb _) xss) with true; [cbn [bind]; f_equal; now apply (G s css)|].
    symmetry. clear - F. induction F as [|cs xs css xss H _ IH]; [reflexivity|]. cbn [forallb]. rewrite IH, andb_true_r. clear - H.
    induction H as [|c x cs xs [_ H] _ IH]; [reflexivity|]. cbn [forallb]. rewrite IH, andb_true_r. now apply forallb_within.
Qed.

Theorem specifier_within_cases k s : parse_specifier_within k s = parse_specifier s \/ parse_specifier_within k s = Err ValueError.
Proof. apply specifier_agrees, within_agrees. Qed.

Theorem specifier_unlimited s : parse_specifier_within None s = parse_specifier s.
Proof.
  assert (A : forall p s, try_with_by (parse_version_within None) p s = try_parse_with p s).
  { intros p t. unfold try_parse_with, try_with_by. destruct (fullmatch p t) as [m|]; [|auto]. destruct (get_group G_OPERATOR m) as [o|]; [|auto].
    destruct (op_of_value o) as [x|]; [|auto]. cbn [bind]. destruct (get_group G_VERSION m) as [w|]; [|auto]. now rewrite parse_unlimited. }
  assert (B : forall s, try_equal_by (parse_version_within None) s = try_parse_equal s).
  { intros t. unfold try_parse_equal, try_equal_by. destruct (fullmatch EQUAL_SPECIFICATION t) as [m|]; [|auto].
    destruct (match get_group G_OPERATOR m with None => Ok EQUAL | Some o => op_of_value o end) as [x|]; [|auto]. cbn [bind].
    destruct (get_group G_VERSION m) as [w|]; [|auto]. now rewrite parse_unlimited. }
  assert (C : forall s, try_wildcard_by (parse_version_within None) s = try_parse_wildcard s).
  { intros t. unfold try_parse_wildcard, try_wildcard_by. destruct (fullmatch WILDCARD_SPECIFICATION t) as [m|]; [|auto].
    destruct (match get_group G_OPERATOR m with None => Ok WILDCARD_EQUAL | Some o => op_of_value (o ++ lit "*") end) as [x|]; [|auto]. cbn [bind].
    destruct (get_group G_VERSION m) as [w|]; [|auto]. now rewrite parse_unlimited. }
  assert (S : forall s, parse_single_by (parse_version_within None) s = parse_single s).
  { intros t. unfold parse_single_by, parse_single, first_parser, try_parse_order, try_parse_caret, try_parse_tilde. now rewrite !A, B, C. }
  assert (L : forall c, parse_all_by (parse_version_within None) c = parse_all c).
  { intros c. unfold parse_all_by, parse_all. rewrite (mapM_ext _ parse_single); [reflexivity|]. apply Forall_forall. auto. }
  unfold parse_specifier_within, parse_specifier_by, parse_specifier, parse_any_by, parse_any. rewrite (mapM_ext _ parse_all); [reflexivity|]. apply Forall_forall. auto.
Qed.

(** ** Printing specifiers *)

Lemma strings_cons {A} (f : A -> result pstr) (g : A -> pstr) (P : A -> Prop) xs : Forall (fun x => (P x -> f x = Ok (g x)) /\ (~ P x -> f x = Err ValueError)) xs ->
  Forall (fun x => P x \/ ~ P x) xs ->
  (Forall P xs -> (fix go (l : list A) : result (list pstr) := match l with [] => Ok [] | x :: l' => let* y := f x in let* ys := go l' in Ok (y :: ys) end) xs = Ok (map g xs))
  /\ (~ Forall P xs -> (fix go (l : list A) : result (list pstr) := match l with [] => Ok [] | x :: l' => let* y := f x in let* ys := go l' in Ok (y :: ys) end) xs = Err ValueError).
Proof.
  induction 1 as [|x xs [H1 H2] _ IH]; intros D; [split; [reflexivity|intros H; now destruct H]|]. inversion D as [|? ? D1 D2]; subst. destruct (IH D2) as [I1 I2]. split.
  - intros F. inversion F as [|? ? F1 F2]; subst. rewrite (H1 F1). cbn [bind]. now rewrite (I1 F2).
  - intros F. destruct D1 as [D1|D1]; [|now rewrite (H2 D1)]. rewrite (H1 D1). cbn [bind]. rewrite I2; [reflexivity|]. intros K. apply F. now constructor.
Qed.

Lemma each_forall f ss : each_op f (AllOf ss) <-> Forall (each_op f) ss.
Proof. cbn [each_op]. induction ss as [|s ss IH]; [split; [constructor|exact (fun _ => I)]|]. split; [intros [A B]; constructor; [exact A|now apply IH]|]. intros H. inversion H; subst. split; [assumption|now apply IH]. Qed.

Theorem spec_strings_within k s : (1 <= k)%nat -> each_op (fun _ v => wf v) s ->
  (each_op (fun _ v => fits k v) s -> spec_string_within (Some k) s = Ok (spec_to_string s))
  /\ (~ each_op (fun _ v => fits k v) s -> spec_string_within (Some k) s = Err ValueError).
Proof.
  intros K. pose proof (fits_zero k K) as Z.
  assert (D : forall s, each_op (fun _ v => wf v) s -> each_op (fun _ v => fits k v) s \/ ~ each_op (fun _ v => fits k v) s).
  { assert (DL : forall ss, Forall (fun s => each_op (fun _ v => wf v) s -> each_op (fun _ v => fits k v) s \/ ~ each_op (fun _ v => fits k v) s) ss ->
      Forall (each_op (fun _ v => wf v)) ss -> Forall (each_op (fun _ v => fits k v)) ss \/ ~ Forall (each_op (fun _ v => fits k v)) ss).
    { induction 1 as [|x xs H _ IH]; intros W; [left; constructor|]. inversion W; subst. destruct (H ltac:(assumption)) as [A|A]; [|right; intros F; now inversion F].
      destruct (IH ltac:(assumption)) as [B|B]; [left; now constructor|right; intros F; now inversion F]. }
    clear s. intros s. induction s as [| |t v|ss H|ss H] using spec_members; intros W; [left; exact I|left; exact I| | |].
    - cbn [each_op] in *. rewrite <- (fits_iff k v K W). destruct (forallb _ _); [now left|now right].
    - change (each_op (fun _ v => fits k v) (AnyOf ss)) with (each_op (fun _ v => fits k v) (AllOf ss)). change (each_op (fun _ v => wf v) (AllOf ss)) in W.
      rewrite each_forall in *. now apply DL.
    - rewrite each_forall in *. now apply DL. }
  induction s as [| |t v|ss H|ss H] using spec_members; intros W; [split; [reflexivity|intros N; now destruct N]..| | |].
  - cbn [each_op spec_string_within spec_to_string] in *. rewrite op_string_fits by exact Z. rewrite <- (fits_iff k v K W). split; intros E; [now rewrite E|].
    destruct (forallb _ _); [congruence|reflexivity].
  - change (each_op (fun _ v => wf v) (AllOf ss)) in W. rewrite each_forall in W.
    change (each_op (fun _ v => fits k v) (AnyOf ss)) with (each_op (fun _ v => fits k v) (AllOf ss)). rewrite each_forall.
    destruct (strings_cons (spec_string_within (Some k)) spec_to_string (each_op (fun _ v => fits k v)) ss) as [A B].
    { rewrite Forall_forall in *. auto. } { rewrite Forall_forall in *. auto. }
    cbn [spec_string_within spec_to_string]. split; intros F; [now rewrite (A F)|now rewrite (B F)].
  - rewrite each_forall in *.
    destruct (strings_cons (spec_string_within (Some k)) spec_to_string (each_op (fun _ v => fits k v)) ss) as [A B].
    { rewrite Forall_forall in *. auto. } { rewrite Forall_forall in *. auto. }
    cbn [spec_string_within spec_to_string]. split; intros F; [now rewrite (A F)|now rewrite (B F)].
Qed.

(** ** The next version may not print *)

Theorem next_too_long k : (1 <= k)%nat -> exists v w, wf v /\ fits k v /\ to_string_within (Some k) v = Ok (to_string v)
  /\ next_major v = Ok w /\ wf w /\ to_string_within (Some k) w = Err ValueError.
Proof.
  intros K. assert (P : (0 < 10 ^ Z.of_nat k)%Z) by (apply Z.pow_pos_nonneg; lia).
  set (n := (10 ^ Z.of_nat k - 1)%Z). exists (bare 0 [n]), (bare 0 [(n + 1)%Z]).
  assert (B : forall z, (0 <= z)%Z -> wf (bare 0 [z])).
  { intros z H. unfold wf, bare. cbn [v_epoch v_release v_pre v_post v_dev v_local]. split; [lia|]. split; [discriminate|]. split; [constructor; [exact H|constructor]|]. repeat (split; [exact I|]). exact I. }
  assert (W : wf (bare 0 [n])) by (apply B; unfold n; lia). assert (W' : wf (bare 0 [(n + 1)%Z])) by (apply B; unfold n; lia).
  assert (F : fits k (bare 0 [n])).
  { unfold fits, version_numbers. cbn. repeat constructor; [exact P|unfold n; lia]. }
  split; [exact W|]. split; [exact F|]. split; [now apply (strings_within k _ K W)|]. split.
  { unfold next_major, next_at, bare. cbn. destruct n; reflexivity. }
  split; [exact W'|]. apply (strings_within k _ K W'). unfold fits, version_numbers. cbn. intros H. inversion H as [|? ? _ H2]; subst. inversion H2; subst. unfold n in *. lia.
Qed.

(** Sets under a limit: as without, where all numbers are short. *)
Theorem sets_within k s :
  parse_version_set_within None s = parse_version_set s
  /\ (parse_version_set_within k s = parse_version_set s \/ parse_version_set_within k s = Err ValueError).
Proof.
  unfold parse_version_set_within, parse_version_set. rewrite specifier_unlimited. split; [reflexivity|].
  destruct (specifier_within_cases k s) as [-> | ->]; [left; reflexivity|right; reflexivity].
Qed.

Theorem sets_within_ok k s a : parse_version_set_within (Some k) s = Ok a <->
  parse_version_set s = Ok a /\ exists css xss, specification s css /\ Forall2 (Forall2 (fun c x => proper_clause c x /\ short k (snd x))) css xss.
Proof.
  unfold parse_version_set_within, parse_version_set. split.
  - destruct (parse_specifier_within (Some k) s) as [p|e] eqn:E; [|discriminate]. cbn [bind]. intros S.
    destruct (specifier_within_cases (Some k) s) as [C|C]; [|congruence]. rewrite <- C, E. split; [exact S|].
    apply specifier_within_ok in E. destruct E as (css & xss & D & F & _). eauto.
  - intros [S (css & xss & D & F)]. assert (E : parse_specifier_within (Some k) s = Ok (spec_of xss)) by (apply specifier_within_ok; eauto).
    destruct (specifier_within_cases (Some k) s) as [C|C]; [|congruence]. now rewrite C.
Qed.
