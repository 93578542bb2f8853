(** The messages of failed parsing. *)

From Coq Require Import List ZArith NArith String Bool Lia.
From Verif Require Import Py Segments Version VersionSets Operators Specifiers Regex Patterns Parsers Messages Spec Grammar Clauses SegmentSpec MessageSpec Orders
  RegexFacts Unambiguous VersionRegex ParseFacts ParseTheorems ClauseRegex ClauseFacts SpecText SpecParse OperatorFacts SetVersions PythonFacts SpecErrors AccessFacts.
Import ListNotations.
Open Scope Z_scope.

(** ** Without the messages *)

Lemma silent_untold {A} (r : result A) : silent (untold r) = r.
Proof. now destruct r. Qed.

Lemma silent_tell {A B} (r : told A) (f : A -> told B) r' f' : silent r = r' -> (forall a, silent (f a) = f' a) -> silent (tell r f) = bind r' f'.
Proof. intros <- F. destruct r; cbn; auto. Qed.

Lemma silent_each {A B} (f : A -> told B) g xs : (forall x, silent (f x) = g x) -> silent (tell_each f xs) = mapM g xs.
Proof.
  intros F. induction xs as [|x xs IH]; [reflexivity|]. cbn [tell_each mapM]. apply silent_tell; [apply F|]. intros y. apply silent_tell; [exact IH|reflexivity].
Qed.

Lemma silent_optional {A B} (f : A -> told B) g o : (forall x, silent (f x) = g x) -> silent (tell_optional f o) = mapO g o.
Proof. intros F. destruct o as [x|]; [|reflexivity]. cbn [tell_optional mapO]. apply silent_tell; [apply F|reflexivity]. Qed.

Lemma silent_tag_new c p v : silent (told_tag_new c p v) = tag_new c p v.
Proof. unfold told_tag_new, tag_new. now destruct (str_in (convert_phase p) (phase_set c)). Qed.

Lemma silent_parse_tag c s : silent (told_parse_tag c s) = parse_tag c s.
Proof.
  unfold told_parse_tag, parse_tag. destruct (fullmatch TAG s) as [m|]; [|reflexivity]. destruct (get_group G_PHASE m) as [p|]; [|reflexivity].
  destruct (get_group G_VALUE m) as [x|]; [|apply silent_tag_new]. apply silent_tell; [apply silent_untold|]. intros v. apply silent_tag_new.
Qed.

Lemma silent_release s : silent (told_release s) = rel_from_string s.
Proof.
  unfold told_release, rel_from_string. apply silent_tell; [apply silent_each; intros x; apply silent_untold|]. now intros [|x xs].
Qed.

Lemma silent_local s : silent (told_local s) = local_from_string s.
Proof.
  unfold told_local, local_from_string. apply silent_tell; [apply silent_each; intros x; apply silent_untold|]. now intros [|x xs].
Qed.

Lemma silent_parse_version name s : silent (told_parse_version name s) = parse_version s.
Proof.
  unfold told_parse_version, parse_version. destruct (fullmatch VERSION s) as [m|]; [|reflexivity].
  apply silent_tell; [destruct (get_group G_EPOCH m); [apply silent_untold|reflexivity]|]. intros e.
  apply silent_tell; [destruct (get_group G_RELEASE m); [apply silent_release|reflexivity]|]. intros r.
  apply silent_tell; [apply silent_optional, silent_parse_tag|]. intros pre.
  apply silent_tell; [apply silent_optional; intros x; apply silent_tell; [apply silent_untold|intros v; apply silent_tag_new]|]. intros imp.
  apply silent_tell; [destruct imp; [reflexivity|apply silent_optional, silent_parse_tag]|]. intros post.
  apply silent_tell; [apply silent_optional, silent_parse_tag|]. intros dev.
  apply silent_tell; [apply silent_optional, silent_local|reflexivity].
Qed.

Lemma silent_one t v : silent (let! s := told_one_new t v in Fine (Some s)) = let* s := one_new t v in Ok (Some s).
Proof. unfold told_one_new, one_new. now destruct (op_valid t v). Qed.

Lemma silent_with name p s : silent (told_parse_with name p s) = try_parse_with p s.
Proof.
  unfold told_parse_with, try_parse_with. destruct (fullmatch p s) as [m|]; [|reflexivity]. destruct (get_group G_OPERATOR m) as [o|]; [|reflexivity].
  apply silent_tell; [apply silent_untold|]. intros t. destruct (get_group G_VERSION m) as [x|]; [|reflexivity].
  apply silent_tell; [apply silent_parse_version|]. intros v. apply silent_one.
Qed.

Lemma silent_equal name s : silent (told_parse_equal name s) = try_parse_equal s.
Proof.
  unfold told_parse_equal, try_parse_equal. destruct (fullmatch EQUAL_SPECIFICATION s) as [m|]; [|reflexivity].
  apply silent_tell; [destruct (get_group G_OPERATOR m); [apply silent_untold|reflexivity]|]. intros t. destruct (get_group G_VERSION m) as [x|]; [|reflexivity].
  apply silent_tell; [apply silent_parse_version|]. intros v. apply silent_one.
Qed.

Lemma silent_wildcard name s : silent (told_parse_wildcard name s) = try_parse_wildcard s.
Proof.
  unfold told_parse_wildcard, try_parse_wildcard. destruct (fullmatch WILDCARD_SPECIFICATION s) as [m|]; [|reflexivity].
  apply silent_tell; [destruct (get_group G_OPERATOR m); [apply silent_untold|reflexivity]|]. intros t. destruct (get_group G_VERSION m) as [x|]; [|reflexivity].
  apply silent_tell; [apply silent_parse_version|]. intros v. apply silent_one.
Qed.

Lemma silent_first ps qs s : Forall2 (fun p q => silent (p s) = q s) ps qs -> silent (told_first ps s) = first_parser qs s.
Proof.
  induction 1 as [|p q ps qs E F IH]; [reflexivity|]. cbn [told_first first_parser]. apply silent_tell; [exact E|]. intros [x|]; [reflexivity|exact IH].
Qed.

Lemma silent_single name s : silent (told_single name s) = parse_single s.
Proof.
  unfold told_single, parse_single. apply silent_first. repeat constructor; [apply silent_wildcard|apply silent_with|apply silent_equal|apply silent_with..].
Qed.

Lemma silent_all name s : silent (told_all name s) = parse_all s.
Proof. unfold told_all, parse_all. apply silent_tell; [apply silent_each, silent_single|reflexivity]. Qed.

Lemma silent_any name s : silent (told_any name s) = parse_any s.
Proof. unfold told_any, parse_any. apply silent_tell; [apply silent_each, silent_all|reflexivity]. Qed.

Lemma silent_specifier name s : silent (told_parse_specifier name s) = parse_specifier s.
Proof. apply silent_any. Qed.

Lemma silent_set name s : silent (told_parse_version_set name s) = parse_version_set s.
Proof. unfold told_parse_version_set, parse_version_set. apply silent_tell; [apply silent_specifier|]. intros p. apply silent_untold. Qed.

Theorem told_same name : (forall c s, silent (told_parse_tag c s) = parse_tag c s) /\ (forall s, silent (told_parse_version name s) = parse_version s)
  /\ (forall s, silent (told_parse_specifier name s) = parse_specifier s) /\ forall s, silent (told_parse_version_set name s) = parse_version_set s.
Proof. split; [exact silent_parse_tag|]. split; [exact (silent_parse_version name)|]. split; [exact (silent_specifier name)|exact (silent_set name)]. Qed.

Lemma fine_iff {A} (r : told A) a : r = Fine a <-> silent r = Ok a.
Proof. destruct r; cbn; split; congruence. Qed.

(** ** Tags *)

Lemma told_tag_new_err c p v e m : told_tag_new c p v = Told e m <->
  e = ValueError /\ m = Some (phase_refused (convert_phase p) c) /\ tag_new c p v = Err ValueError.
Proof.
  unfold told_tag_new, tag_new. destruct (str_in (convert_phase p) (phase_set c)); split; try discriminate; [now intros (_ & _ & ?)| |].
  - intros [= <- <-]. split; [reflexivity|]. split; [|reflexivity]. now destruct c.
  - intros (-> & -> & _). now destruct c.
Qed.

Lemma cased_fixed c w p : In p (class_words c) -> spells w p -> ~ In w (class_words c) -> convert_phase w = w.
Proof.
  intros Hp S Hw. assert (L : low w = false) by (destruct (low w) eqn:E; auto; rewrite (spells_low w p) in Hw by auto; contradiction).
  assert (X : forall q, low q = true -> str_eqb q w = false).
  { intros q Q. destruct (str_eqb q w) eqn:E; auto. apply str_eqb_eq in E. congruence. }
  unfold convert_phase. cbn [SHORT_TO_PHASE PHASE_TO_SHORT map dict_get fst snd]. repeat (rewrite X by reflexivity). reflexivity.
Qed.

Lemma told_tag_eq c u x : letters u -> value_tree x -> told_parse_tag c (u ++ value_text x) = told_tag_new c u (value_reading x).
Proof.
  intros U X. unfold told_parse_tag. rewrite fullmatch_TAG by auto. destruct x as [[o d]|]; cbn [get_group app group_index N.eqb Pos.eqb snd].
  - rewrite py_int_digits by apply X. reflexivity.
  - reflexivity.
Qed.

Lemma told_tag_word c t : tag_tree (class_words c) t ->
  told_parse_tag c (tag_word t) = if str_in (g_word t) (class_words c) then Fine (tag_reading t) else Told ValueError (Some (phase_refused (g_word t) c)).
Proof.
  intros (_ & (p & Hp & S) & V). destruct t as [o w x]. cbn [g_word g_value] in *.
  unfold tag_word, tag_reading. cbn [g_word g_value].
  fold (value_text x). rewrite (told_tag_eq c w x); auto; [|apply (spells_letters w p); auto; now apply class_all in Hp].
  destruct (str_in w (class_words c)) eqn:E.
  - apply ParseFacts.str_in_iff in E. apply fine_iff. rewrite silent_tag_new. now apply tag_new_word.
  - assert (N : ~ In w (class_words c)) by (intros H; apply ParseFacts.str_in_iff in H; congruence).
    apply told_tag_new_err. split; [reflexivity|]. split; [now rewrite (cased_fixed c w p)|]. now apply (tag_new_cased c w p).
Qed.

Lemma convert_long w : convert_phase w = long_form w.
Proof.
  unfold convert_phase, long_form. cbn [SHORT_TO_PHASE PHASE_TO_SHORT map dict_get fst snd long_forms find].
  change (lit "a") with A_LITERAL. change (lit "b") with B_LITERAL. change (lit "c") with C_LITERAL. change (lit "pre") with PRE. change (lit "r") with R_LITERAL.
  repeat match goal with |- context [str_eqb ?k w] => destruct (str_eqb k w) eqn:?; [try reflexivity; match goal with H : str_eqb k w = true |- _ => apply str_eqb_eq in H; subst w; reflexivity end|] end.
  reflexivity.
Qed.

Theorem tag_told c s e m : told_parse_tag c s = Told e m <->
  (e = ParseTagError /\ (forall w n, ~ spelled_tag s w n) /\ m = Some (cannot_parse s (class_called c)))
  \/ exists w n, spelled_tag s w n /\ ~ In w (tag_words c) /\ e = ValueError /\ m = Some (phase_refused (long_form w) c).
Proof.
  destruct (parse_tag_exact c s) as [A B]. split.
  - intros H. destruct (fullmatch TAG s) as [r|] eqn:E.
    + right. apply fullmatch_sound, D_TAG in E as (u & x & U & X & -> & _). exists u, (value_reading x).
      assert (S : spelled_tag (u ++ value_text x) u (value_reading x)) by (apply spelled_iff; eauto). split; [exact S|].
      rewrite told_tag_eq in H by assumption. apply told_tag_new_err in H as (-> & -> & H). split; [|now rewrite convert_long].
      apply A in S. rewrite parse_tag_eq, H in S by assumption. destruct (str_in u (tag_words c)) eqn:E; [discriminate|].
      intros I. apply ParseFacts.str_in_iff in I. congruence.
    + left. unfold told_parse_tag in H. rewrite E in H. injection H as <- <-. split; [reflexivity|]. split; [|now destruct c].
      intros w n S. apply spelled_iff in S as (x & U & X & -> & ->). now rewrite (fullmatch_TAG w x U X) in E.
  - intros [(-> & N & ->)|(w & n & S & I & -> & ->)].
    + unfold told_parse_tag. destruct (fullmatch TAG s) as [r|] eqn:E; [|now destruct c].
      apply fullmatch_sound, D_TAG in E as (u & x & U & X & -> & _). destruct (N u (value_reading x)). apply spelled_iff. eauto.
    + pose proof S as S'. apply spelled_iff in S' as (x & U & X & -> & ->). rewrite told_tag_eq by assumption. apply told_tag_new_err.
      split; [reflexivity|]. split; [now rewrite convert_long|]. apply A in S. rewrite parse_tag_eq in S by assumption. rewrite S.
      destruct (str_in w (tag_words c)) eqn:E; [|reflexivity]. apply ParseFacts.str_in_iff in E. contradiction.
Qed.

(** ** Versions *)

Definition tag_verdict {A} (c : tag_class) (o : option gtag) (k : told A) : told A :=
  match o with
  | Some u => if str_in (g_word u) (class_words c) then k else Told ValueError (Some (phase_refused (g_word u) c))
  | None => k
  end.

Definition explicit (p : option gpost) : option gtag := match p with Some (Explicit u) => Some u | _ => None end.

Definition verdict {A} (t : gversion) (k : told A) : told A :=
  tag_verdict PreTag (g_pre t) (tag_verdict PostTag (explicit (g_post t)) (tag_verdict DevTag (g_dev t) k)).

Lemma told_optional_tree {B} c o (k : option tag -> told B) : opt (tag_tree (class_words c)) o ->
  tell (told_tag_optional c (option_map tag_word o)) k = tag_verdict c o (k (option_map tag_reading o)).
Proof.
  destruct o as [t|]; intros T; [|reflexivity]. cbn [opt] in T. unfold told_tag_optional. cbn [option_map tell_optional tag_verdict].
  rewrite told_tag_word by auto. now destruct (str_in (g_word t) (class_words c)).
Qed.

Lemma told_tree name t : tree t -> told_parse_version name (text t) = verdict t (Fine (reading t)).
Proof.
  intros T. unfold told_parse_version. rewrite fullmatch_version by auto.
  rewrite get_epoch, get_release, get_pre, get_implicit, get_post, get_dev, get_local.
  destruct T as (_ & E & F & M & P & Q & G & L & _).
  assert (X1 : told_epoch_optional (g_epoch t) = Fine match g_epoch t with None => 0 | Some d => number d end).
  { destruct (g_epoch t); cbn; auto. now rewrite py_int_digits. }
  assert (X2 : told_release (release_text (g_first t) (g_more t)) = Fine (map number (g_first t :: g_more t))).
  { apply fine_iff. rewrite silent_release. now apply release_reading. }
  assert (X3 : told_local_optional (option_map local_text (g_local t)) = Fine (option_map (fun l => map part_reading (fst l :: map snd (snd l))) (g_local t))).
  { destruct (g_local t) as [l|]; auto. unfold told_local_optional. cbn [option_map tell_optional].
    assert (Y : told_local (local_text l) = Fine (map part_reading (fst l :: map snd (snd l)))) by (apply fine_iff; rewrite silent_local; now apply local_reading).
    now rewrite Y. }
  cbn [told_release_optional]. rewrite X1, X2, X3. cbn [tell]. rewrite (told_optional_tree PreTag) by exact P. unfold verdict. f_equal.
  destruct (g_post t) as [[d|u]|] eqn:K; cbn [opt post_tree explicit] in *.
  - unfold told_post_implicit_optional. cbn [tell_optional]. rewrite py_int_digits by exact Q. cbn [untold tell tag_verdict].
    change (told_tag_new PostTag (default_phase PostTag) (number d)) with (Fine (Tag (lit "post") (number d))). cbn [tell].
    rewrite (told_optional_tree DevTag) by exact G. unfold reading. now rewrite K.
  - unfold told_post_implicit_optional. cbn [tell_optional tell]. change (Some (tag_word u)) with (option_map tag_word (Some u)).
    rewrite (told_optional_tree PostTag (Some u)) by exact Q. f_equal. rewrite (told_optional_tree DevTag) by exact G. unfold reading. now rewrite K.
  - unfold told_post_implicit_optional. cbn [tell_optional tell told_tag_optional tag_verdict]. rewrite (told_optional_tree DevTag) by exact G. unfold reading. now rewrite K.
Qed.

Lemma told_no_tree name s : (~ exists t, tree t /\ text t = s) -> told_parse_version name s = Told ParseVersionError (Some (cannot_parse s name)).
Proof. intros H. apply fullmatch_version_none in H. unfold told_parse_version. now rewrite H. Qed.

Lemma str_in_dec w ws : (str_in w ws = true /\ In w ws) \/ (str_in w ws = false /\ ~ In w ws).
Proof.
  destruct (str_in w ws) eqn:E; [left|right]; (split; [reflexivity|]); [now apply ParseFacts.str_in_iff|]. intros I. apply ParseFacts.str_in_iff in I. congruence.
Qed.

Lemma tag_verdict_cases {A} c o (k : told A) :
  (opt (lower_tag (class_words c)) o /\ tag_verdict c o k = k)
  \/ exists u, o = Some u /\ ~ In (g_word u) (class_words c) /\ tag_verdict c o k = Told ValueError (Some (phase_refused (g_word u) c)).
Proof.
  destruct o as [u|]; [|now left]. cbn [tag_verdict opt]. destruct (str_in_dec (g_word u) (class_words c)) as [[-> I]|[-> I]]; [left; split; [exact I|reflexivity]|right; eauto].
Qed.

Lemma post_explicit t : opt (lower_tag post_words) (explicit (g_post t)) <-> post_lower t.
Proof. unfold post_lower. destruct (g_post t) as [[d|u]|]; reflexivity. Qed.

Lemma verdict_cases {A} t (k : told A) :
  (lower_case t /\ verdict t k = k) \/ exists w c, first_capital t w c /\ verdict t k = Told ValueError (Some (phase_refused w c)).
Proof.
  unfold verdict. destruct (tag_verdict_cases PreTag (g_pre t) (tag_verdict PostTag (explicit (g_post t)) (tag_verdict DevTag (g_dev t) k))) as [[L1 ->]|(u & E & I & ->)].
  2: { right. exists (g_word u), PreTag. split; [left; eauto 6|reflexivity]. }
  destruct (tag_verdict_cases PostTag (explicit (g_post t)) (tag_verdict DevTag (g_dev t) k)) as [[L2 ->]|(u & E & I & ->)].
  2: { right. exists (g_word u), PostTag. split; [|reflexivity]. right. left. split; [reflexivity|]. split; [exact L1|]. exists u.
       split; [|auto]. destruct (g_post t) as [[d|u']|]; cbn in E; congruence. }
  apply post_explicit in L2. destruct (tag_verdict_cases DevTag (g_dev t) k) as [[L3 ->]|(u & E & I & ->)].
  - left. split; [|reflexivity]. split; [exact L1|]. split; [exact L2|exact L3].
  - right. exists (g_word u), DevTag. split; [|reflexivity]. right. right. split; [reflexivity|]. split; [exact L1|]. split; [exact L2|]. eauto.
Qed.

Lemma capital_not_lower t w c : first_capital t w c -> ~ lower_case t.
Proof.
  intros [(-> & u & E & <- & N)|[(-> & _ & u & E & <- & N)|(-> & _ & _ & u & E & <- & N)]] (L1 & L2 & L3);
    [rewrite E in L1|rewrite E in L2|rewrite E in L3]; contradiction.
Qed.

Lemma capital_unique t w c w' c' : first_capital t w c -> first_capital t w' c' -> w = w' /\ c = c'.
Proof.
  unfold first_capital, pre_lower, post_lower.
  intros [(-> & u & E & <- & N)|[(-> & P & u & E & <- & N)|(-> & P & Q & u & E & <- & N)]]
         [(-> & u' & E' & <- & N')|[(-> & P' & u' & E' & <- & N')|(-> & P' & Q' & u' & E' & <- & N')]];
    try (rewrite E in E'; injection E' as <-; auto); exfalso;
    repeat match goal with H : g_pre t = _ |- _ => rewrite H in * | H : g_post t = _ |- _ => rewrite H in * | H : g_dev t = _ |- _ => rewrite H in * end; cbn [opt] in *; unfold lower_tag in *; tauto.
Qed.

Theorem version_told name s e m : told_parse_version name s = Told e m <->
  (e = ParseVersionError /\ (forall t, tree t -> text t <> s) /\ m = Some (cannot_parse s name))
  \/ exists t w c, tree t /\ text t = s /\ first_capital t w c /\ e = ValueError /\ m = Some (phase_refused w c).
Proof.
  split.
  - intros H. destruct (fullmatch VERSION s) as [r|] eqn:E.
    + right. apply fullmatch_version_sound in E as (t & T & X & _). exists t. symmetry in X. subst s. rewrite told_tree in H by exact T.
      destruct (verdict_cases t (Fine (reading t))) as [[_ V]|(w & c & F & V)]; rewrite V in H; [discriminate|]. injection H as <- <-. exists w, c. auto.
    + left. unfold told_parse_version in H. rewrite E in H. injection H as <- <-. split; [reflexivity|]. split; [|reflexivity].
      intros t T X. apply fullmatch_version_none in E. apply E. eauto.
  - intros [(-> & N & ->)|(t & w & c & T & <- & F & -> & ->)].
    + apply told_no_tree. intros (t & T & X). now apply (N t).
    + rewrite told_tree by exact T. destruct (verdict_cases t (Fine (reading t))) as [[L _]|(w' & c' & F' & ->)]; [now destruct (capital_not_lower t w c)|].
      now destruct (capital_unique t w c w' c' F F') as [<- <-].
Qed.

(** ** Clauses *)

Lemma ops_unique (l : list (pstr * op_type)) o t t' : NoDup (map fst l) -> In (o, t) l -> In (o, t') l -> t = t'.
Proof.
  induction l as [|[p q] l IH]; intros N A B; [destruct A|]. cbn [map fst] in N. inversion N as [|? ? X Y]. subst.
  destruct A as [A|A], B as [B|B]; [congruence|..].
  - injection A as -> ->. destruct X. now apply (in_map fst) in B.
  - injection B as -> ->. destruct X. now apply (in_map fst) in A.
  - now apply IH.
Qed.

Lemma nodup_ops : NoDup (map fst equal_ops) /\ NoDup (map fst public_ops) /\ NoDup (map fst wild_ops).
Proof.
  assert (K : forall l : list pstr, (fix go l := match l with [] => true | x :: l' => negb (str_in x l') && go l' end) l = true -> NoDup l).
  { induction l as [|x l IH]; intros H; constructor; apply andb_true_iff in H as [A B]; auto.
    intros I. apply ParseFacts.str_in_iff in I. rewrite I in A. discriminate. }
  repeat split; apply K; reflexivity.
Qed.

Lemma clause_unique s t v t' v' : clause s t v -> clause s t' v' -> t = t' /\ v = v'.
Proof.
  destruct nodup_ops as (N1 & N2 & N3).
  assert (W : forall c, wildcard c -> any_wildcard c) by (intros c [->| ->]; [left|right; left]; reflexivity).
  intros [o O T -> |o O T G -> |o c u O C X T ->] [o' O' T' E |o' O' T' G' E |o' c' u' O' C' X' T' E].
  - apply (strs_neq o t _ o' t') in E as [<- E]; [|now apply in_equal|now apply in_equal|now apply tree_head..].
    split; [now apply (ops_unique _ _ _ _ N1 O)|now apply text_unique].
  - apply (strs_neq o t _ o' t') in E as [<- E]; [|now apply in_equal|now apply in_public|now apply tree_head..].
    exfalso. revert O O'. now apply apart_neq.
  - apply (strs_neq o t _ o' t') in E as [<- E]; [|now apply in_equal|now apply in_wild|now apply tree_head|now apply (wild_tree_head c' v'); auto].
    exfalso. symmetry in E. revert E. apply (wild_not_version c' v'); auto; [now apply tree_loose in T'|now apply tree_loose in T].
  - apply (strs_neq o t _ o' t') in E as [<- E]; [|now apply in_public|now apply in_equal|now apply tree_head..].
    exfalso. revert O O'. now apply apart_neq.
  - apply (strs_neq o t _ o' t') in E as [<- E]; [|now apply in_public|now apply in_public|now apply tree_head..].
    split; [now apply (ops_unique _ _ _ _ N2 O)|now apply text_unique].
  - apply (strs_neq o t _ o' t') in E as [<- E]; [|now apply in_public|now apply in_wild|now apply tree_head|now apply (wild_tree_head c' v'); auto].
    exfalso. revert O O'. now apply apart_neq.
  - apply (strs_neq o t _ o' t') in E as [<- E]; [|now apply in_wild|now apply in_equal|now apply (wild_tree_head c v); auto|now apply tree_head].
    exfalso. revert E. apply (wild_not_version c v); auto; [now apply tree_loose in T|now apply tree_loose in T'].
  - apply (strs_neq o t _ o' t') in E as [<- E]; [|now apply in_wild|now apply in_public|now apply (wild_tree_head c v); auto|now apply tree_head].
    exfalso. revert O' O. now apply apart_neq.
  - apply (strs_neq o t _ o' t') in E as [<- E]; [|now apply in_wild|now apply in_wild|now apply (wild_tree_head c v); auto|now apply (wild_tree_head c' v'); auto].
    split; [now apply (ops_unique _ _ _ _ N3 O)|]. apply text_unique; auto.
    rewrite <- (wild_replace c v u), <- (wild_replace c' v' u'), E; auto; [now apply tree_loose in T'|now apply tree_loose in T].
Qed.

(** What is said of a clause. *)
Definition judged (t : op_type) (v : gversion) : told spec := verdict v (told_one_new t (reading v)).

Lemma verdict_tell {A B} v (k : told A) (f : A -> told B) : tell (verdict v k) f = verdict v (tell k f).
Proof.
  unfold verdict, tag_verdict. destruct (g_pre v) as [p|]; [destruct (str_in _ _); [|reflexivity]|]; destruct (explicit (g_post v)) as [q|];
    try (destruct (str_in _ _); [|reflexivity]); destruct (g_dev v) as [d|]; try (destruct (str_in _ _)); reflexivity.
Qed.

Definition told_match (name s : pstr) (r : told (option spec)) : Prop :=
  r = Fine None \/ (exists t v, clause s t v /\ r = tell (judged t v) (fun x => Fine (Some x)))
  \/ (exists o t v u, In (o, t) wild_ops /\ wild 88 v u /\ tree v /\ s = o ++ text u /\ r = Told ParseVersionError (Some (cannot_parse (text u) name))).


Lemma told_wild name o t c v u : In (o, t) wild_ops -> any_wildcard c -> wild c v u -> tree v ->
  told_parse_wildcard name (o ++ text u) = if (c =? 88)%N then Told ParseVersionError (Some (cannot_parse (text u) name)) else tell (judged t v) (fun s => Fine (Some s)).
Proof.
  intros O C W T. apply wild_ops_strs in O as [O E]. assert (H : D WILDCARD_VERSION (text u) []) by (apply wild_iff; split; eauto 8).
  destruct (optional_match eq_strs eq_strs_ok eq_strs_some WILDCARD_VERSION wildcard_head wildcard_no_operator o (text u) [] O H) as (m & M & M1 & M2).
  unfold told_parse_wildcard, WILDCARD_SPECIFICATION, EQUAL_OPERATOR. fold eq_strs. rewrite M, M1, M2.
  assert (E' : (match given o with None => Fine WILDCARD_EQUAL | Some o => untold (op_of_value (o ++ lit "*")) end) = Fine t).
  { apply fine_iff. destruct (given o); [rewrite silent_untold|]; exact E. }
  rewrite E'. cbn [tell].
  apply tree_loose in T as T'. destruct T' as [L _].
  destruct (N.eqb_spec c 88) as [-> |X].
  - destruct (wild_plain 88%N v u W L) as (a & _ & B & P). rewrite B, !replace_app, replace_plain by auto.
    change (replace_char 42 48 (replace_char 120 42 [88%N])) with [88%N]. rewrite <- B.
    rewrite told_no_tree; [reflexivity|]. intros (t' & T' & E''). apply tree_loose in T' as [L' _]. rewrite B in E''.
    symmetry in E''. revert E''. apply not_plain_version; auto. discriminate.
  - rewrite (wild_replace c v u), told_tree; auto; [unfold judged; now rewrite !verdict_tell|].
    destruct C as [C|[C|C]]; [left|right|]; auto. contradiction.
Qed.

Lemma told_equal name o t v : In (o, t) equal_ops -> tree v -> told_parse_equal name (o ++ text v) = tell (judged t v) (fun s => Fine (Some s)).
Proof.
  intros O T. apply equal_ops_strs in O as [O E]. assert (H : exists ds, D VERSION (text v) ds) by (apply D_version_tree; eauto). destruct H as [ds H].
  destruct (optional_match eq_strs eq_strs_ok eq_strs_some VERSION version_head version_no_operator o (text v) ds O H) as (m & M & M1 & M2).
  unfold told_parse_equal, EQUAL_SPECIFICATION, EQUAL_OPERATOR. fold eq_strs. rewrite M, M1, M2.
  assert (E' : (match given o with None => Fine EQUAL | Some o => untold (op_of_value o) end) = Fine t).
  { apply fine_iff. destruct (given o); [rewrite silent_untold|]; exact E. }
  rewrite E'. cbn [tell]. rewrite told_tree by auto. unfold judged. now rewrite !verdict_tell.
Qed.

Lemma wild_told name s : told_match name s (told_parse_wildcard name s).
Proof.
  destruct (none_or_match (fullmatch WILDCARD_SPECIFICATION s)) as [E|(m & E)].
  { left. unfold told_parse_wildcard. now rewrite E. }
  assert (X : exists o t c v u, In (o, t) wild_ops /\ any_wildcard c /\ wild c v u /\ tree v /\ s = o ++ text u).
  { apply fullmatch_sound in E. apply D_cat_iff in E as (w1 & w2 & d1 & d2 & -> & -> & H1 & H2).
    apply D_grp_iff in H2 as (es & -> & H2). apply wild_iff in H2 as [(c & v & u & C & W & T & ->) ->].
    apply D_opt_iff in H1 as [H1|[-> ->]].
    - apply (D_operator eq_strs eq_strs_ok eq_strs_some) in H1 as [H1 _]. destruct (strs_wild_ops w1 (or_intror H1)) as [t O]. exists w1, t, c, v, u. auto.
    - exists [], WILDCARD_EQUAL, c, v, u. cbn. auto 8. }
  destruct X as (o & t & c & v & u & O & C & W & T & ->). rewrite (told_wild name o t c v u) by auto.
  destruct (N.eqb_spec c 88) as [-> |X].
  - right. right. exists o, t, v, u. auto.
  - right. left. exists t, v. split; auto. apply (clause_wild _ t v o c u); auto. unfold wildcard. destruct C as [C|[C|C]]; auto. contradiction.
Qed.

Lemma equal_told name s : told_match name s (told_parse_equal name s).
Proof.
  destruct (none_or_match (fullmatch EQUAL_SPECIFICATION s)) as [E|(m & E)].
  { left. unfold told_parse_equal. now rewrite E. }
  assert (X : exists o t v, In (o, t) equal_ops /\ tree v /\ s = o ++ text v).
  { apply fullmatch_sound in E. apply D_cat_iff in E as (w1 & w2 & d1 & d2 & -> & -> & H1 & H2).
    apply D_grp_iff in H2 as (es & -> & H2). assert (Y : exists v, tree v /\ w2 = text v) by (apply D_version_tree; eauto). destruct Y as (v & T & ->).
    apply D_opt_iff in H1 as [H1|[-> ->]].
    - apply (D_operator eq_strs eq_strs_ok eq_strs_some) in H1 as [H1 _]. destruct (strs_equal_ops w1 (or_intror H1)) as [t O]. exists w1, t, v. auto.
    - exists [], EQUAL, v. cbn. auto 8. }
  destruct X as (o & t & v & O & T & ->). right. left. exists t, v. split; [now apply (clause_equal _ t v o)|now apply told_equal].
Qed.

Lemma public_told name l ops s : (forall o, In o ops -> In o (op_strs l)) -> (forall o t, In (o, t) l -> In o ops /\ op_of_value o = Ok t) ->
  forallb (fun o => negb (str_eqb o []) && forallb sym o) ops = true -> ops <> [] -> (forall x, In x l -> In x public_ops) ->
  told_match name s (told_parse_with name (Cat (Grp G_OPERATOR (alts ops)) (Grp G_VERSION PUBLIC_VERSION)) s).
Proof.
  intros A B C N I. destruct (none_or_match (fullmatch (Cat (Grp G_OPERATOR (alts ops)) (Grp G_VERSION PUBLIC_VERSION)) s)) as [E|(m & E)].
  { left. unfold told_parse_with. now rewrite E. }
  assert (X : exists o t v, In (o, t) l /\ tree v /\ g_local v = None /\ s = o ++ text v).
  { apply fullmatch_sound in E. apply D_cat_iff in E as (w1 & w2 & d1 & d2 & -> & -> & H1 & H2).
    apply D_grp_iff in H2 as (es & -> & H2). assert (Y : exists v, tree v /\ g_local v = None /\ w2 = text v) by (apply D_public_tree; eauto).
    destruct Y as (v & T & G & ->). apply (D_operator ops (strs_sym ops C) N) in H1 as [H1 _].
    apply A, in_map_iff in H1 as ([o t] & <- & O). exists o, t, v. auto. }
  destruct X as (o & t & v & O & T & G & ->). right. left. exists t, v. split; [apply (clause_public _ t v o); auto|].
  apply B in O as [O O']. assert (H : exists ds, D PUBLIC_VERSION (text v) ds) by (apply D_public_tree; eauto). destruct H as [ds H].
  destruct (operator_match ops (strs_sym ops C) N PUBLIC_VERSION public_head public_no_operator o (text v) ds O H) as (m' & M & M1 & M2).
  unfold told_parse_with. rewrite M, M1, M2, O'. cbn [untold tell]. rewrite told_tree by auto. unfold judged. now rewrite !verdict_tell.
Qed.

Lemma parsers_told name s q : In q [told_parse_wildcard name; told_parse_order name; told_parse_equal name; told_parse_caret name; told_parse_tilde name] -> told_match name s (q s).
Proof.
  cbn [In]. intros [<-|[<-|[<-|[<-|[<-|[]]]]]].
  - apply wild_told.
  - apply (public_told name order_ops); [apply order_strs|apply order_strs|reflexivity|discriminate|]. intros x H. apply public_cases. auto.
  - apply equal_told.
  - apply (public_told name caret_ops); [apply caret_strs|apply caret_strs|reflexivity|discriminate|]. intros x H. apply public_cases. auto.
  - apply (public_told name tilde_ops); [apply tilde_strs|apply tilde_strs|reflexivity|discriminate|]. intros x H. apply public_cases. auto.
Qed.

Lemma told_first_told ps s e m : told_first ps s = Told e m ->
  (exists q, In q ps /\ q s = Told e m) \/ (e = ParseSpecificationError /\ m = Some (cannot_parse s (lit "specification"))).
Proof.
  induction ps as [|q ps IH]; [cbn [told_first]; intros H; right; injection H as <- <-; auto|]. cbn [told_first]. destruct (q s) as [[x|]|] eqn:E; cbn [tell]; try discriminate.
  - intros H. apply IH in H as [(r & H & R)|H]; auto. left. exists r. cbn. auto.
  - intros [= -> ->]. left. exists q. cbn. auto.
Qed.

Lemma judged_told t v e m : tree v -> judged t v = Told e m ->
  e = ValueError /\ ((exists w k, first_capital v w k /\ m = Some (phase_refused w k)) \/ (lower_case v /\ t = TILDE_EQUAL /\ g_more v = [] /\ m = Some one_segment)).
Proof.
  intros T. unfold judged. destruct (verdict_cases v (told_one_new t (reading v))) as [[L ->]|(w & k & F & ->)].
  - unfold told_one_new. destruct (op_valid t (reading v)) eqn:O; [discriminate|]. intros [= <- <-]. split; auto. right. split; auto.
    assert (K : ~ op_made t (reading v)) by (intros M; apply op_valid_iff in M; [congruence|now apply wf_valid, reading_wf]).
    rewrite made_more in K by auto. destruct (g_more v) eqn:G; [|exfalso; apply K; discriminate].
    split; [|auto]. destruct t; auto; exfalso; apply K; discriminate.
  - intros [= <- <-]. split; auto. left. eauto.
Qed.

Lemma single_same name c : silent (told_single name c) = parse_single c.
Proof. apply silent_single. Qed.

Lemma complaint_error name c e m : complaint name c e m -> clause_error c e.
Proof.
  intros [(-> & t & v & C & H)|[(-> & o & t & v & u & O & W & T & -> & _)|(-> & A & B & _)]].
  - left. split; auto. exists t, v. split; auto. destruct H as [(w & k & F & _)|(_ & H & H' & _)]; [left|right; auto]. intros L. now apply (capital_not_lower v w k).
  - right. left. split; auto. exists o, t, v, u. auto.
  - right. right. auto.
Qed.

Lemma single_complaint name c e m : told_single name c = Told e m -> exists m', m = Some m' /\ complaint name c e m'.
Proof.
  intros H. pose proof (f_equal silent H) as H'. rewrite single_same in H'. cbn [silent] in H'.
  apply told_first_told in H as [(q & I & H)|[-> ->]].
  - apply (parsers_told name c) in I as [I|[(t & v & C & I)|(o & t & v & u & O & W & T & -> & I)]]; rewrite I in H; try discriminate.
    + destruct (judged t v) as [x|e' m'] eqn:J; [discriminate|]. cbn [tell] in H. injection H as -> ->.
      apply judged_told in J as [-> [(w & k & F & ->)|(L & -> & G & ->)]]; [..|now apply clause_tree in C]; eexists; (split; [reflexivity|]); left; split; auto.
      * exists t, v. split; eauto 6.
      * exists TILDE_EQUAL, v. auto 8.
    + injection H as <- <-. eexists. split; [reflexivity|]. right. left. split; auto. exists o, t, v, u. auto.
  - eexists. split; [reflexivity|]. apply single_err in H' as [(? & _)|[(? & _)|(_ & A & B)]]; try discriminate. right. right. auto.
Qed.

Lemma complaint_unique name c e e' m m' : complaint name c e m -> complaint name c e' m' -> e = e' /\ m = m'.
Proof.
  intros A B. assert (E : e = e').
  { apply complaint_error, single_err_iff in A. apply complaint_error, single_err_iff in B. congruence. }
  split; auto. subst e'.
  destruct A as [(-> & t & v & C & H)|[(-> & o & t & v & u & O & W & T & -> & ->)|(-> & _ & _ & ->)]],
    B as [(X & t' & v' & C' & H')|[(X & o' & t' & v' & u' & O' & W' & T' & Y & ->)|(X & _ & _ & ->)]]; try discriminate X; auto.
  - destruct (clause_unique _ _ _ _ _ C C') as [<- <-].
    destruct H as [(w & k & F & ->)|(L & _ & _ & ->)], H' as [(w' & k' & F' & ->)|(L' & _ & _ & ->)]; auto.
    + now destruct (capital_unique v w k w' k') as [-> ->].
    + now destruct (capital_not_lower v w k).
    + now destruct (capital_not_lower v w' k').
  - apply (strs_neq o t _ o' t') in Y as [_ ->]; auto; [now apply in_wild|now apply in_wild|apply (wild_tree_head 88%N v); auto|apply (wild_tree_head 88%N v'); auto];
      right; right; reflexivity.
Qed.

Theorem single_told name c e m : told_single name c = Told e m <-> exists m', m = Some m' /\ complaint name c e m'.
Proof.
  split; [apply single_complaint|]. intros (m' & -> & H). pose proof (complaint_error _ _ _ _ H) as E. apply single_err_iff in E. rewrite <- (single_same name) in E.
  destruct (told_single name c) as [x|e' o] eqn:K; [discriminate|]. cbn [silent] in E. injection E as ->.
  apply single_complaint in K as (m & -> & K). now destruct (complaint_unique _ _ _ _ _ _ H K) as [_ ->].
Qed.

(** ** Whole specifications *)

Lemma single_fine name c : (exists x, told_single name c = Fine x) <-> parses c.
Proof.
  unfold parses. rewrite <- (single_same name). destruct (told_single name c); cbn [silent]; split; intros (x & H); try discriminate; eauto.
Qed.

Lemma each_first {A B} (f : A -> told B) xs e m : tell_each f xs = Told e m <-> exists a x b, xs = a ++ x :: b /\ Forall (fun x => exists y, f x = Fine y) a /\ f x = Told e m.
Proof.
  induction xs as [|x xs IH]; cbn [tell_each].
  - split; [discriminate|]. intros (a & x & b & E & _). now destruct a.
  - destruct (f x) as [y|e' m'] eqn:E; cbn [tell].
    + assert (X : tell (tell_each f xs) (fun ys => Fine (y :: ys)) = Told e m <-> tell_each f xs = Told e m) by (destruct (tell_each f xs); cbn [tell]; split; congruence).
      rewrite X, IH. split.
      * intros (a & z & b & -> & F & H). exists (x :: a), z, b. split; [reflexivity|]. split; [constructor; eauto|exact H].
      * intros ([|z a] & w & b & Q & F & H); cbn [app] in Q; injection Q as <- ->; [congruence|]. inversion F. exists a, w, b. auto.
    + split; [intros [= -> ->]; exists [], x, xs; auto|]. intros ([|z a] & w & b & Q & F & H); cbn [app] in Q; injection Q as <- ->; [congruence|].
      inversion F as [|? ? (y & Y) _]. congruence.
Qed.

Lemma all_fine name w : (exists p, told_all name w = Fine p) <-> Forall parses (split_on 44 w).
Proof. rewrite <- all_ok_iff, <- (silent_all name). destruct (told_all name w); cbn [silent]; split; intros (x & H); try discriminate; eauto. Qed.

Lemma all_told name w e m : told_all name w = Told e m <-> exists a c b, split_on 44 w = a ++ c :: b /\ Forall parses a /\ told_single name c = Told e m.
Proof.
  assert (X : told_all name w = Told e m <-> tell_each (told_single name) (split_on 44 w) = Told e m) by (unfold told_all; destruct (tell_each _ _); cbn [tell]; split; congruence).
  rewrite X, each_first. split; intros (a & c & b & E & F & H); exists a, c, b; (split; [exact E|split; [|exact H]]); (eapply Forall_impl; [|exact F]); intros x; apply (single_fine name).
Qed.

Lemma any_told name s e m : told_any name s = Told e m <-> exists a c b, flat s = a ++ c :: b /\ Forall parses a /\ told_single name c = Told e m.
Proof.
  unfold flat. rewrite (first_in_concat parses (fun c => told_single name c = Told e m)) by (intros x H H'; apply (single_fine name) in H as (p & H); congruence).
  assert (X : told_any name s = Told e m <-> tell_each (told_all name) (split_pipes s) = Told e m) by (unfold told_any; destruct (tell_each _ _); cbn [tell]; split; congruence).
  rewrite X, each_first. split.
  - intros (a & w & b & -> & F & H). exists (map (split_on 44) a), (split_on 44 w), (map (split_on 44) b). split; [now rewrite map_app|].
    split; [|now apply (all_told name)]. apply Forall_map. eapply Forall_impl; [|exact F]. intros x. apply all_fine.
  - intros (ass & xs & bss & E & F & H). apply map_eq_app in E as (a & r & -> & <- & E). apply map_eq_cons in E as (w & b & -> & <- & <-).
    exists a, w, b. split; [reflexivity|]. split; [|now apply all_told]. rewrite Forall_map in F. eapply Forall_impl; [|exact F]. intros x. apply all_fine.
Qed.

Theorem specifier_told name s e m : told_parse_specifier name s = Told e m <-> exists c b, unbroken c /\ right_edge b /\ (exists m', m = Some m' /\ complaint name c e m')
  /\ (respaced s (c ++ b)
      \/ exists a sep q, respaced s (a ++ sep ++ c ++ b) /\ parse_specifier a = Ok q
           /\ (sep = [44%N] \/ sep = [124%N; 124%N] \/ (sep = [124%N] /\ forall r, c ++ b <> 124%N :: r))).
Proof.
  unfold told_parse_specifier. rewrite clear_visible, any_told, <- (located (fun c => exists m', m = Some m' /\ complaint name c e m')).
  split; intros (a & c & b & E & F & H); exists a, c, b; (split; [exact E|split; [exact F|now apply single_told]]).
Qed.
