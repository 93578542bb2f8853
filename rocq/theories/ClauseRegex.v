(** The regular expressions of specifications match exactly the clauses. *)

From Coq Require Import List ZArith NArith String Bool Arith Lia.
From Verif Require Import Py Segments Version VersionSets Operators Specifiers Regex Patterns Parsers Orders Grammar Clauses
  RegexFacts Unambiguous VersionRegex ParseFacts ParseTheorems.
Import ListNotations.

(** ** Groups *)

Fixpoint groups (r : re) : list N :=
  match r with
  | Eps | Chr _ => []
  | Cat r q | Alt r q => groups r ++ groups q
  | Opt r | Star r => groups r
  | Grp g r => group_index g :: groups r
  end.

Lemma D_groups r w ds : D r w ds -> Forall (fun x => In (group_index (fst x)) (groups r)) ds.
Proof.
  induction 1 as [| |r q w v ds es _ IH1 _ IH2|r q w ds _ IH|r q w ds _ IH| | | |r w v ds es _ IH1 _ _ IH2|g r w ds _ IH]; cbn [groups]; auto.
  - apply Forall_app. split; [eapply Forall_impl; [|exact IH2]|eapply Forall_impl; [|exact IH1]]; intros x; cbn beta; rewrite in_app_iff; auto.
  - eapply Forall_impl; [|exact IH]. intros x. cbn beta. rewrite in_app_iff. auto.
  - eapply Forall_impl; [|exact IH]. intros x. cbn beta. rewrite in_app_iff. auto.
  - apply Forall_app. auto.
  - constructor; [now left|]. eapply Forall_impl; [|exact IH]. intros x. now right.
Qed.

Lemma get_group_app g ds es : Forall (fun x => group_index (fst x) <> group_index g) ds -> get_group g (ds ++ es) = get_group g es.
Proof.
  induction 1 as [|[h s] ds H F IH]; auto. cbn [app get_group]. cbn [fst] in H. apply N.eqb_neq in H. now rewrite H.
Qed.

Lemma D_no_group r w ds g : D r w ds -> ~ In (group_index g) (groups r) -> forall es, get_group g (ds ++ es) = get_group g es.
Proof.
  intros H N es. apply get_group_app. eapply Forall_impl; [|exact (D_groups _ _ _ H)]. cbn beta. intros x Hx E. now rewrite E in Hx.
Qed.

(** ** Operators *)

Definition sym (c : N) : bool := ((c =? 33) || (c =? 60) || (c =? 61) || (c =? 62) || (c =? 94) || (c =? 126))%N.

Lemma lower_sym c : sym (lower c) = true -> lower c = c.
Proof.
  unfold sym. rewrite !orb_true_iff, !N.eqb_eq. unfold lower. split_ifs; auto; lia.
Qed.

Lemma word_sym w p : forallb sym p = true -> map lower w = p -> w = p.
Proof.
  intros S <-. rewrite forallb_forall in S. clear -S. induction w as [|c w IH]; auto. cbn [map] in *.
  rewrite <- (lower_sym c) at 1 by (apply S; now left). f_equal. apply IH. intros x Hx. apply S. now right.
Qed.

Lemma sym_lower p : forallb sym p = true -> map lower p = p.
Proof.
  rewrite forallb_forall. intros S. induction p as [|c p IH]; auto. cbn [map]. rewrite IH by (intros x Hx; apply S; now right). f_equal.
  assert (X : sym c = true) by (apply S; now left). unfold sym in X. rewrite !orb_true_iff, !N.eqb_eq in X. unfold lower. split_ifs; lia.
Qed.

Lemma op_split o o' u u' : forallb sym o = true -> forallb sym o' = true -> stops sym u -> stops sym u' -> o ++ u = o' ++ u' -> o = o' /\ u = u'.
Proof.
  rewrite !forallb_forall. intros O O' U U' E. assert (X : span sym (o ++ u) = (o, u)) by (apply span_app; auto; now apply Forall_forall).
  rewrite E, span_app in X by (auto; now apply Forall_forall). now injection X.
Qed.

Definition given (o : pstr) : option pstr := match o with [] => None | _ => Some o end.

(** A pattern of an operator and a version. *)
Section Operator.
  Variable ops : list pstr.
  Hypothesis ops_sym : forall o, In o ops -> o <> [] /\ forallb sym o = true.
  Hypothesis ops_some : ops <> [].
  Variable R : re.
  Hypothesis R_head : forall u ds, D R u ds -> stops sym u.
  Hypothesis R_groups : ~ In (group_index G_OPERATOR) (groups R).

  Lemma D_operator w ds : D (Grp G_OPERATOR (alts ops)) w ds <-> In w ops /\ ds = [(G_OPERATOR, w)].
  Proof.
    rewrite D_grp_iff. assert (F : Forall (fun p => p <> []) ops) by (apply Forall_forall; intros o H; now apply ops_sym).
    split.
    - intros (es & -> & H). apply D_alts in H as (p & Hp & E & ->); auto. apply word_sym in E; [|now apply ops_sym]. subst. auto.
    - intros [H ->]. exists []. split; auto. apply D_alts; auto. exists w. split; auto. split; auto. apply sym_lower. now apply ops_sym.
  Qed.

  Lemma operator_match o u ds : In o ops -> D R u ds -> exists m, fullmatch (Cat (Grp G_OPERATOR (alts ops)) (Grp G_VERSION R)) (o ++ u) = Some m
    /\ get_group G_OPERATOR m = Some o /\ get_group G_VERSION m = Some u.
  Proof.
    intros O H. destruct (fullmatch_complete (Cat (Grp G_OPERATOR (alts ops)) (Grp G_VERSION R)) (o ++ u) (((G_VERSION, u) :: ds) ++ [(G_OPERATOR, o)])) as [m E].
    { apply D_cat; [now apply D_operator|]. now apply D_grp. }
    exists m. split; auto. apply fullmatch_sound in E. apply D_cat_iff in E as (w1 & w2 & d1 & d2 & E & -> & H1 & H2).
    apply D_operator in H1 as [H1 ->]. apply D_grp_iff in H2 as (es & -> & H2).
    apply op_split in E as [<- <-]; [|now apply ops_sym|now apply ops_sym|now apply R_head in H|now apply R_head in H2].
    split; [|reflexivity]. change (get_group G_OPERATOR (es ++ [(G_OPERATOR, o)]) = Some o). now rewrite (D_no_group _ _ _ _ H2).
  Qed.

  Lemma operator_none s : (forall o u ds, In o ops -> D R u ds -> s <> o ++ u) -> fullmatch (Cat (Grp G_OPERATOR (alts ops)) (Grp G_VERSION R)) s = None.
  Proof.
    intros N. destruct (fullmatch _ s) eqn:E; auto. exfalso. apply fullmatch_sound in E. apply D_cat_iff in E as (w1 & w2 & d1 & d2 & -> & -> & H1 & H2).
    apply D_operator in H1 as [H1 ->]. apply D_grp_iff in H2 as (es & -> & H2). now apply (N w1 w2 es).
  Qed.

  Lemma optional_match o u ds : o = [] \/ In o ops -> D R u ds ->
    exists m, fullmatch (Cat (Opt (Grp G_OPERATOR (alts ops))) (Grp G_VERSION R)) (o ++ u) = Some m
    /\ get_group G_OPERATOR m = given o /\ get_group G_VERSION m = Some u.
  Proof.
    intros O H. assert (SO : forallb sym o = true) by (destruct O as [-> |O]; [reflexivity|now apply ops_sym]).
    destruct (fullmatch_complete (Cat (Opt (Grp G_OPERATOR (alts ops))) (Grp G_VERSION R)) (o ++ u)
      (((G_VERSION, u) :: ds) ++ match o with [] => [] | _ => [(G_OPERATOR, o)] end)) as [m E].
    { apply D_cat; [|now apply D_grp]. destruct O as [-> |O]; [apply D_none|]. apply D_some, D_operator. split; auto.
      destruct o; auto. now apply ops_sym in O. }
    exists m. split; auto. apply fullmatch_sound in E. apply D_cat_iff in E as (w1 & w2 & d1 & d2 & E & -> & H1 & H2).
    apply D_grp_iff in H2 as (es & -> & H2). apply D_opt_iff in H1 as [H1|[-> ->]].
    - apply D_operator in H1 as [H1 ->].
      apply op_split in E as [<- <-]; [|auto|now apply ops_sym|now apply R_head in H|now apply R_head in H2].
      split; [|reflexivity]. change (get_group G_OPERATOR (es ++ [(G_OPERATOR, o)]) = given o).
      rewrite (D_no_group _ _ _ _ H2) by auto. destruct o; auto. now apply ops_sym in H1.
    - apply op_split in E as [-> <-]; [|auto|reflexivity|now apply R_head in H|now apply R_head in H2].
      split; [|reflexivity]. change (get_group G_OPERATOR (es ++ []) = None). now rewrite (D_no_group _ _ _ _ H2).
  Qed.

  Lemma optional_none s : (forall o u ds, o = [] \/ In o ops -> D R u ds -> s <> o ++ u) ->
    fullmatch (Cat (Opt (Grp G_OPERATOR (alts ops))) (Grp G_VERSION R)) s = None.
  Proof.
    intros N. destruct (fullmatch _ s) eqn:E; auto. exfalso. apply fullmatch_sound in E. apply D_cat_iff in E as (w1 & w2 & d1 & d2 & -> & -> & H1 & H2).
    apply D_grp_iff in H2 as (es & -> & H2). apply D_opt_iff in H1 as [H1|[-> ->]].
    - apply D_operator in H1 as [H1 ->]. now apply (N w1 w2 es); auto.
    - now apply (N [] w2 es); auto.
  Qed.
End Operator.

(** ** Versions with a wildcard *)

Lemma D_wildcard w ds : D WILDCARD w ds <-> exists c, (c = 42 \/ c = 120 \/ c = 88)%N /\ w = [c] /\ ds = [].
Proof.
  unfold WILDCARD, ci. rewrite D_alt_iff, D_char, D_chr_iff.
  assert (V : forall c, (lower c =? 120)%N = true <-> (c = 120 \/ c = 88)%N).
  { intros c. rewrite N.eqb_eq, folds_iff by lia. unfold folds. lia. }
  split.
  - intros [(c & -> & H & ->)|[-> ->]]; [apply V in H; exists c|exists 42%N]; auto.
  - intros (c & [-> |H] & -> & ->); [right; auto|left]. exists c. apply V in H. auto.
Qed.

Lemma D_word_tag ws vs : good_words ws vs -> forall w ds, D (alts ws) w ds <-> (exists p, In p vs /\ spells w p) /\ ds = [].
Proof.
  intros (N & F & I & A) w ds. rewrite D_alts by auto. split.
  - intros (p & Hp & E & ->). split; auto. apply I in Hp. exists p. split; auto. apply spells_lower; auto. now apply words_letters, A.
  - intros [(p & Hp & S) ->]. exists p. split; [now apply I|]. split; auto. apply spells_lower in S; auto. now apply words_letters, A.
Qed.

(** A tag with a wildcard as its value. *)
Definition wild_tag (vs : list pstr) (t : gtag) : Prop :=
  opt separator (g_sep t) /\ (exists p, In p vs /\ spells (g_word t) p)
  /\ exists s c, opt separator s /\ (c = 42 \/ c = 120 \/ c = 88)%N /\ g_value t = Some (s, [c]).

Lemma D_wild_tag ws vs : good_words ws vs -> forall w ds,
  D (cats [Opt SEPARATOR; alts ws; Opt SEPARATOR; WILDCARD]) w ds <-> exists t, wild_tag vs t /\ w = tag_text t /\ ds = [].
Proof.
  intros G w ds. cbn [cats]. split.
  - intros H. apply D_cat_iff in H as (w1 & w2 & d1 & d2 & -> & -> & H1 & H). apply D_sep_opt in H1 as (o & O & -> & ->).
    apply D_cat_iff in H as (w1 & w3 & d1 & d3 & -> & -> & H1 & H). apply (D_word_tag ws vs G) in H1 as [H1 ->].
    apply D_cat_iff in H as (w4 & w5 & d1 & d4 & -> & -> & H2 & H). apply D_sep_opt in H2 as (s & S & -> & ->).
    apply D_wildcard in H as (c & C & -> & ->). exists (GTag o w1 (Some (s, [c]))). split; [|auto].
    split; auto. split; auto. exists s, c. auto.
  - intros ([o w1 x] & (O & W & s & c & S & C & E) & -> & ->). cbn in O, W, E. subst x. unfold tag_text, tag_word. cbn [g_sep g_word g_value spell fst snd].
    apply D_cat_iff. exists (one o), (w1 ++ one s ++ [c]), [], []. split; auto. split; auto. split; [apply D_sep_opt; eauto|].
    apply D_cat_iff. exists w1, (one s ++ [c]), [], []. split; auto. split; auto. split; [now apply (D_word_tag ws vs G)|].
    apply D_cat_iff. exists (one s), [c], [], []. split; auto. split; auto. split; [apply D_sep_opt; eauto|]. apply D_wildcard. eauto.
Qed.

Lemma D_plain_tag ws vs : good_words ws vs -> forall w ds,
  D (cats [Opt SEPARATOR; alts ws; Opt (Cat (Opt SEPARATOR) DIGITS)]) w ds <-> exists t, tag_tree vs t /\ w = tag_text t /\ ds = [].
Proof.
  intros G w ds. cbn [cats].
  assert (V : forall w ds, D (Opt (Cat (Opt SEPARATOR) DIGITS)) w ds <-> exists x, value_tree x /\ w = value_text x /\ ds = []).
  { clear w ds. intros w ds. rewrite D_opt_iff, D_cat_iff. split.
    - intros [(w1 & w2 & d1 & d2 & -> & -> & H1 & H2)|[-> ->]]; [|exists None; cbn; auto].
      apply D_sep_opt in H1 as (o & O & -> & ->). apply D_digits in H2 as [H2 ->]. exists (Some (o, w2)). cbn. auto.
    - intros ([[o d]|] & H & -> & ->); [left|right; auto]. destruct H as [H1 H2]. exists (one o), d, [], []. cbn. split; auto. split; auto.
      split; [apply D_sep_opt; eauto|now apply D_digits]. }
  split.
  - intros H. apply D_cat_iff in H as (w1 & w2 & d1 & d2 & -> & -> & H1 & H). apply D_sep_opt in H1 as (o & O & -> & ->).
    apply D_cat_iff in H as (w1 & w3 & d1 & d3 & -> & -> & H1 & H). apply (D_word_tag ws vs G) in H1 as [H1 ->].
    apply V in H as (x & X & -> & ->). exists (GTag o w1 x). split; [|auto]. split; auto.
  - intros ([o w1 x] & (O & W & X) & -> & ->). cbn in O, W, X.
    apply D_cat_iff. exists (one o), (w1 ++ value_text x), [], []. split; auto. split; auto. split; [apply D_sep_opt; eauto|].
    apply D_cat_iff. exists w1, (value_text x), [], []. split; auto. split; auto. split; [now apply (D_word_tag ws vs G)|]. apply V. eauto.
Qed.

Lemma D_opt_nil {A} r (P : A -> Prop) f : (forall w ds, D r w ds <-> exists a, P a /\ w = f a /\ ds = []) ->
  forall w ds, D (Opt r) w ds <-> exists o, opt P o /\ w = spell f o /\ ds = [].
Proof.
  intros H w ds. rewrite D_opt_iff, H. split.
  - intros [(a & Pa & -> & ->)|[-> ->]]; [exists (Some a)|exists None]; cbn; auto.
  - intros ([a|] & Pa & -> & ->); [left; eauto|right; auto].
Qed.

Lemma D_w_pre_opt w ds : D W_PRE_OPT w ds <-> exists o, opt (tag_tree pre_words) o /\ w = spell tag_text o /\ ds = [].
Proof. unfold W_PRE_OPT. apply D_opt_nil. apply (D_plain_tag _ _ pre_good). Qed.

Lemma D_w_post_opt w ds : D W_POST_OPT w ds <-> exists o, opt post_tree o /\ w = spell post_text o /\ ds = [].
Proof.
  unfold W_POST_OPT. apply D_opt_nil. clear w ds. intros w ds. rewrite D_alt_iff, (D_plain_tag _ _ post_good), D_cat_iff. split.
  - intros [(w1 & w2 & d1 & d2 & -> & -> & H1 & H2)|(t & H & -> & ->)].
    + apply D_char in H1 as [-> ->]. apply D_digits in H2 as [H2 ->]. exists (Implicit w2). auto.
    + exists (Explicit t). auto.
  - intros ([d|t] & H & -> & ->); [left|right; eauto]. exists [45%N], d, [], []. split; auto. split; auto. split; [now apply D_char|now apply D_digits].
Qed.

Lemma D_w_post w ds : D W_POST w ds <-> (exists c, (c = 42 \/ c = 120 \/ c = 88)%N /\ w = post_text (Implicit [c]) /\ ds = [])
  \/ (exists t, wild_tag post_words t /\ w = post_text (Explicit t) /\ ds = []).
Proof.
  unfold W_POST. rewrite D_alt_iff, (D_wild_tag _ _ post_good), D_cat_iff. split.
  - intros [(w1 & w2 & d1 & d2 & -> & -> & H1 & H2)|H]; auto. apply D_char in H1 as [-> ->]. apply D_wildcard in H2 as (c & C & -> & ->). eauto.
  - intros [(c & C & -> & ->)|H]; auto. left. exists [45%N], [c], [], []. split; auto. split; auto. split; [now apply D_char|]. apply D_wildcard. eauto.
Qed.

Lemma D_release_plain w ds : D (Cat DIGITS (Star (Cat (chr 46) DIGITS))) w ds <->
  exists first more, digits first /\ Forall digits more /\ w = release_text first more /\ ds = [].
Proof.
  rewrite D_cat_iff. split.
  - intros (w1 & w2 & d1 & d2 & -> & -> & H1 & H2). apply D_digits in H1 as [H1 ->]. apply D_more in H2 as (xs & F & -> & ->). eauto 8.
  - intros (first & more & H & F & -> & ->). exists first, (List.concat (map (cons 46%N) more)), [], []. split; [reflexivity|]. split; auto.
    split; [now apply D_digits|]. apply D_more. eauto.
Qed.

Lemma D_epoch_plain w ds : D (Opt (Cat DIGITS (chr 33))) w ds <-> exists o, opt digits o /\ w = spell (fun d => d ++ [33%N]) o /\ ds = [].
Proof.
  apply D_opt_nil. clear w ds. intros w ds. rewrite D_cat_iff. split.
  - intros (w1 & w2 & d1 & d2 & -> & -> & H1 & H2). apply D_char in H2 as [-> ->]. apply D_digits in H1 as [H1 ->]. eauto.
  - intros (d & H & -> & ->). exists d, [33%N], [], []. split; auto. split; auto. split; [now apply D_digits|now apply D_char].
Qed.

Definition any_wildcard (c : N) : Prop := (c = 42 \/ c = 120 \/ c = 88)%N.

Lemma digits_zero : digits [48%N].
Proof. split; [discriminate|]. constructor; [|constructor]. unfold digit. lia. Qed.

Lemma wild_sound w ds : D WILDCARD_VERSION w ds -> exists c t u, any_wildcard c /\ wild c t u /\ loose t /\ w = text u /\ ds = [].
Proof.
  unfold WILDCARD_VERSION. cbn [cats]. intros H.
  apply D_cat_iff in H as (w1 & w2 & d1 & d2 & -> & -> & H1 & H). apply D_v in H1 as (v & V & -> & ->).
  apply D_cat_iff in H as (w1 & w3 & d1 & d3 & -> & -> & H1 & H). apply D_epoch_plain in H1 as (e & E & -> & ->).
  rewrite !app_nil_r. apply D_alt_iff in H as [H|H].
  { apply D_wildcard in H as (c & C & -> & ->). do 3 eexists. split; [exact C|]. split; [apply (wild_any c v e)|]. split; [|split; auto].
    - unfold loose. cbn. pose proof digits_zero. auto 10.
    - unfold text, public_text, release_text. cbn [g_v g_epoch g_first g_more g_pre g_post g_dev g_local spell map List.concat]. now rewrite !app_nil_r. }
  unfold W_RELEASE in H. apply D_cat_iff in H as (w1 & w4 & d1 & d4 & -> & -> & H1 & H). apply D_release_plain in H1 as (f & m & F & M & -> & ->).
  rewrite app_nil_r. apply D_alt_iff in H as [H|H].
  { apply D_cat_iff in H as (w1 & w5 & d1 & d5 & -> & -> & H1 & H). apply D_char in H1 as [-> ->]. apply D_wildcard in H as (c & C & -> & ->).
    do 3 eexists. split; [exact C|]. split; [apply (wild_release c v e f m)|]. split; [|split; auto].
    - unfold loose. cbn. split; auto. split; auto. split; auto. split; [|auto]. apply Forall_app. split; auto. constructor; [apply digits_zero|constructor].
    - unfold text, public_text, release_text. cbn [g_v g_epoch g_first g_more g_pre g_post g_dev g_local spell].
      rewrite !app_nil_r, map_app, concat_app, <- !app_assoc. reflexivity. }
  apply D_alt_iff in H as [H|H].
  { apply (D_wild_tag _ _ pre_good) in H as ([o w x] & (O & W & s & c & S & C & X) & -> & ->). cbn in O, W, X. subst x.
    do 3 eexists. split; [exact C|]. split; [apply (wild_pre c v e f m o w s)|]. split; [|split; auto].
    - unfold loose, tag_tree. cbn. pose proof digits_zero. auto 12.
    - unfold text, public_text. cbn [g_v g_epoch g_first g_more g_pre g_post g_dev g_local spell]. now rewrite !app_nil_r. }
  apply D_cat_iff in H as (w1 & w5 & d1 & d5 & -> & -> & H1 & H). apply D_w_pre_opt in H1 as (p & P & -> & ->). rewrite app_nil_r.
  apply D_alt_iff in H as [H|H].
  { apply D_w_post in H as [(c & C & -> & ->)|([o w x] & (O & W & s & c & S & C & X) & -> & ->)].
    - do 3 eexists. split; [exact C|]. split; [apply (wild_implicit c v e f m p)|]. split; [|split; auto].
      + unfold loose. cbn. pose proof digits_zero. auto 12.
      + unfold text, public_text. cbn [g_v g_epoch g_first g_more g_pre g_post g_dev g_local spell]. now rewrite !app_nil_r.
    - cbn in O, W, X. subst x. do 3 eexists. split; [exact C|]. split; [apply (wild_post c v e f m p o w s)|]. split; [|split; auto].
      + unfold loose, post_tree, tag_tree. cbn. pose proof digits_zero. auto 12.
      + unfold text, public_text. cbn [g_v g_epoch g_first g_more g_pre g_post g_dev g_local spell]. now rewrite !app_nil_r. }
  apply D_cat_iff in H as (w1 & w6 & d1 & d6 & -> & -> & H1 & H). apply D_w_post_opt in H1 as (q & Q & -> & ->). rewrite app_nil_r.
  apply (D_wild_tag _ _ dev_good) in H as ([o w x] & (O & W & s & c & S & C & X) & -> & ->). cbn in O, W, X. subst x.
  do 3 eexists. split; [exact C|]. split; [apply (wild_dev c v e f m p q o w s)|]. split; [|split; auto].
  - unfold loose, tag_tree. cbn [g_v g_epoch g_first g_more g_pre g_post g_dev g_local opt g_sep g_word g_value fst snd]. pose proof digits_zero.
    auto 14.
  - unfold text, public_text. cbn [g_v g_epoch g_first g_more g_pre g_post g_dev g_local spell]. now rewrite !app_nil_r.
Qed.

Lemma snoc_digits m d : Forall digits (m ++ [d]) -> Forall digits m.
Proof. intros H. now apply Forall_app in H. Qed.

Lemma wild_complete c t u : any_wildcard c -> wild c t u -> loose t -> D WILDCARD_VERSION (text u) [].
Proof.
  intros C W (V & E & F & M & P & Q & G & _). unfold WILDCARD_VERSION. cbn [cats].
  assert (CW : D WILDCARD [c] []) by (apply D_wildcard; eauto).
  assert (K : forall v e r, opt (fun c => c = 118%N \/ c = 86%N) v -> opt digits e -> D (Alt WILDCARD W_RELEASE) r [] ->
    D (Cat P_V (Cat (Opt (Cat DIGITS (chr 33))) (Alt WILDCARD W_RELEASE))) (one v ++ spell (fun d => d ++ [33%N]) e ++ r) []).
  { intros v e r HV HE H. apply (D_cat _ _ _ _ [] []); [apply D_v; eauto|]. apply (D_cat _ _ _ _ [] []); [apply D_epoch_plain; eauto|exact H]. }
  assert (L : forall f m r, digits f -> Forall digits m -> D (Alt (Cat (chr 46) WILDCARD) (Alt W_PRE (Cat W_PRE_OPT (Alt W_POST (Cat W_POST_OPT W_DEV))))) r [] ->
    D (Alt WILDCARD W_RELEASE) (release_text f m ++ r) []).
  { intros f m r HF HM H. apply D_right. unfold W_RELEASE. apply (D_cat _ _ _ _ [] []); [apply D_release_plain; eauto 8|exact H]. }
  unfold text, public_text. destruct W as [v e|v e f m|v e f m o w s|v e f m p|v e f m p o w s|v e f m p q o w s];
    cbn [g_v g_epoch g_first g_more g_pre g_post g_dev g_local spell] in *; rewrite ?app_nil_r; apply K; auto.
  - unfold release_text. cbn [map List.concat]. rewrite app_nil_r. now apply D_left.
  - unfold release_text. rewrite map_app, concat_app, app_assoc. fold (release_text f m). apply L; auto; [now apply snoc_digits in M|].
    apply D_left. cbn [map List.concat]. rewrite app_nil_r. apply (D_cat _ _ [46%N] [c] [] []); [now apply D_char|exact CW].
  - apply L; auto. apply D_right, D_left. apply (D_wild_tag _ _ pre_good). eexists. split; [|split; reflexivity].
    destruct P as (P1 & P2 & P3). cbn in *. split; auto. split; auto. exists s, c. split; [apply P3|]. auto.
  - apply L; auto. apply D_right, D_right. apply (D_cat _ _ _ _ [] []); [apply D_w_pre_opt; eauto|]. apply D_left, D_w_post. left. eauto.
  - apply L; auto. apply D_right, D_right. apply (D_cat _ _ _ _ [] []); [apply D_w_pre_opt; eauto|]. apply D_left, D_w_post. right.
    eexists. split; [|split; reflexivity]. destruct Q as (P1 & P2 & P3). cbn in *. split; auto. split; auto. exists s, c. split; [apply P3|]. auto.
  - apply L; auto. apply D_right, D_right. apply (D_cat _ _ _ _ [] []); [apply D_w_pre_opt; eauto|]. apply D_right.
    apply (D_cat _ _ _ _ [] []); [apply D_w_post_opt; eauto|]. apply (D_wild_tag _ _ dev_good). eexists. split; [|split; reflexivity].
    destruct G as (P1 & P2 & P3). cbn in *. split; auto. split; auto. exists s, c. split; [apply P3|]. auto.
Qed.

Lemma wild_regroup c t u : wild c t u -> loose t -> exists t' u', wild c t' u' /\ tree t' /\ text u' = text u.
Proof.
  intros W T. destruct (regroup_tree t T) as (T' & E & _). exists (regroup t).
  destruct W as [v e|v e f m|v e f m o w s|v e f m p|v e f m p o w s|v e f m p q o w s]; unfold regroup in *; cbn [g_pre g_post g_v g_epoch g_first g_more g_dev g_local] in *.
  - eexists. split; [apply wild_any|auto].
  - eexists. split; [apply wild_release|auto].
  - eexists. split; [apply wild_pre|auto].
  - destruct p as [[o w [x|]]|]; [eexists; split; [apply wild_implicit|auto]| |eexists; split; [apply wild_implicit|auto]].
    eexists. split; [apply wild_pre|]. split; auto. unfold text, public_text, tag_text, tag_word. cbn. rewrite <- !app_assoc. cbn. now rewrite ?app_nil_r, <- ?app_assoc.
  - destruct p as [[o' w' [x|]]|]; (eexists; split; [apply wild_post|auto]).
  - destruct p as [[o' w' [x|]]|]; [eexists; split; [apply wild_dev|auto]| |eexists; split; [apply wild_dev|auto]].
    destruct q as [[d|q]|]; [|eexists; split; [apply wild_dev|auto]..].
    eexists. split; [apply wild_dev|]. split; auto. unfold text, public_text, tag_text, tag_word. cbn. rewrite <- !app_assoc. cbn. now rewrite ?app_nil_r, <- ?app_assoc.
Qed.

Lemma wild_iff w ds : D WILDCARD_VERSION w ds <-> (exists c t u, any_wildcard c /\ wild c t u /\ tree t /\ w = text u) /\ ds = [].
Proof.
  split.
  - intros H. apply wild_sound in H as (c & t & u & C & W & T & -> & ->). split; auto.
    destruct (wild_regroup c t u W T) as (t' & u' & W' & T' & <-). exists c, t', u'. auto.
  - intros [(c & t & u & C & W & T & ->) ->]. apply (wild_complete c t u); auto. now apply tree_loose in T.
Qed.
