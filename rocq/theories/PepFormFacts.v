(** The strings PEP 440's expression accepts and the strings of trees. *)

From Coq Require Import List ZArith NArith String Bool Arith Lia.
From Verif Require Import Py Segments Version Regex Patterns Grammar RegexFacts Unambiguous VersionRegex Parsers Orders ParseTheorems PepForm.
Import ListNotations.
Local Open Scope N_scope.

Lemma mark_iff c : mark c <-> separator c.
Proof. unfold mark, separator. tauto. Qed.

Lemma alnum_either c : alnum c <-> digit c \/ letter c.
Proof. unfold alnum, digit, letter, either_case, folds. tauto. Qed.

Lemma many_chars P s : many (char P) s <-> Forall P s.
Proof.
  split.
  - induction 1 as [|u v (c & H & ->) _ IH]; cbn; auto.
  - induction 1 as [|c s H _ IH]; [constructor|]. apply (many_more _ [c] s); [exists c; auto|exact IH].
Qed.

Lemma some_chars P s : some (char P) s <-> s <> [] /\ Forall P s.
Proof.
  unfold some, then_. split.
  - intros (u & v & -> & (c & H & ->) & M). apply many_chars in M. cbn. split; [discriminate|]. now constructor.
  - intros [N F]. destruct F as [|c s H F]; [now destruct N|]. exists [c], s. split; auto. split; [exists c; auto|]. now apply many_chars.
Qed.

Lemma many_pieces {A} (L : lang) (P : A -> Prop) (f : A -> pstr) : (forall s, L s <-> exists a, P a /\ s = f a) ->
  forall s, many L s <-> exists l, Forall P l /\ s = List.concat (map f l).
Proof.
  intros H s. split.
  - induction 1 as [|u v U _ (l & F & ->)]; [exists []; auto|]. apply H in U as (a & Pa & ->). exists (a :: l). cbn. auto.
  - intros (l & F & ->). induction F as [|a l Pa _ IH]; cbn; [constructor|]. constructor; auto. apply H. eauto.
Qed.

Lemma maybe_pieces {A} (L : lang) (P : A -> Prop) (f : A -> pstr) : (forall s, L s <-> exists a, P a /\ s = f a) ->
  forall s, maybe L s <-> exists o, opt P o /\ s = spell f o.
Proof.
  intros H s. unfold maybe. rewrite H. split.
  - intros [->|(a & Pa & ->)]; [exists None|exists (Some a)]; cbn; auto.
  - intros ([a|] & Pa & ->); [right; eauto|now left].
Qed.

Lemma decimals s : some decimal s <-> digits s.
Proof. apply some_chars. Qed.

Lemma exactly_iff c s : exactly c s <-> s = [c].
Proof. unfold exactly, char. split; [now intros (x & <- & ->)|intros ->; eauto]. Qed.

Lemma marked_opt s : maybe marked s <-> exists o, opt separator o /\ s = one o.
Proof. apply (maybe_pieces marked separator (fun c => [c])). intros u. unfold marked, char. now setoid_rewrite mark_iff. Qed.

(** ** Tags, possibly with a mark left over *)

Definition tag_as (R : pstr -> pstr -> Prop) (words : list pstr) (t : gtag) : Prop :=
  opt separator (g_sep t) /\ (exists p, In p words /\ R (g_word t) p)
  /\ opt (fun x => opt separator (fst x) /\ digits (snd x)) (g_value t).
Definition post_as (R : pstr -> pstr -> Prop) (p : gpost) : Prop :=
  match p with Implicit d => digits d | Explicit t => tag_as R post_words t end.

Definition left_over (R : pstr -> pstr -> Prop) (words : list pstr) (x : gtag * option N) : Prop :=
  tag_as R words (fst x) /\ opt separator (snd x) /\ (snd x <> None -> g_value (fst x) = None).
Definition over_text (x : gtag * option N) : pstr := tag_text (fst x) ++ one (snd x).

Lemma pep_tag_pieces R words ws : (forall p, In p ws <-> exists q, In q words /\ p = lit q) ->
  forall s, pep_tag R words s <-> exists x, left_over R ws x /\ s = over_text x.
Proof.
  intros W s. unfold pep_tag, then_. split.
  - intros (s1 & ? & -> & H1 & s2 & ? & -> & (q & Q & H2) & s3 & s4 & -> & H3 & H4).
    apply marked_opt in H1 as (o & O & ->). apply marked_opt in H3 as (m & M & ->).
    assert (X : exists p, In p ws /\ R s2 p) by (exists (lit q); split; auto; apply W; eauto).
    destruct H4 as [->|H4].
    + exists (GTag o s2 None, m). unfold left_over, tag_as, over_text, tag_text, tag_word. cbn.
      repeat split; auto. rewrite !app_nil_r. now rewrite <- ?app_assoc.
    + apply decimals in H4. exists (GTag o s2 (Some (m, s4)), None). unfold left_over, tag_as, over_text, tag_text, tag_word. cbn.
      split; [|now rewrite ?app_nil_r]. split; [auto|]. split; [exact I|congruence].
  - intros ([[o w x] m] & ((O & (p & P & H) & X) & M & V) & ->). cbn in *. apply W in P as (q & Q & ->).
    exists (one o), (w ++ spell (fun x => one (fst x) ++ snd x) x ++ one m).
    unfold over_text, tag_text, tag_word. cbn. split; [now rewrite <- !app_assoc|]. split; [apply marked_opt; eauto|].
    exists w, (spell (fun x => one (fst x) ++ snd x) x ++ one m). split; auto. split; [unfold one_of; eauto|].
    destruct x as [[k d]|]; cbn in *.
    + destruct m as [c|]; [discriminate V; discriminate|]. exists (one k), d. cbn. rewrite app_nil_r. split; auto.
      split; [apply marked_opt; exists k; tauto|]. right. now apply decimals.
    + exists (one m), []. rewrite app_nil_r. split; auto. split; [apply marked_opt; eauto|now left].
Qed.

Definition over_post (R : pstr -> pstr -> Prop) (x : gpost * option N) : Prop :=
  match fst x with Implicit d => digits d /\ snd x = None | Explicit t => left_over R post_words (t, snd x) end.
Definition over_post_text (x : gpost * option N) : pstr := post_text (fst x) ++ one (snd x).

Ltac in_words := intros p; unfold pre_words, post_words, dev_words; rewrite in_map_iff; split;
  intros (q & H1 & H2); exists q; split; try (cbn in *; tauto); congruence.

Lemma pre_pieces R s : maybe (pep_tag R ["a"; "b"; "c"; "rc"; "alpha"; "beta"; "pre"; "preview"]%string) s <->
  exists o, opt (left_over R pre_words) o /\ s = spell over_text o.
Proof. apply maybe_pieces. apply pep_tag_pieces. in_words. Qed.

Lemma dev_pieces R s : maybe (pep_tag R ["dev"]%string) s <-> exists o, opt (left_over R dev_words) o /\ s = spell over_text o.
Proof. apply maybe_pieces. apply pep_tag_pieces. in_words. Qed.

Lemma post_pieces R s : maybe (either (exactly 45 ;; some decimal) (pep_tag R ["post"; "rev"; "r"]%string)) s <->
  exists o, opt (over_post R) o /\ s = spell over_post_text o.
Proof.
  apply maybe_pieces. clear s. intros s. unfold either. rewrite (pep_tag_pieces R _ post_words) by in_words. unfold then_. split.
  - intros [(u & v & -> & U & V)|([t m] & H & ->)].
    + apply exactly_iff in U as ->. apply decimals in V. exists (Implicit v, None). unfold over_post_text. cbn. rewrite app_nil_r. auto.
    + exists (Explicit t, m). auto.
  - intros ([[d|t] m] & H & ->); cbn in H.
    + left. destruct H as [H ->]. exists [45], d. unfold over_post_text. cbn. rewrite app_nil_r. split; auto.
      split; [now apply exactly_iff|now apply decimals].
    + right. exists (t, m). auto.
Qed.

Lemma epoch_pieces s : maybe (some decimal ;; exactly 33) s <-> exists o, opt digits o /\ s = spell (fun d => d ++ [33]) o.
Proof.
  apply maybe_pieces. clear s. intros s. unfold then_. split.
  - intros (u & v & -> & U & V). apply decimals in U. apply exactly_iff in V as ->. eauto.
  - intros (d & H & ->). exists d, [33]. split; auto. split; [now apply decimals|now apply exactly_iff].
Qed.

Lemma release_pieces s : (some decimal ;; many (exactly 46 ;; some decimal)) s <->
  exists first more, digits first /\ Forall digits more /\ s = release_text first more.
Proof.
  assert (M : forall s, many (exactly 46 ;; some decimal) s <-> exists l, Forall digits l /\ s = List.concat (map (cons 46) l)).
  { apply many_pieces. clear s. intros s. unfold then_. split.
    - intros (u & v & -> & U & V). apply exactly_iff in U as ->. apply decimals in V. exists v. auto.
    - intros (d & H & ->). exists [46], d. split; auto. split; [now apply exactly_iff|now apply decimals]. }
  unfold then_ at 1. split.
  - intros (u & v & -> & U & V). apply decimals in U. apply M in V as (l & F & ->). exists u, l. auto.
  - intros (f & m & F & N & ->). exists f, (List.concat (map (cons 46) m)). split; auto. split; [now apply decimals|]. apply M. eauto.
Qed.

Lemma local_pieces s : maybe (exactly 43 ;; some (char alnum) ;; many (marked ;; some (char alnum))) s <->
  exists o, opt local_tree o /\ s = spell (fun l => 43 :: local_text l) o.
Proof.
  assert (A : forall s, some (char alnum) s <-> alphanumeric s).
  { clear s. intros s. rewrite some_chars. unfold alphanumeric. split; intros [N F]; split; auto;
      eapply Forall_impl; try exact F; intros c; apply alnum_either. }
  assert (M : forall s, many (marked ;; some (char alnum)) s <-> exists l, Forall (fun x => separator (fst x) /\ alphanumeric (snd x)) l
    /\ s = List.concat (map (fun x : N * pstr => fst x :: snd x) l)).
  { apply many_pieces. clear s. intros s. unfold then_. split.
    - intros (u & v & -> & (c & C & ->) & V). apply A in V. apply mark_iff in C. exists (c, v). auto.
    - intros ([c d] & [C H] & ->). exists [c], d. split; auto. split; [exists c; rewrite mark_iff; auto|now apply A]. }
  apply maybe_pieces. clear s. intros s. unfold then_ at 1 2. split.
  - intros (u & w & -> & U & v & x & -> & V & X). apply exactly_iff in U as ->. apply A in V. apply M in X as (l & F & ->).
    exists (v, l). split; [split; auto|]. reflexivity.
  - intros ([v l] & [V F] & ->). exists [43], (local_text (v, l)). split; auto. split; [now apply exactly_iff|].
    exists v, (List.concat (map (fun x : N * pstr => fst x :: snd x) l)). split; auto. split; [now apply A|]. apply M. eauto.
Qed.

(** ** The whole form *)

Definition tree_as (R : pstr -> pstr -> Prop) (t : gversion) : Prop :=
  opt (fun c => c = 118%N \/ c = 86%N) (g_v t) /\ opt digits (g_epoch t)
  /\ digits (g_first t) /\ Forall digits (g_more t)
  /\ opt (tag_as R pre_words) (g_pre t) /\ opt (post_as R) (g_post t) /\ opt (tag_as R dev_words) (g_dev t)
  /\ opt local_tree (g_local t).

Definition tail (a : option (gtag * option N)) (p : option (gpost * option N)) (d : option (gtag * option N)) (l : pstr) : pstr :=
  spell over_text a ++ spell over_post_text p ++ spell over_text d ++ l.

Lemma form_pieces R s : pep_form R s <-> exists v e f m a p d l,
  opt (fun c => c = 118%N \/ c = 86%N) v /\ opt digits e /\ digits f /\ Forall digits m
  /\ opt (left_over R pre_words) a /\ opt (over_post R) p /\ opt (left_over R dev_words) d /\ opt local_tree l
  /\ s = one v ++ spell (fun d => d ++ [33]) e ++ release_text f m ++ tail a p d (spell (fun l => 43 :: local_text l) l).
Proof.
  unfold pep_form.
  assert (V : forall s, maybe (char (fun c => c = 118 \/ c = 86)) s <-> exists o, opt (fun c => c = 118%N \/ c = 86%N) o /\ s = one o).
  { apply (maybe_pieces _ (fun c => c = 118%N \/ c = 86%N) (fun c => [c])). intros u. reflexivity. }
  split.
  - intros (s1 & ? & -> & H1 & s2 & ? & -> & H2 & s3 & ? & -> & H3 & s4 & ? & -> & H4 & s5 & ? & -> & H5 & s6 & s7 & -> & H6 & H7).
    apply V in H1 as (v & P1 & ->). apply epoch_pieces in H2 as (e & P2 & ->). apply release_pieces in H3 as (f & m & P3 & P3' & ->).
    apply pre_pieces in H4 as (a & P4 & ->). apply post_pieces in H5 as (p & P5 & ->). apply dev_pieces in H6 as (d & P6 & ->).
    apply local_pieces in H7 as (l & P7 & ->). exists v, e, f, m, a, p, d, l. unfold tail. repeat (split; [assumption|]). reflexivity.
  - intros (v & e & f & m & a & p & d & l & P1 & P2 & P3 & P3' & P4 & P5 & P6 & P7 & ->). unfold tail.
    eexists _, _. split; [reflexivity|]. split; [apply V; eauto|].
    eexists _, _. split; [reflexivity|]. split; [apply epoch_pieces; eauto|].
    eexists _, _. split; [reflexivity|]. split; [apply release_pieces; eauto|].
    eexists _, _. split; [reflexivity|]. split; [apply pre_pieces; eauto|].
    eexists _, _. split; [reflexivity|]. split; [apply post_pieces; eauto|].
    eexists _, _. split; [reflexivity|]. split; [apply dev_pieces; eauto|]. apply local_pieces. eauto.
Qed.

(** ** Left over marks belong to the next tag, if anywhere *)

Lemma tidy_after u v : tidy (u ++ v) -> tidy v.
Proof. intros H x c w -> C. apply (H (u ++ x) c w); auto. now rewrite app_assoc. Qed.

Lemma tidy_next c v : tidy (c :: v) -> separator c -> exists d w, v = d :: w /\ alnum d.
Proof. intros H C. apply (H [] c v); auto. now apply mark_iff. Qed.

Lemma alnum_not c : alnum c -> ~ separator c /\ c <> 43.
Proof. unfold alnum, either_case, separator. intros [H|(a & A & H)]; lia. Qed.

(** What may stand after a left over mark. *)
Definition takes (c : N) (v : pstr) : Prop := separator c /\ exists d w, v = d :: w /\ alnum d.

Lemma local_takes c (l : option (pstr * list (N * pstr))) : ~ takes c (spell (fun l => 43 :: local_text l) l).
Proof. intros [_ (d & w & E & A)]. apply alnum_not in A. destruct l; cbn in E; [|discriminate]. injection E as <- _. tauto. Qed.

(** A tag without a mark in front takes a left over one. *)
Definition mark_tag (c : N) (t : gtag) : gtag := GTag (Some c) (g_word t) (g_value t).

Lemma tag_takes R ws c t v : tag_as R ws t -> takes c (tag_text t ++ v) ->
  tag_as R ws (mark_tag c t) /\ tag_text (mark_tag c t) = c :: tag_text t.
Proof.
  intros (O & W & X) [C (d & w & E & A)]. destruct t as [[k|] u x]; cbn in *.
  - injection E as -> _. apply alnum_not in A. tauto.
  - split; [split; [exact C|split; [exact W|exact X]]|reflexivity].
Qed.

Section Tidy.
  Variable R : pstr -> pstr -> Prop.

  Lemma settle_dev d l : opt (left_over R dev_words) d -> tidy (spell over_text d ++ spell (fun l : pstr * list (N * pstr) => 43 :: local_text l) l) ->
    exists d', opt (tag_as R dev_words) d' /\ spell tag_text d' = spell over_text d.
  Proof.
    destruct d as [[t [c|]]|]; cbn.
    - intros (T & C & _) H. cbn in C. exfalso. unfold over_text in H. cbn in H. rewrite <- app_assoc in H. apply tidy_after in H.
      apply (local_takes c l). split; auto. now apply tidy_next in H.
    - intros (T & _) _. exists (Some t). unfold over_text. cbn. rewrite app_nil_r. auto.
    - intros _ _. exists None. cbn. auto.
  Qed.

  Lemma settle_post p d l : opt (over_post R) p -> opt (tag_as R dev_words) d ->
    tidy (spell over_post_text p ++ spell tag_text d ++ spell (fun l : pstr * list (N * pstr) => 43 :: local_text l) l) ->
    exists p' d', opt (post_as R) p' /\ opt (tag_as R dev_words) d'
      /\ spell post_text p' ++ spell tag_text d' = spell over_post_text p ++ spell tag_text d.
  Proof.
    destruct p as [[[x|t] m]|]; cbn.
    - intros [X ->] D _. exists (Some (Implicit x)), d. unfold over_post_text. cbn. rewrite app_nil_r. auto.
    - intros (T & M & _) D H. cbn in T, M. destruct m as [c|]; cbn in M.
      + unfold over_post_text in H. cbn in H. rewrite <- app_assoc in H. apply tidy_after in H.
        assert (K : takes c (spell tag_text d ++ spell (fun l => 43 :: local_text l) l)) by (split; auto; now apply tidy_next in H).
        destruct d as [d|]; cbn in K, D; [|now apply local_takes in K]. apply (tag_takes R dev_words) in K as [K1 K2]; auto.
        exists (Some (Explicit t)), (Some (mark_tag c d)). split; auto. split; auto. unfold over_post_text. cbn [spell fst snd post_text one]. rewrite K2, <- app_assoc. reflexivity.
      + exists (Some (Explicit t)), d. unfold over_post_text. cbn. rewrite app_nil_r. auto.
    - intros _ D _. exists None, d. cbn. auto.
  Qed.

  Lemma settle_pre a p d l : opt (left_over R pre_words) a -> opt (post_as R) p -> opt (tag_as R dev_words) d ->
    tidy (spell over_text a ++ spell post_text p ++ spell tag_text d ++ spell (fun l : pstr * list (N * pstr) => 43 :: local_text l) l) ->
    exists a' p' d', opt (tag_as R pre_words) a' /\ opt (post_as R) p' /\ opt (tag_as R dev_words) d'
      /\ spell tag_text a' ++ spell post_text p' ++ spell tag_text d' = spell over_text a ++ spell post_text p ++ spell tag_text d.
  Proof.
    destruct a as [[t m]|]; cbn.
    - intros (T & M & _) P D H. cbn in T, M. destruct m as [c|]; cbn in M.
      + unfold over_text in H. cbn in H. rewrite <- app_assoc in H. apply tidy_after in H.
        assert (K : takes c (spell post_text p ++ spell tag_text d ++ spell (fun l => 43 :: local_text l) l)) by (split; auto; now apply tidy_next in H).
        destruct p as [[x|q]|]; cbn in K, P.
        * destruct K as [_ (? & ? & E & A)]. injection E as <- _. apply alnum_not in A. unfold separator in A. lia.
        * apply (tag_takes R post_words) in K as [K1 K2]; auto.
          exists (Some t), (Some (Explicit (mark_tag c q))), d. repeat (split; [assumption|]). unfold over_text. cbn [spell fst snd post_text one]. rewrite K2, <- app_assoc. reflexivity.
        * destruct d as [d|]; cbn in K, D; [|now apply local_takes in K]. apply (tag_takes R dev_words) in K as [K1 K2]; auto.
          exists (Some t), None, (Some (mark_tag c d)). cbn [opt]. repeat (split; [auto|]). unfold over_text. cbn [spell fst snd post_text one]. rewrite K2, <- app_assoc. reflexivity.
      + exists (Some t), p, d. unfold over_text. cbn. rewrite app_nil_r. auto.
    - intros _ P D _. exists None, p, d. cbn. auto.
  Qed.

  Lemma tidy_tree s : pep_form R s -> tidy s -> exists t, tree_as R t /\ s = text t.
  Proof.
    intros H T. apply form_pieces in H as (v & e & f & m & a & p & d & l & P1 & P2 & P3 & P3' & P4 & P5 & P6 & P7 & E).
    assert (K : tidy (tail a p d (spell (fun l => 43 :: local_text l) l))).
    { rewrite E in T. now do 3 apply tidy_after in T. }
    unfold tail in K, E. assert (K2 := K). do 2 apply tidy_after in K2. destruct (settle_dev d l P6 K2) as (d1 & D1 & E1).
    rewrite <- E1 in K, E. assert (K3 := K). apply tidy_after in K3. destruct (settle_post p d1 l P5 D1 K3) as (p2 & d2 & Q2 & D2 & E2).
    rewrite (app_assoc (spell over_post_text p)), <- E2, <- app_assoc in K, E.
    destruct (settle_pre a p2 d2 l P4 Q2 D2 K) as (a3 & p3 & d3 & A3 & Q3 & D3 & E3).
    exists (GVersion v e f m a3 p3 d3 l). split; [unfold tree_as; cbn; tauto|].
    rewrite E. unfold text, public_text. cbn [g_v g_epoch g_first g_more g_pre g_post g_dev g_local]. rewrite <- !app_assoc. do 3 f_equal.
    transitivity ((spell over_text a ++ spell post_text p2 ++ spell tag_text d2) ++ spell (fun l => 43 :: local_text l) l);
      [now rewrite <- !app_assoc|]. rewrite <- E3. now rewrite <- !app_assoc.
  Qed.

  Lemma tree_form t : tree_as R t -> pep_form R (text t).
  Proof.
    destruct t as [v e f m a p d l]. unfold tree_as. cbn. intros (P1 & P2 & P3 & P3' & P4 & P5 & P6 & P7).
    apply form_pieces. exists v, e, f, m, (option_map (fun t => (t, None)) a), (option_map (fun t => (t, None)) p), (option_map (fun t => (t, None)) d), l.
    repeat (split; [assumption|]). split; [destruct a; cbn in *; auto; split; cbn; auto; split; [exact I|congruence]|].
    split; [destruct p as [[x|q]|]; cbn in *; auto; split; cbn; auto; split; [exact I|congruence]|].
    split; [destruct d; cbn in *; auto; split; cbn; auto; split; [exact I|congruence]|]. split; [assumption|].
    unfold text, public_text, tail. cbn [g_v g_epoch g_first g_more g_pre g_post g_dev g_local]. rewrite <- !app_assoc. do 3 f_equal.
    destruct a, p, d; unfold spell, option_map, over_text, over_post_text; cbn [fst snd one]; now rewrite ?app_nil_r, <- ?app_assoc.
  Qed.
End Tidy.

(** ** The text of a tree is tidy *)

(** Tidy, and not ending in a mark when something else may follow: [P] holds of
    the characters which may come next. *)
Definition tidy_before (s r : pstr) : Prop :=
  forall u c v, s = u ++ c :: v -> separator c -> exists d w, v ++ r = d :: w /\ alnum d.

Lemma tidy_app s r : tidy_before s r -> tidy r -> tidy (s ++ r).
Proof.
  intros H T. induction s as [|a s IH]; cbn; auto. intros u c v E C. destruct u as [|b u]; cbn in E; injection E as -> E.
  - subst v. apply (H [] c s); auto. now apply mark_iff.
  - apply (IH (fun u' c' v' E' => H (b :: u') c' v' (f_equal (cons b) E')) u c v E C).
Qed.

Lemma no_marks s r : Forall (fun c => ~ separator c) s -> tidy_before s r.
Proof. intros F u c v -> C. apply Forall_app in F as [_ F]. inversion F. tauto. Qed.

Lemma digits_unmarked d : digits d -> Forall (fun c => ~ separator c) d.
Proof. intros [_ F]. eapply Forall_impl; [|exact F]. unfold digit, separator. lia. Qed.

Lemma alnums_unmarked d : alphanumeric d -> Forall (fun c => ~ separator c) d.
Proof. intros [_ F]. eapply Forall_impl; [|exact F]. intros c H. now apply alnum_either, alnum_not in H. Qed.

Lemma spelled_unmarked w p : In p all_words -> spells w p -> Forall (fun c => ~ separator c) w /\ exists d w', w = d :: w' /\ alnum d.
Proof.
  intros I S. destruct (words_letters p I) as [L N]. unfold spells in S. clear I.
  assert (A : Forall alnum w).
  { clear N. induction S as [|c a w p F _ IH]; auto. inversion L; subst. constructor; auto.
    apply alnum_either. right. exists a. auto. }
  split; [eapply Forall_impl; [|exact A]; intros c; apply alnum_not|].
  destruct S as [|c a w p]; [now destruct N|]. inversion A. eauto.
Qed.

Lemma digits_start d r : digits d -> exists c w, d ++ r = c :: w /\ alnum c.
Proof. intros [N F]. destruct F as [|c d C F]; [now destruct N|]. exists c, (d ++ r). split; auto. left. exact C. Qed.

Lemma alnums_start d r : alphanumeric d -> exists c w, d ++ r = c :: w /\ alnum c.
Proof. intros [N F]. destruct F as [|c d C F]; [now destruct N|]. exists c, (d ++ r). split; [reflexivity|now apply alnum_either]. Qed.

Lemma tidy_mark c r : (exists d w, r = d :: w /\ alnum d) -> tidy r -> tidy (c :: r).
Proof.
  intros H T u b v E B. destruct u as [|a u]; cbn in E; injection E as -> E; [now subst|]. now apply (T u b v).
Qed.

Lemma tidy_other c r : ~ separator c -> tidy r -> tidy (c :: r).
Proof. intros H T. apply (tidy_app [c]); auto. apply no_marks. auto. Qed.

Lemma tidy_one o r : opt separator o -> (exists d w, r = d :: w /\ alnum d) -> tidy r -> tidy (one o ++ r).
Proof. destruct o as [c|]; cbn; auto. intros _. apply tidy_mark. Qed.

Lemma tidy_digits d r : digits d -> tidy r -> tidy (d ++ r).
Proof. intros D. apply tidy_app, no_marks, digits_unmarked, D. Qed.

Lemma tidy_tag ws t r : (forall p, In p ws -> In p all_words) -> tag_tree ws t -> tidy r -> tidy (tag_text t ++ r).
Proof.
  intros W (O & (p & P & Sp) & X) T. destruct (spelled_unmarked _ p (W _ P) Sp) as [U (d & w & E & A)].
  unfold tag_text, tag_word. rewrite <- !app_assoc. apply tidy_one; [exact O|rewrite E; cbn; eauto|].
  apply tidy_app; [now apply no_marks|]. destruct (g_value t) as [[o x]|]; cbn in *; auto. destruct X as [X1 X2].
  rewrite <- app_assoc. apply tidy_one; [exact X1|now apply digits_start|now apply tidy_digits].
Qed.

Lemma tidy_parts (f : N) (l : list pstr) r : Forall digits l -> tidy r -> tidy (List.concat (map (cons f) l) ++ r).
Proof.
  induction 1 as [|d l D _ IH]; cbn; auto. intros T. rewrite <- app_assoc. apply tidy_mark; [now apply digits_start|].
  apply tidy_digits; auto.
Qed.

Lemma tidy_local l : local_tree l -> tidy (local_text l).
Proof.
  destruct l as [u l]. intros [U F]. unfold local_text. cbn in *. apply tidy_app; [apply no_marks, alnums_unmarked, U|].
  induction F as [|[c d] l [C D] _ IH]; cbn in *; [intros [|? ?] ? ? E; discriminate|].
  apply tidy_mark; [now apply alnums_start|]. apply tidy_app; auto. apply no_marks, alnums_unmarked, D.
Qed.

Lemma text_tidy t : loose t -> tidy (text t).
Proof.
  destruct t as [v e f m a p d l]. intros (V & E & F & M & A & P & D & L). cbn [g_v g_epoch g_first g_more g_pre g_post g_dev g_local] in *. unfold text, public_text.
  cbn [g_v g_epoch g_first g_more g_pre g_post g_dev g_local]. rewrite <- !app_assoc.
  assert (W : forall ws, In ws [pre_words; post_words; dev_words] -> forall p, In p ws -> In p all_words) by (intros; eapply in_all_words; eauto).
  assert (T1 : tidy (spell (fun l => 43 :: local_text l) l)).
  { destruct l as [l|]; cbn in *; [|intros [|? ?] ? ? X; discriminate]. apply tidy_other; [unfold separator; lia|now apply tidy_local]. }
  assert (T2 : tidy (spell tag_text d ++ spell (fun l => 43 :: local_text l) l)).
  { destruct d as [d|]; auto. apply (tidy_tag dev_words); auto. apply W. cbn. auto. }
  assert (T3 : tidy (spell post_text p ++ spell tag_text d ++ spell (fun l => 43 :: local_text l) l)).
  { destruct p as [[x|q]|]; auto; cbn in P.
    - cbn. apply tidy_mark; [now apply digits_start|now apply tidy_digits].
    - apply (tidy_tag post_words); auto. apply W. cbn. auto. }
  assert (T4 : tidy (spell tag_text a ++ spell post_text p ++ spell tag_text d ++ spell (fun l => 43 :: local_text l) l)).
  { destruct a as [a|]; auto. apply (tidy_tag pre_words); auto. apply W. cbn. auto. }
  assert (T5 : tidy (release_text f m ++ spell tag_text a ++ spell post_text p ++ spell tag_text d ++ spell (fun l => 43 :: local_text l) l)).
  { unfold release_text. rewrite <- app_assoc. apply tidy_digits; auto. now apply tidy_parts. }
  assert (T6 : tidy (spell (fun d => d ++ [33]) e ++ release_text f m ++ spell tag_text a ++ spell post_text p ++ spell tag_text d ++ spell (fun l => 43 :: local_text l) l)).
  { destruct e as [e|]; auto. cbn. rewrite <- app_assoc. apply tidy_digits; auto. cbn. apply tidy_other; auto. unfold separator. lia. }
  destruct v as [v|]; [|exact T6]. cbn. apply tidy_other; [unfold separator; cbn in V; lia|exact T6].
Qed.

(** ** What parse_version accepts *)

Lemma loose_as t : loose t <-> tree_as any_case t.
Proof. reflexivity. Qed.

Lemma as_is_loose t : tree_as as_is t <-> loose t /\ lower_case t.
Proof.
  assert (R : forall w, Forall2 folds w w) by (induction w; constructor; [left|]; auto).
  unfold tree_as, loose, lower_case, lower_tag. destruct t as [v e f m a p d l]. cbn.
  assert (A : forall ws t, tag_as as_is ws t <-> tag_tree ws t /\ In (g_word t) ws).
  { intros ws t. unfold tag_as, tag_tree, as_is, spells. split.
    - intros (O & (q & Q & ->) & X). eauto 8.
    - intros ((O & _ & X) & I). eauto 8. }
  assert (B : forall ws o, opt (tag_as as_is ws) o <-> opt (tag_tree ws) o /\ opt (fun t => In (g_word t) ws) o).
  { intros ws [o|]; cbn; [apply A|tauto]. }
  assert (C : opt (post_as as_is) p <-> opt post_tree p /\ opt (fun p => match p with Implicit _ => True | Explicit t => In (g_word t) post_words end) p).
  { destruct p as [[x|q]|]; cbn; try tauto. apply A. }
  rewrite !B, C. tauto.
Qed.

Lemma regroup_lower t : lower_case t -> lower_case (regroup t).
Proof.
  destruct t as [v e f m [[o w [x|]]|] [[x'|q]|] d l]; unfold regroup, lower_case; cbn; tauto.
Qed.

Lemma matched_form s : (exists cs, fullmatch VERSION s = Some cs) <-> pep_form any_case s /\ tidy s.
Proof.
  split.
  - intros (cs & H). apply fullmatch_sound, D_version in H as (t & T & -> & _). split; [now apply tree_form|now apply text_tidy].
  - intros [H T]. destruct (tidy_tree _ s H T) as (t & L & ->). apply (fullmatch_complete _ _ (all_caps t)), D_version. eauto.
Qed.

Lemma accepted_form s : (exists v, parse_version s = Ok v) <-> pep_form as_is s /\ tidy s.
Proof.
  split.
  - intros (v & H). apply parse_ok in H as (t & T & L & <- & _). apply tree_loose in T as [T _].
    split; [apply tree_form, as_is_loose; auto|now apply text_tidy].
  - intros [H T]. destruct (tidy_tree _ s H T) as (t & L & ->). apply as_is_loose in L as [L W].
    exists (reading (regroup t)). apply parse_ok. exists (regroup t). destruct (regroup_tree t L) as (G & X & _).
    split; auto. split; [now apply regroup_lower|]. auto.
Qed.

Lemma as_is_any s : pep_form as_is s -> pep_form any_case s.
Proof.
  assert (R : forall w, any_case w w) by (induction w; constructor; [left|]; auto).
  assert (T : forall ws x, left_over as_is ws x -> left_over any_case ws x).
  { intros ws x ((O & (q & Q & E) & X) & M). unfold as_is in E. subst q. split; auto. split; auto. split; auto. exists (g_word (fst x)). auto. }
  rewrite !form_pieces. intros (v & e & f & m & a & p & d & l & P1 & P2 & P3 & P3' & P4 & P5 & P6 & P7 & ->).
  exists v, e, f, m, a, p, d, l. repeat (split; [assumption|]). split; [destruct a; cbn in *; auto|].
  split; [destruct p as [[[x|q] k]|]; cbn in *; auto; now apply T|]. split; [destruct d; cbn in *; auto|]. auto.
Qed.

(** How the others fail. *)
Lemma refused_form s e : parse_version s = Err e <->
  e = ParseVersionError /\ ~ (pep_form any_case s /\ tidy s) \/ e = ValueError /\ pep_form any_case s /\ tidy s /\ ~ pep_form as_is s.
Proof.
  assert (M := matched_form s). assert (A := accepted_form s). assert (B := as_is_any s).
  assert (E : parse_version s = Err e -> e = ParseVersionError /\ ~ (pep_form any_case s /\ tidy s)
    \/ e = ValueError /\ pep_form any_case s /\ tidy s /\ ~ pep_form as_is s).
  { intros H. destruct (proj1 (parse_err s e) H) as [[-> N]|[-> (t & T & L & X)]].
    - left. split; auto. intros F. apply M in F as (cs & F). apply fullmatch_version_sound in F as (t & T & X & _). eauto.
    - right. split; auto. assert (Z := fullmatch_version t T). rewrite X in Z.
      assert (F : pep_form any_case s /\ tidy s) by (apply M; eauto).
      split; [tauto|]. split; [tauto|]. intros Y. destruct (proj2 A (conj Y (proj2 F))) as (v & V). congruence. }
  split; auto. intros H. destruct (parse_version s) as [v|e'] eqn:P.
  - assert (X : pep_form as_is s /\ tidy s) by (apply A; eauto). tauto.
  - destruct (proj1 (parse_err s e') P) as [[-> N]|[-> (t & T & L & X)]].
    + assert (N' : ~ (pep_form any_case s /\ tidy s)).
      { intros F. apply M in F as (cs & F). apply fullmatch_version_sound in F as (t & T & X & _). eauto. }
      destruct H as [[-> _]|H]; [auto|tauto].
    + assert (F : pep_form any_case s /\ tidy s) by (apply M; rewrite <- X; exists (all_caps t); now apply fullmatch_version).
      destruct H as [H|[-> _]]; [tauto|auto].
Qed.

(** The characters of the form. *)
Definition written (c : N) : Prop := alnum c \/ mark c \/ c = 33 \/ c = 43.
Definition all_written (L : lang) : Prop := forall s, L s -> Forall written s.

Lemma written_then L M : all_written L -> all_written M -> all_written (L ;; M).
Proof. intros H K s (u & v & -> & U & V). apply Forall_app. auto. Qed.
Lemma written_maybe L : all_written L -> all_written (maybe L).
Proof. intros H s [->|S]; auto. Qed.
Lemma written_either L M : all_written L -> all_written M -> all_written (either L M).
Proof. intros H K s [S|S]; auto. Qed.
Lemma written_many L : all_written L -> all_written (many L).
Proof. intros H s. induction 1; [auto|apply Forall_app; auto]. Qed.
Lemma written_char (P : N -> Prop) : (forall c, P c -> written c) -> all_written (char P).
Proof. intros H s (c & C & ->). auto. Qed.
Lemma written_words words : (forall p, In p words -> In (lit p) all_words) -> all_written (one_of any_case words).
Proof.
  intros H s (p & P & S). destruct (words_letters _ (H p P)) as [L _]. unfold any_case in S.
  induction S as [|c a w q F _ IH]; auto. inversion L; subst. constructor; auto. left. right. eauto.
Qed.

Lemma written_some L : all_written L -> all_written (some L).
Proof. intros H. apply written_then; auto. now apply written_many. Qed.

Lemma form_written : all_written (pep_form any_case).
Proof.
  assert (D : all_written (some decimal)) by (apply written_some, written_char; intros c C; left; left; exact C).
  assert (M : all_written marked) by (apply written_char; intros c C; right; left; exact C).
  assert (A : all_written (some (char alnum))) by (apply written_some, written_char; intros c C; left; exact C).
  assert (X : forall c, c = 33 \/ c = 43 \/ mark c -> all_written (exactly c)).
  { intros c C. apply written_char. intros x <-. unfold written. tauto. }
  assert (X33 : all_written (exactly 33)) by (apply X; auto). assert (X43 : all_written (exactly 43)) by (apply X; auto).
  assert (X45 : all_written (exactly 45)) by (apply X; unfold mark; auto).
  assert (X46 : all_written (exactly 46)) by (apply X; unfold mark; auto).
  assert (T : forall words, (forall p, In p words -> In (lit p) all_words) -> all_written (pep_tag any_case words)).
  { intros words H. unfold pep_tag. apply written_then; [now apply written_maybe|]. apply written_then; [now apply written_words|].
    apply written_then; now apply written_maybe. }
  assert (W : forall words, forallb (fun p => existsb (str_eqb (lit p)) all_words) words = true -> forall p, In p words -> In (lit p) all_words).
  { intros words H p P. rewrite forallb_forall in H. apply H, existsb_exists in P as (q & Q & E). apply Orders.str_eqb_eq in E. now rewrite E. }
  unfold pep_form. apply written_then; [apply written_maybe, written_char; intros c C; left; right; exists 118; split; [lia|]; unfold either_case; lia|].
  apply written_then; [apply written_maybe, written_then; assumption|].
  apply written_then; [apply written_then; [assumption|apply written_many, written_then; assumption]|].
  apply written_then; [apply written_maybe, T, W; reflexivity|].
  apply written_then; [apply written_maybe, written_either; [now apply written_then|apply T, W; reflexivity]|].
  apply written_then; [apply written_maybe, T, W; reflexivity|].
  apply written_maybe, written_then; [assumption|]. apply written_then; [assumption|]. apply written_many. now apply written_then.
Qed.
