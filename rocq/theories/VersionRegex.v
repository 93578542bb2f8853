(** The regular expression of versions matches exactly the texts of trees, and
    captures their pieces. *)

From Coq Require Import List ZArith NArith String Bool Arith Lia.
From Verif Require Import Py Segments Version Regex Patterns Grammar RegexFacts Unambiguous.
Import ListNotations.

Lemma D_digits w ds : D DIGITS w ds <-> digits w /\ ds = [].
Proof.
  unfold DIGITS. rewrite D_plus_chr. unfold digits. split.
  - intros (N & F & ->). repeat split; auto. eapply Forall_impl; [|exact F]. intros c. apply digit_iff.
  - intros ((N & F) & ->). repeat split; auto. eapply Forall_impl; [|exact F]. intros c. apply digit_iff.
Qed.

Lemma D_char a w ds : D (chr a) w ds <-> w = [a] /\ ds = [].
Proof.
  unfold chr. rewrite D_chr_iff. split.
  - intros (c & -> & H & ->). apply N.eqb_eq in H. now subst.
  - intros [-> ->]. exists a. rewrite N.eqb_refl. auto.
Qed.

Lemma D_sep w ds : D SEPARATOR w ds <-> exists c, separator c /\ w = [c] /\ ds = [].
Proof.
  unfold SEPARATOR. rewrite D_chr_iff. split.
  - intros (c & -> & H & ->). apply sep_iff in H. eauto.
  - intros (c & H & -> & ->). apply sep_iff in H. eauto.
Qed.

Lemma D_sep_opt w ds : D (Opt SEPARATOR) w ds <-> exists o, opt separator o /\ w = one o /\ ds = [].
Proof.
  rewrite D_opt_iff, D_sep. split.
  - intros [(c & H & -> & ->)|[-> ->]]; [exists (Some c)|exists None]; cbn; auto.
  - intros ([c|] & H & -> & ->); [left; eauto|right; auto].
Qed.

(** ** Tags *)

Definition tag_re (g gp gv : group) (ws : list pstr) : re :=
  Cat (Opt SEPARATOR)
      (Grp g (Cat (Grp gp (alts ws)) (Opt (Cat (Opt SEPARATOR) (Grp gv DIGITS))))).

Definition tag_caps (g gp gv : group) (t : gtag) : caps :=
  (g, tag_word t) :: match g_value t with None => [] | Some x => [(gv, snd x)] end ++ [(gp, g_word t)].

Definition good_words (ws vs : list pstr) : Prop :=
  ws <> [] /\ Forall (fun p => p <> []) ws /\ (forall p, In p ws <-> In p vs) /\ (forall p, In p vs -> In p all_words).

Lemma D_value gv w ds : D (Opt (Cat (Opt SEPARATOR) (Grp gv DIGITS))) w ds <->
  exists x, opt (fun x => opt separator (fst x) /\ digits (snd x)) x
    /\ w = spell (fun x => one (fst x) ++ snd x) x /\ ds = match x with None => [] | Some x => [(gv, snd x)] end.
Proof.
  rewrite D_opt_iff, D_cat_iff. split.
  - intros [(w1 & w2 & d1 & d2 & -> & -> & H1 & H2)|[-> ->]].
    + apply D_sep_opt in H1 as (o & O & -> & ->). apply D_grp_iff in H2 as (es & -> & H2). apply D_digits in H2 as [H2 ->].
      exists (Some (o, w2)). cbn. auto.
    + exists None. cbn. auto.
  - intros ([[o d]|] & H & -> & ->); cbn in *; [left|auto]. exists (one o), d, [], [(gv, d)]. split; auto. split; auto.
    destruct H as [H1 H2]. split; [apply D_sep_opt; eauto|]. apply D_grp_iff. eexists. split; [reflexivity|]. now apply D_digits.
Qed.

Lemma D_tag g gp gv ws vs : good_words ws vs -> forall w ds,
  D (tag_re g gp gv ws) w ds <-> exists t, tag_tree vs t /\ w = tag_text t /\ ds = tag_caps g gp gv t.
Proof.
  intros (N & F & I & A) w ds. unfold tag_re. rewrite D_cat_iff. split.
  - intros (w1 & w2 & d1 & d2 & -> & -> & H1 & H2). apply D_sep_opt in H1 as (o & O & -> & ->).
    apply D_grp_iff in H2 as (es & -> & H2). apply D_cat_iff in H2 as (u1 & u2 & e1 & e2 & -> & -> & H1 & H2).
    apply D_grp_iff in H1 as (es & -> & H1). apply D_alts in H1 as (p & Hp & Hw & ->); auto.
    apply D_value in H2 as (x & X & -> & ->). apply I in Hp.
    exists (GTag o u1 x). split; [|split].
    + split; auto. split; auto. exists p. split; auto. apply spells_lower; auto. now apply words_letters, A.
    + reflexivity.
    + unfold tag_caps. cbn. now rewrite app_nil_r.
  - intros (t & (O & (p & Hp & W) & X) & -> & ->). exists (one (g_sep t)), (tag_word t), [], (tag_caps g gp gv t).
    split; auto. split; [now rewrite app_nil_r|]. split; [apply D_sep_opt; eauto|]. apply D_grp_iff. eexists. split; [reflexivity|].
    apply D_cat_iff. exists (g_word t), (spell (fun x => one (fst x) ++ snd x) (g_value t)), [(gp, g_word t)], (match g_value t with None => [] | Some x => [(gv, snd x)] end).
    split; [reflexivity|]. split; [reflexivity|]. split.
    + apply D_grp_iff. eexists. split; [reflexivity|]. apply D_alts; auto. exists p. split; [now apply I|]. split; auto.
      apply spells_lower; auto. now apply words_letters, A.
    + apply D_value. eauto.
Qed.

Ltac words_tac := split; [discriminate|]; split;
  [apply Forall_forall; cbn; intros p H; repeat (destruct H as [<-|H]; [discriminate|]); destruct H|]; split;
  [intros p; cbn; tauto|intros p H; unfold all_words; rewrite !in_app_iff; tauto].

Lemma pre_good : good_words PRE_PHASES pre_words.
Proof. words_tac. Qed.
Lemma post_good : good_words POST_PHASES post_words.
Proof. words_tac. Qed.
Lemma dev_good : good_words DEV_PHASES dev_words.
Proof. words_tac. Qed.

Definition ocaps {A} (f : A -> caps) (o : option A) : caps := match o with None => [] | Some a => f a end.

Lemma D_opt_pieces {A} r (P : A -> Prop) f c : (forall w ds, D r w ds <-> exists a, P a /\ w = f a /\ ds = c a) ->
  forall w ds, D (Opt r) w ds <-> exists o, opt P o /\ w = spell f o /\ ds = ocaps c o.
Proof.
  intros H w ds. rewrite D_opt_iff, H. split.
  - intros [(a & Pa & -> & ->)|[-> ->]]; [exists (Some a)|exists None]; cbn; auto.
  - intros ([a|] & Pa & -> & ->); [left; eauto|right; auto].
Qed.

Definition pre_caps := tag_caps G_PRE G_PRE_PHASE G_PRE_VALUE.
Definition dev_caps := tag_caps G_DEV G_DEV_PHASE G_DEV_VALUE.
Definition post_caps (p : gpost) : caps :=
  match p with Implicit d => [(G_POST_IMPLICIT, d)] | Explicit t => tag_caps G_POST G_POST_PHASE G_POST_VALUE t end.

Lemma D_pre w ds : D P_PRE w ds <-> exists o, opt (tag_tree pre_words) o /\ w = spell tag_text o /\ ds = ocaps pre_caps o.
Proof. apply (D_opt_pieces (tag_re G_PRE G_PRE_PHASE G_PRE_VALUE PRE_PHASES)). now apply D_tag, pre_good. Qed.

Lemma D_dev w ds : D P_DEV w ds <-> exists o, opt (tag_tree dev_words) o /\ w = spell tag_text o /\ ds = ocaps dev_caps o.
Proof. apply (D_opt_pieces (tag_re G_DEV G_DEV_PHASE G_DEV_VALUE DEV_PHASES)). now apply D_tag, dev_good. Qed.

Lemma D_post w ds : D P_POST w ds <-> exists o, opt post_tree o /\ w = spell post_text o /\ ds = ocaps post_caps o.
Proof.
  unfold P_POST. apply D_opt_pieces. clear w ds. intros w ds.
  change (Cat (Opt SEPARATOR) _) with (tag_re G_POST G_POST_PHASE G_POST_VALUE POST_PHASES).
  rewrite D_alt_iff, (D_tag _ _ _ _ _ post_good), D_cat_iff. split.
  - intros [(w1 & w2 & d1 & d2 & -> & -> & H1 & H2)|(t & H & -> & ->)].
    + apply D_char in H1 as [-> ->]. apply D_grp_iff in H2 as (es & -> & H2). apply D_digits in H2 as [H2 ->].
      exists (Implicit w2). auto.
    + exists (Explicit t). auto.
  - intros ([d|t] & H & -> & ->); [left|right; eauto]. exists [45%N], d, [], [(G_POST_IMPLICIT, d)].
    split; auto. split; auto. split; [now apply D_char|]. apply D_grp_iff. eexists. split; [reflexivity|]. now apply D_digits.
Qed.

(** ** The other pieces *)

Lemma D_v w ds : D P_V w ds <-> exists o, opt (fun c => c = 118%N \/ c = 86%N) o /\ w = one o /\ ds = [].
Proof.
  unfold P_V, ci. rewrite D_opt_iff, D_chr_iff.
  assert (V : forall c, (lower c =? 118)%N = true <-> (c = 118 \/ c = 86)%N).
  { intros c. rewrite N.eqb_eq, folds_iff by lia. unfold folds. lia. }
  split.
  - intros [(c & -> & H & ->)|[-> ->]]; [exists (Some c)|exists None]; cbn; auto. apply V in H. auto.
  - intros ([c|] & H & -> & ->); [left|right; auto]. exists c. split; auto. split; auto. now apply V.
Qed.

Lemma D_epoch w ds : D P_EPOCH w ds <->
  exists o, opt digits o /\ w = spell (fun d => d ++ [33%N]) o /\ ds = ocaps (fun d => [(G_EPOCH, d)]) o.
Proof.
  unfold P_EPOCH. apply D_opt_pieces. clear w ds. intros w ds. rewrite D_cat_iff. split.
  - intros (w1 & w2 & d1 & d2 & -> & -> & H1 & H2). apply D_char in H2 as [-> ->].
    apply D_grp_iff in H1 as (es & -> & H1). apply D_digits in H1 as [H1 ->]. eauto.
  - intros (d & H & -> & ->). exists d, [33%N], [(G_EPOCH, d)], []. split; auto. split; auto. split; [|now apply D_char].
    apply D_grp_iff. eexists. split; [reflexivity|]. now apply D_digits.
Qed.

Lemma D_more w ds : D (Star (Cat (chr 46) DIGITS)) w ds <->
  exists xs, Forall digits xs /\ w = List.concat (map (cons 46%N) xs) /\ ds = [].
Proof.
  apply D_star_pieces; [|discriminate]. clear w ds. intros w ds. rewrite D_cat_iff. split.
  - intros (w1 & w2 & d1 & d2 & -> & -> & H1 & H2). apply D_char in H1 as [-> ->]. apply D_digits in H2 as [H2 ->]. exists w2. auto.
  - intros (d & H & -> & ->). exists [46%N], d, [], []. split; auto. split; auto. split; [now apply D_char|now apply D_digits].
Qed.

Lemma D_release w ds : D P_RELEASE w ds <-> exists first more, digits first /\ Forall digits more
  /\ w = release_text first more /\ ds = [(G_RELEASE, release_text first more)].
Proof.
  unfold P_RELEASE. rewrite D_grp_iff. split.
  - intros (es & -> & H). apply D_cat_iff in H as (w1 & w2 & d1 & d2 & -> & -> & H1 & H2).
    apply D_digits in H1 as [H1 ->]. apply D_more in H2 as (xs & F & -> & ->). eauto 8.
  - intros (first & more & H & F & -> & ->). exists []. split; auto. apply D_cat_iff.
    exists first, (List.concat (map (cons 46%N) more)), [], []. split; [reflexivity|]. split; auto.
    split; [now apply D_digits|]. apply D_more. eauto.
Qed.

Lemma alnum_iff w : w <> [] /\ Forall (fun c => is_alnum c = true) w <-> alphanumeric w.
Proof.
  unfold alphanumeric. split; intros [N F]; split; auto; eapply Forall_impl; try exact F; intros c; cbn beta;
    unfold is_alnum; rewrite orb_true_iff, digit_iff, letter_iff; tauto.
Qed.

Lemma D_alnum w ds : D ALPHA_DIGITS w ds <-> alphanumeric w /\ ds = [].
Proof. unfold ALPHA_DIGITS. rewrite D_plus_chr, <- alnum_iff. tauto. Qed.

Definition local_tree (l : pstr * list (N * pstr)) : Prop :=
  alphanumeric (fst l) /\ Forall (fun x => separator (fst x) /\ alphanumeric (snd x)) (snd l).

Lemma D_local w ds : D P_LOCAL w ds <-> exists o, opt local_tree o /\ w = spell (fun l => 43%N :: local_text l) o
  /\ ds = ocaps (fun l => [(G_LOCAL, local_text l)]) o.
Proof.
  unfold P_LOCAL. apply D_opt_pieces. clear w ds. intros w ds. rewrite D_cat_iff.
  assert (S : forall w ds, D (Star (Cat SEPARATOR ALPHA_DIGITS)) w ds <->
    exists xs, Forall (fun x => separator (fst x) /\ alphanumeric (snd x)) xs
      /\ w = List.concat (map (fun x : N * pstr => fst x :: snd x) xs) /\ ds = []).
  { apply D_star_pieces; [|discriminate]. clear w ds. intros w ds. rewrite D_cat_iff. split.
    - intros (w1 & w2 & d1 & d2 & -> & -> & H1 & H2). apply D_sep in H1 as (c & H1 & -> & ->). apply D_alnum in H2 as [H2 ->].
      exists (c, w2). auto.
    - intros ([c x] & [H1 H2] & -> & ->). exists [c], x, [], []. split; auto. split; auto.
      split; [apply D_sep; eauto|now apply D_alnum]. }
  split.
  - intros (w1 & w2 & d1 & d2 & -> & -> & H1 & H2). apply D_char in H1 as [-> ->].
    apply D_grp_iff in H2 as (es & -> & H2). apply D_cat_iff in H2 as (u1 & u2 & e1 & e2 & -> & -> & H1 & H2).
    apply D_alnum in H1 as [H1 ->]. apply S in H2 as (xs & F & -> & ->). exists (u1, xs). split; [split; auto|]. auto.
  - intros ([u xs] & [H F] & -> & ->). exists [43%N], (local_text (u, xs)), [], [(G_LOCAL, local_text (u, xs))].
    split; auto. split; auto. split; [now apply D_char|]. apply D_grp_iff. eexists. split; [reflexivity|].
    apply D_cat_iff. exists u, (List.concat (map (fun x : N * pstr => fst x :: snd x) xs)), [], [].
    split; [reflexivity|]. split; auto. split; [now apply D_alnum|]. apply S. eauto.
Qed.

(** ** The whole expression *)

(** [tree] without the last condition. *)
Definition loose (t : gversion) : Prop :=
  opt (fun c => c = 118%N \/ c = 86%N) (g_v t) /\ opt digits (g_epoch t)
  /\ digits (g_first t) /\ Forall digits (g_more t)
  /\ opt (tag_tree pre_words) (g_pre t) /\ opt post_tree (g_post t) /\ opt (tag_tree dev_words) (g_dev t)
  /\ opt local_tree (g_local t).

Lemma tree_loose t : tree t <-> loose t /\ greedy t.
Proof. unfold tree, loose, local_tree. tauto. Qed.

Definition public_caps (t : gversion) : caps :=
  ((((ocaps dev_caps (g_dev t) ++ ocaps post_caps (g_post t)) ++ ocaps pre_caps (g_pre t))
    ++ [(G_RELEASE, release_text (g_first t) (g_more t))]) ++ ocaps (fun d => [(G_EPOCH, d)]) (g_epoch t)) ++ [].
Definition all_caps (t : gversion) : caps :=
  ocaps (fun l => [(G_LOCAL, local_text l)]) (g_local t) ++ public_caps t.

Lemma D_public w ds : D PUBLIC_VERSION w ds <->
  exists t, loose t /\ g_local t = None /\ w = public_text t /\ ds = public_caps t.
Proof.
  unfold PUBLIC_VERSION. cbn [cats]. split.
  - intros H. apply D_cat_iff in H as (w1 & w2 & d1 & d2 & -> & -> & H1 & H). apply D_v in H1 as (v & V & -> & ->).
    apply D_cat_iff in H as (w1 & w3 & d1 & d3 & -> & -> & H1 & H). apply D_epoch in H1 as (e & E & -> & ->).
    apply D_cat_iff in H as (w1 & w4 & d1 & d4 & -> & -> & H1 & H). apply D_release in H1 as (f & m & F & M & -> & ->).
    apply D_cat_iff in H as (w1 & w5 & d1 & d5 & -> & -> & H1 & H). apply D_pre in H1 as (a & A & -> & ->).
    apply D_cat_iff in H as (w1 & w6 & d1 & d6 & -> & -> & H1 & H). apply D_post in H1 as (p & P & -> & ->).
    apply D_dev in H as (d & G & -> & ->). exists (GVersion v e f m a p d None). split; [|auto].
    unfold loose. cbn. tauto.
  - intros ([v e f m a p d l] & (V & E & F & M & A & P & G & L) & N & -> & ->). cbn in *.
    unfold public_caps, public_text. cbn [g_v g_epoch g_first g_more g_pre g_post g_dev g_local].
    repeat (apply D_cat; [|]); [apply D_v|apply D_epoch|apply D_release|apply D_pre|apply D_post|apply D_dev]; eauto 8.
Qed.

Lemma D_version w ds : D VERSION w ds <-> exists t, loose t /\ w = text t /\ ds = all_caps t.
Proof.
  unfold VERSION. rewrite D_cat_iff. split.
  - intros (w1 & w2 & d1 & d2 & -> & -> & H1 & H2). apply D_public in H1 as ([v e f m a p d l] & T & N & -> & ->).
    apply D_local in H2 as (l' & L & -> & ->). exists (GVersion v e f m a p d l'). unfold loose in *. cbn in *. subst l.
    split; [tauto|]. auto.
  - intros ([v e f m a p d l] & T & -> & ->). unfold loose in T. cbn in T.
    exists (public_text (GVersion v e f m a p d None)), (spell (fun l => 43%N :: local_text l) l), (public_caps (GVersion v e f m a p d None)), (ocaps (fun l => [(G_LOCAL, local_text l)]) l).
    split; [reflexivity|]. split; [reflexivity|]. split.
    + apply D_public. eexists. split; [|split; [|split; reflexivity]]; [unfold loose; cbn; tauto|reflexivity].
    + apply D_local. exists l. tauto.
Qed.

(** ** Preferences *)

Definition accept (s : pstr) (cs : caps) : option caps := match s with [] => Some cs | _ => None end.

Lemma mt_caps_none r s cs cs' k : (forall s cs cs', k s cs = None -> k s cs' = None) ->
  mt r s cs k = None -> mt r s cs' k = None.
Proof.
  intros K H. destruct (mt r s cs' k) as [x|] eqn:E; auto. apply mt_sound in E as (w & ds & s' & -> & Dr & E).
  apply (mt_complete _ _ _ Dr) in H. apply (K _ _ (ds ++ cs')) in H. congruence.
Qed.

Lemma mt_cat r q s cs k : mt (Cat r q) s cs k = mt r s cs (fun s cs => mt q s cs k).
Proof. reflexivity. Qed.
Lemma mt_opt r s cs k : mt (Opt r) s cs k = match mt r s cs k with Some x => Some x | None => k s cs end.
Proof. reflexivity. Qed.
Lemma mt_grp g r s cs k : mt (Grp g r) s cs k =
  mt r s cs (fun s' cs' => k s' ((g, firstn (List.length s - List.length s') s) :: cs')).
Proof. reflexivity. Qed.

Definition after_post (s : pstr) (cs : caps) : option caps :=
  mt P_DEV s cs (fun s cs => mt P_LOCAL s cs accept).
Definition after_pre (s : pstr) (cs : caps) : option caps := mt P_POST s cs after_post.

Lemma after_post_caps s cs cs' : after_post s cs = None -> after_post s cs' = None.
Proof. apply mt_caps_none. intros s1 c1 c2. apply mt_caps_none. intros [|? ?] ? ?; [discriminate|auto]. Qed.

Lemma after_post_sound s cs x : after_post s cs = Some x -> exists d l,
  opt (tag_tree dev_words) d /\ opt local_tree l /\ s = spell tag_text d ++ spell (fun l => 43%N :: local_text l) l
  /\ x = ocaps (fun l => [(G_LOCAL, local_text l)]) l ++ ocaps dev_caps d ++ cs.
Proof.
  intros H. apply mt_sound in H as (w1 & d1 & s1 & -> & H1 & H). apply mt_sound in H as (w2 & d2 & s2 & -> & H2 & H).
  destruct s2; [|discriminate]. injection H as <-. apply D_dev in H1 as (d & Hd & -> & ->). apply D_local in H2 as (l & Hl & -> & ->).
  exists d, l. rewrite app_nil_r. auto.
Qed.

Lemma fullmatch_version_sound s cs : fullmatch VERSION s = Some cs -> exists t, tree t /\ text t = s /\ cs = all_caps t.
Proof.
  unfold fullmatch, VERSION, PUBLIC_VERSION. cbn [cats]. change (fun s' cs => match s' with [] => Some cs | _ => None end) with accept.
  intros H. 
  change (mt P_V s [] (fun s cs => mt P_EPOCH s cs (fun s cs => mt P_RELEASE s cs (fun s cs => mt P_PRE s cs after_pre))) = Some cs) in H.
  apply mt_sound in H as (w & ds & s1 & -> & H1 & H). apply D_v in H1 as (v & V & -> & ->).
  apply mt_sound in H as (w & ds & s2 & -> & H1 & H). apply D_epoch in H1 as (e & E & -> & ->).
  apply mt_sound in H as (w & ds & s3 & -> & H1 & H). apply D_release in H1 as (f & m & F & M & -> & ->).
  assert (G : exists a p d l, opt (tag_tree pre_words) a /\ opt post_tree p /\ opt (tag_tree dev_words) d /\ opt local_tree l
    /\ s3 = spell tag_text a ++ spell post_text p ++ spell tag_text d ++ spell (fun l => 43%N :: local_text l) l
    /\ cs = ocaps (fun l => [(G_LOCAL, local_text l)]) l ++ ocaps dev_caps d ++ ocaps post_caps p ++ ocaps pre_caps a
            ++ [(G_RELEASE, release_text f m)] ++ ocaps (fun d => [(G_EPOCH, d)]) e ++ []
    /\ match a, p with Some a, Some (Implicit _) => g_value a <> None | _, _ => True end).
  2: { destruct G as (a & p & d & l & A & P & G & L & -> & -> & Y). exists (GVersion v e f m a p d l).
    split; [|split].
    - unfold tree. cbn. unfold greedy. cbn. unfold local_tree in L. repeat (split; [assumption|]). exact Y.
    - unfold text, public_text. cbn [g_v g_epoch g_first g_more g_pre g_post g_dev g_local]. now rewrite <- !app_assoc.
    - unfold all_caps, public_caps. cbn [g_v g_epoch g_first g_more g_pre g_post g_dev g_local]. now rewrite <- !app_assoc. }
  rewrite app_nil_r. rewrite app_nil_r in H. revert H. generalize ([(G_RELEASE, release_text f m)] ++ ocaps (fun d => [(G_EPOCH, d)]) e) as c3. intros c3 H.
  assert (S : forall s c x, after_pre s c = Some x -> exists p d l, opt post_tree p /\ opt (tag_tree dev_words) d /\ opt local_tree l
    /\ s = spell post_text p ++ spell tag_text d ++ spell (fun l => 43%N :: local_text l) l
    /\ x = ocaps (fun l => [(G_LOCAL, local_text l)]) l ++ ocaps dev_caps d ++ ocaps post_caps p ++ c
    /\ exists y, after_post (spell tag_text d ++ spell (fun l => 43%N :: local_text l) l) y <> None).
  { clear. intros s c x H. apply mt_sound in H as (w & ds & s4 & -> & H1 & H). apply D_post in H1 as (p & P & -> & ->).
    pose proof H as Z. apply after_post_sound in H as (d & l & Hd & Hl & -> & ->). exists p, d, l. repeat (split; [assumption|]).
    split; auto. split; auto. exists (ocaps post_caps p ++ c). congruence. }
  change P_PRE with (Opt (tag_re G_PRE G_PRE_PHASE G_PRE_VALUE PRE_PHASES)) in H. rewrite mt_opt in H.
  destruct (mt (tag_re G_PRE G_PRE_PHASE G_PRE_VALUE PRE_PHASES) s3 c3 after_pre) as [x|] eqn:T.
  2: { apply S in H as (p & d & l & P & Hd & Hl & -> & -> & _). exists None, p, d, l. cbn [opt spell ocaps app]. repeat (split; [auto; exact I|]). exact I. }
  injection H as ->. unfold tag_re in T. rewrite mt_cat in T.
  apply mt_sound in T as (w & ds & s4 & -> & H1 & T). apply D_sep_opt in H1 as (o & O & -> & ->). cbn [app] in T.
  rewrite mt_grp in T.
  set (K := fun (s' : pstr) (cs' : caps) => after_pre s' ((G_PRE, firstn (List.length s4 - List.length s') s4) :: cs')) in T.
  change (mt (Grp G_PRE_PHASE (alts PRE_PHASES)) s4 c3 (fun s' cs' => mt (Opt (Cat (Opt SEPARATOR) (Grp G_PRE_VALUE DIGITS))) s' cs' K) = Some cs) in T.
  apply mt_sound in T as (w & ds & s5 & -> & H1 & T). apply D_grp_iff in H1 as (es & -> & H1).
  destruct pre_good as (GN & GF & GI & GA). apply D_alts in H1 as (q & Hq & Hw & ->); auto. cbn [app] in T.
  apply GI in Hq. apply spells_lower in Hw; [|now apply words_letters, GA].
  change (match mt (Cat (Opt SEPARATOR) (Grp G_PRE_VALUE DIGITS)) s5 ((G_PRE_PHASE, w) :: c3) K with Some x => Some x | None => K s5 ((G_PRE_PHASE, w) :: c3) end = Some cs) in T.
  destruct (mt (Cat (Opt SEPARATOR) (Grp G_PRE_VALUE DIGITS)) s5 ((G_PRE_PHASE, w) :: c3) K) as [x|] eqn:U.
  - injection T as ->. apply mt_sound in U as (w1 & ds & s6 & -> & H1 & U).
    apply D_cat_iff in H1 as (u1 & u2 & d1 & d2 & -> & -> & H1 & H2). apply D_sep_opt in H1 as (o2 & O2 & -> & ->).
    apply D_grp_iff in H2 as (es & -> & H2). apply D_digits in H2 as [H2 ->]. cbn [app] in U. unfold K in U.
    rewrite <- (app_assoc (one o2)), (app_assoc w), (app_assoc (w ++ one o2)), firstn_prefix in U.
    apply S in U as (p & d & l & P & Hd & Hl & -> & -> & _).
    exists (Some (GTag o w (Some (o2, u2)))), p, d, l. cbn [opt spell ocaps tag_text]. split.
    { split; auto. split; [eauto|]. cbn. auto. }
    repeat (split; [assumption|]). split; [|split].
    + unfold tag_text, tag_word. cbn [g_sep g_word g_value spell fst snd]. now rewrite <- !app_assoc.
    + unfold pre_caps, tag_caps, tag_word. cbn [g_sep g_word g_value spell fst snd app]. now rewrite <- !app_assoc.
    + destruct p as [[]|]; auto. discriminate.
  - unfold K in T. rewrite firstn_prefix in T. apply S in T as (p & d & l & P & Hd & Hl & -> & -> & y & Y).
    exists (Some (GTag o w None)), p, d, l. cbn [opt spell ocaps tag_text]. split.
    { split; auto. split; [eauto|]. exact I. }
    repeat (split; [assumption|]). split; [|split].
    + unfold tag_text, tag_word. cbn [g_sep g_word g_value spell fst snd]. now rewrite app_nil_r, <- !app_assoc.
    + unfold pre_caps, tag_caps, tag_word. cbn [g_sep g_word g_value spell fst snd app]. now rewrite app_nil_r.
    + destruct p as [[n|]|]; auto. exfalso. cbn [spell post_text] in U. cbn in P.
      assert (Q : D (Cat (Opt SEPARATOR) (Grp G_PRE_VALUE DIGITS)) (45%N :: n) [(G_PRE_VALUE, n)]).
      { apply D_cat_iff. exists [45%N], n, [], [(G_PRE_VALUE, n)]. split; auto. split; auto. split.
        - apply D_sep_opt. exists (Some 45%N). cbn. unfold separator. auto.
        - apply D_grp_iff. exists []. split; auto. now apply D_digits. }
      apply (mt_complete _ _ _ Q) in U. unfold K, after_pre in U.
      assert (Z : D P_POST [] []). { apply D_post. exists None. cbn. auto. }
      apply (mt_complete _ _ _ Z (spell tag_text d ++ spell (fun l => 43%N :: local_text l) l)) in U.
      apply Y. now apply (after_post_caps _ _ y) in U.
Qed.

Lemma fullmatch_version t : tree t -> fullmatch VERSION (text t) = Some (all_caps t).
Proof.
  intros T. destruct (fullmatch VERSION (text t)) as [cs|] eqn:E.
  - apply fullmatch_version_sound in E as (u & U & X & ->). now rewrite (text_unique u t).
  - exfalso. assert (X : D VERSION (text t) (all_caps t)) by (apply D_version; exists t; apply tree_loose in T as [T _]; auto).
    destruct (fullmatch_complete _ _ _ X). congruence.
Qed.

Lemma fullmatch_version_none s : fullmatch VERSION s = None <-> ~ exists t, tree t /\ text t = s.
Proof.
  split.
  - intros E (t & T & <-). rewrite fullmatch_version in E; [discriminate|auto].
  - intros H. destruct (fullmatch VERSION s) eqn:E; auto. exfalso. apply H. apply fullmatch_version_sound in E as (t & T & X & _). eauto.
Qed.

(** A tree which is not greedy has a greedy one with the same text. *)
Definition regroup (t : gversion) : gversion :=
  match g_pre t, g_post t with
  | Some (GTag o w None), Some (Implicit d) =>
      GVersion (g_v t) (g_epoch t) (g_first t) (g_more t) (Some (GTag o w (Some (Some 45%N, d)))) None (g_dev t) (g_local t)
  | _, _ => t
  end.

Lemma regroup_tree t : loose t -> tree (regroup t) /\ text (regroup t) = text t /\ g_local (regroup t) = g_local t.
Proof.
  intros T. assert (X : tree t \/ exists o w d, g_pre t = Some (GTag o w None) /\ g_post t = Some (Implicit d)).
  { destruct t as [v e f m [[o w [x|]]|] [[d|q]|] g l]; try (left; apply tree_loose; split; [exact T|]; cbn; unfold greedy; cbn; auto; discriminate).
    right. cbn. eauto. }
  unfold regroup. destruct X as [X|(o & w & d & E1 & E2)].
  - enough (E : regroup t = t) by (unfold regroup in E; rewrite E; auto).
    apply tree_loose in X as [_ X]. unfold regroup, greedy in *. destruct (g_pre t) as [[o w [x|]]|]; auto.
    destruct (g_post t) as [[d|q]|]; auto. now cbn in X.
  - rewrite E1, E2. destruct t as [v e f m p q g l]. cbn in *. subst. unfold loose in T. cbn in T.
    destruct T as (V & E & F & M & (O & W & _) & P & G & L). split; [|split; auto].
    + unfold tree. cbn. unfold greedy, tag_tree. cbn. unfold local_tree, separator in *. intuition.
    + unfold text, public_text, tag_text, tag_word. cbn. rewrite <- !app_assoc. cbn. now rewrite <- !app_assoc.
Qed.
