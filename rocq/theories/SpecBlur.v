(** Strings of specifiers: what a wildcard forgets. *)

From Coq Require Import List ZArith NArith String Bool Arith Lia.
From Verif Require Import Py Segments Version VersionSets Operators SetStrings Specifiers Regex Patterns Parsers Orders Spec SetVersions
  OrderFacts OperatorFacts SpecifierFacts Provenance
  Grammar Clauses RegexFacts Unambiguous VersionRegex ParseFacts ParseTheorems ClauseRegex ClauseFacts SpecText SpecParse SpecStrings SpecMeaning SetTexts MetaFacts CacheFacts Compose SetNames SpecNames.
Import ListNotations.

Definition unlocal (v : version) : version := Version (v_epoch v) (v_release v) (v_pre v) (v_post v) (v_dev v) None.

Lemma change_last_snoc {A} (f : A -> A) l x : change_last f (l ++ [x]) = l ++ [f x].
Proof. unfold change_last. rewrite rev_app_distr. cbn [rev app]. now rewrite rev_involutive. Qed.

Lemma rstrip_twice s : rstrip_by is_digit (rstrip_by is_digit s) = rstrip_by is_digit s.
Proof.
  assert (K : forall (l : pstr), drop_while is_digit (drop_while is_digit l) = drop_while is_digit l).
  { clear. induction l as [|c l IH]; [reflexivity|]. cbn [drop_while]. destruct (is_digit c) eqn:E; [exact IH|]. cbn [drop_while]. now rewrite E. }
  unfold rstrip_by. now rewrite rev_involutive, K.
Qed.

Lemma forget_twice v : forget_last (forget_last v) = forget_last v.
Proof.
  destruct v as [e r p q d [l|]]; cbn [forget_last].
  - destruct l as [|x l] using rev_ind; [reflexivity|]. rewrite !change_last_snoc. do 4 f_equal. destruct x as [z|s]; cbn [forget_part]; [reflexivity|]. now rewrite rstrip_twice.
  - destruct d; [reflexivity|]. destruct q; [reflexivity|]. destruct p; [reflexivity|]. cbn [forget_last]. destruct r as [|x r] using rev_ind; [reflexivity|]. now rewrite !change_last_snoc.
Qed.

Lemma zeroed_wf c t : wf_tag c t -> wf_tag c (zeroed t).
Proof. intros [V _]. split; [exact V|discriminate]. Qed.

Lemma forgotten_part_wf x : wf_part x -> wf_part (forget_part x).
Proof.
  destruct x as [z|s]; cbn [wf_part forget_part]; [discriminate|]. intros [A E]. split.
  - rewrite forallb_forall in *. intros c H. apply A. now apply rstrip_incl.
  - destruct s as [|c s IH] using rev_ind; [exact E|]. unfold rstrip_by. rewrite rev_app_distr. cbn [rev app drop_while]. destruct (is_digit c) eqn:D.
    + apply IH.
      * rewrite forallb_app in A. now apply andb_true_iff in A.
      * rewrite existsb_app in E. apply orb_true_iff in E as [E|E]; [exact E|]. exfalso. cbn in E. rewrite orb_false_r in E. clear - D E.
        unfold is_digit in D. apply andb_true_iff in D as [D1 D2]. apply N.leb_le in D1, D2.
        assert (K : (c = 48 \/ c = 49 \/ c = 50 \/ c = 51 \/ c = 52 \/ c = 53 \/ c = 54 \/ c = 55 \/ c = 56 \/ c = 57)%N) by lia.
        repeat (destruct K as [-> |K]; [discriminate E|]). subst c. discriminate E.
    + cbn [rev]. now rewrite rev_involutive.
Qed.

Lemma forget_wf v : wf v -> wf (forget_last v).
Proof.
  destruct v as [e r p q d l]. intros (E & R & N & P & Q & D & L). cbn in *.
  assert (K : forall r p q d l, r <> [] -> Forall (fun z => (0 <= z)%Z) r -> wf_otag PreTag p -> wf_otag PostTag q -> wf_otag DevTag d -> wf_local l -> wf (Version e r p q d l)).
  { clear - E. intros. split; [exact E|]. split; [assumption|]. split; [assumption|]. split; [assumption|]. split; [assumption|]. split; assumption. }
  destruct l as [l|].
  - apply K; auto. destruct L as [L F]. destruct l as [|x l] using rev_ind; [congruence|]. rewrite change_last_snoc. split; [intros X; now apply app_eq_nil in X|].
    apply Forall_app in F as [F1 F2]. inversion F2; subst. apply Forall_app. split; [exact F1|]. constructor; [now apply forgotten_part_wf|constructor].
  - destruct d; [apply K; auto; now apply zeroed_wf|]. destruct q; [apply K; auto; now apply zeroed_wf|]. destruct p; [apply K; auto; now apply zeroed_wf|].
    apply K; auto; destruct r as [|x r] using rev_ind; try congruence; rewrite change_last_snoc.
    + intros X. now apply app_eq_nil in X.
    + apply Forall_app in N as [N1 N2]. apply Forall_app. split; [exact N1|]. constructor; [discriminate|constructor].
Qed.

(** ** Texts of versions *)

Lemma number_end a z : (0 <= z)%Z -> rstrip_by is_digit a = a -> rstrip_by is_digit (a ++ str_int z) = a.
Proof. intros Z A. apply rstrip_digits; auto. now apply str_int_digits. Qed.

(** What comes before the last number. *)
Definition tail_of (vs : version -> pstr) (v : version) : Prop :=
  exists a, rstrip_by is_digit a = a /\ vs v = a ++ str_int (last_number v) /\ vs (forget_last v) = a ++ str_int 0.

Lemma release_tail e r : r <> [] -> exists a, rstrip_by is_digit a = a
  /\ (if (e =? 0)%Z then [] else str_int e ++ lit "!") ++ rel_to_string r = a ++ str_int (last r 0%Z)
  /\ (if (e =? 0)%Z then [] else str_int e ++ lit "!") ++ rel_to_string (change_last (fun _ => 0%Z) r) = a ++ str_int 0.
Proof.
  intros R. destruct r as [|z r] using rev_ind; [congruence|]. rewrite change_last_snoc, last_last. unfold rel_to_string. rewrite !map_app. cbn [map]. destruct r as [|x r].
  - cbn [map app join]. exists (if (e =? 0)%Z then [] else str_int e ++ lit "!"). split; [|auto]. destruct (e =? 0)%Z; [reflexivity|]. now apply rstrip_stop.
  - rewrite !join_snoc by discriminate. exists (((if (e =? 0)%Z then [] else str_int e ++ lit "!") ++ join (lit ".") (map str_int (x :: r))) ++ lit "."). split; [now apply rstrip_stop|].
    rewrite <- !app_assoc. auto.
Qed.

Lemma long_tail v : wf v -> v_local v = None -> tail_of to_string v.
Proof.
  destruct v as [e r p q d l]. intros (_ & R & _) L. cbn in R, L. subst l. unfold tail_of, to_string.
  assert (T : forall a t, exists b, rstrip_by is_digit b = b /\ a ++ lit "-" ++ tag_to_string t = b ++ str_int (value t) /\ a ++ lit "-" ++ tag_to_string (zeroed t) = b ++ str_int 0).
  { intros a t. exists ((a ++ lit "-" ++ phase t) ++ lit "."). split; [now apply rstrip_stop|]. unfold tag_to_string. cbn [join phase value zeroed]. now rewrite <- !app_assoc. }
  destruct d as [d|]; [|destruct q as [q|]; [|destruct p as [p|]]]; unfold last_number; cbn [forget_last v_epoch v_release v_pre v_post v_dev v_local]; rewrite ?app_nil_r.
  - match goal with |- context [?E ++ rel_to_string r ++ ?P ++ ?Q ++ lit "-" ++ tag_to_string d] => destruct (T (E ++ rel_to_string r ++ P ++ Q) d) as (b & B1 & B2 & B3) end.
    rewrite <- !app_assoc in B2, B3. exists b. auto.
  - match goal with |- context [?E ++ rel_to_string r ++ ?P ++ lit "-" ++ tag_to_string q] => destruct (T (E ++ rel_to_string r ++ P) q) as (b & B1 & B2 & B3) end.
    rewrite <- !app_assoc in B2, B3. exists b. auto.
  - match goal with |- context [?E ++ rel_to_string r ++ lit "-" ++ tag_to_string p] => destruct (T (E ++ rel_to_string r) p) as (b & B1 & B2 & B3) end.
    rewrite <- !app_assoc in B2, B3. exists b. auto.
  - now apply release_tail.
Qed.

Lemma short_stop c t a : wf_tag c t -> rstrip_by is_digit (a ++ tag_short t) = a ++ tag_short t.
Proof.
  intros [V _]. apply valid_phase in V. assert (K : exists b x, tag_short t = b ++ [x] /\ is_digit x = false).
  { assert (F : Forall (fun w => exists b x, tag_short (Tag w 0) = b ++ [x] /\ is_digit x = false) (PHASE_ORDER ++ POST_ORDER ++ [lit "dev"])).
    { assert (G : forall w, match rev (tag_short (Tag w 0)) with [] => false | x :: _ => negb (is_digit x) end = true -> exists b x, tag_short (Tag w 0) = b ++ [x] /\ is_digit x = false).
      { intros w H. rewrite <- (rev_involutive (tag_short (Tag w 0))). destruct (rev (tag_short (Tag w 0))) as [|x b]; [discriminate|]. exists (rev b), x. split; [reflexivity|]. now apply negb_true_iff in H. }
      apply Forall_forall. intros w H. apply G. revert w H. apply (proj1 (forallb_forall _ _)). reflexivity. }
    rewrite Forall_forall in F. apply (F (phase t)). rewrite !in_app_iff. destruct c; auto. now rewrite !in_app_iff in V. }
  destruct K as (b & x & -> & D). rewrite app_assoc. now apply rstrip_stop.
Qed.

Lemma short_tail v : wf v -> v_local v = None -> tail_of to_short_string v.
Proof.
  destruct v as [e r p q d l]. intros (_ & R & _ & P & Q & D & _) L. cbn in R, P, Q, D, L. subst l. unfold tail_of, to_short_string.
  assert (T : forall c a t, wf_tag c t -> exists b, rstrip_by is_digit b = b /\ a ++ tag_to_short_string t = b ++ str_int (value t) /\ a ++ tag_to_short_string (zeroed t) = b ++ str_int 0).
  { intros c a t W. exists (a ++ tag_short t). split; [now apply short_stop with c|]. unfold tag_to_short_string. change (tag_short (zeroed t)) with (tag_short t). cbn [value zeroed]. now rewrite <- !app_assoc. }
  destruct d as [d|]; [|destruct q as [q|]; [|destruct p as [p|]]]; unfold last_number; cbn [forget_last v_epoch v_release v_pre v_post v_dev v_local]; rewrite ?app_nil_r.
  - match goal with |- context [?E ++ rel_to_string r ++ ?P ++ ?Q ++ lit "." ++ tag_to_short_string d] => destruct (T _ (E ++ rel_to_string r ++ P ++ Q ++ lit ".") d D) as (b & B1 & B2 & B3) end.
    rewrite <- !app_assoc in B2, B3. exists b. auto.
  - match goal with |- context [?E ++ rel_to_string r ++ ?P ++ lit "." ++ tag_to_short_string q] => destruct (T _ (E ++ rel_to_string r ++ P ++ lit ".") q Q) as (b & B1 & B2 & B3) end.
    rewrite <- !app_assoc in B2, B3. exists b. auto.
  - match goal with |- context [?E ++ rel_to_string r ++ tag_to_short_string p] => destruct (T _ (E ++ rel_to_string r) p P) as (b & B1 & B2 & B3) end.
    rewrite <- !app_assoc in B2, B3. exists b. auto.
  - now apply release_tail.
Qed.

(** ** The plus sign *)

Definition plusless (s : pstr) : Prop := Forall (fun c => c <> 43%N) s.

Lemma plusless_check s : forallb (fun c => negb (c =? 43)%N) s = true -> plusless s.
Proof. intros H. rewrite forallb_forall in H. apply Forall_forall. intros c I. apply H in I. now rewrite negb_true_iff, N.eqb_neq in I. Qed.

Lemma plusless_int z : (0 <= z)%Z -> plusless (str_int z).
Proof. intros Z. destruct (str_int_digits z Z) as [[_ F] _]. eapply Forall_impl; [|exact F]. intros c. unfold digit. lia. Qed.

Lemma plusless_join s ws : plusless s -> Forall plusless ws -> plusless (join s ws).
Proof. intros S F. apply Forall_forall. intros c H. apply join_chars in H as [H|(w & W & H)]; unfold plusless in *; rewrite Forall_forall in *; auto. apply F in W. rewrite Forall_forall in W. auto. Qed.

Lemma plusless_tag c o s : wf_otag c o -> plusless s ->
  plusless match o with None => [] | Some t => s ++ tag_to_string t end /\ plusless match o with None => [] | Some t => s ++ tag_to_short_string t end.
Proof.
  destruct o as [t|]; [|split; constructor]. intros [V Z] S. apply plusless_int in Z. assert (K : plusless (phase t) /\ plusless (tag_short t)).
  { apply valid_phase in V. unfold tag_short. destruct c; cbn [In] in V; repeat (destruct V as [<-|V]; [split; apply plusless_check; reflexivity|]); destruct V. }
  destruct K as [P Q]. split; apply Forall_app; (split; [exact S|]).
  - unfold tag_to_string. apply plusless_join; [apply plusless_check; reflexivity|]. constructor; [assumption|]. constructor; [assumption|constructor].
  - unfold tag_to_short_string. now apply Forall_app.
Qed.

Lemma plusless_version v : wf v -> v_local v = None -> plusless (to_string v) /\ plusless (to_short_string v).
Proof.
  intros (E & _ & N & P & Q & D & _) L. assert (M : plusless (lit "-")) by (apply plusless_check; reflexivity). assert (O : plusless (lit ".")) by (apply plusless_check; reflexivity).
  destruct (plusless_tag _ _ _ P M) as [P1 _]. destruct (plusless_tag _ _ [] P (Forall_nil _)) as [_ P2].
  destruct (plusless_tag _ _ _ Q M) as [Q1 _]. destruct (plusless_tag _ _ _ Q O) as [_ Q2].
  destruct (plusless_tag _ _ _ D M) as [D1 _]. destruct (plusless_tag _ _ _ D O) as [_ D2].
  assert (H : plusless (if (v_epoch v =? 0)%Z then [] else str_int (v_epoch v) ++ lit "!")).
  { destruct (v_epoch v =? 0)%Z; [constructor|]. apply Forall_app. split; [now apply plusless_int|apply plusless_check; reflexivity]. }
  assert (R : plusless (rel_to_string (v_release v))).
  { unfold rel_to_string. apply plusless_join; auto. apply Forall_map. eapply Forall_impl; [|exact N]. exact plusless_int. }
  unfold to_string, to_short_string. rewrite L, !app_nil_r. unfold plusless in *. rewrite !Forall_app. auto 20.
Qed.

Lemma unlocal_wf v : wf v -> wf (unlocal v).
Proof. intros (E & R & N & P & Q & D & _). split; [exact E|]. split; [exact R|]. split; [exact N|]. split; [exact P|]. split; [exact Q|]. split; [exact D|exact I]. Qed.

(** ** Wildcards *)

Section Texts.
  Variable vs : version -> pstr.
  Hypothesis vs_inj : forall v w, wf v -> wf w -> vs v = vs w -> v = w.
  Hypothesis vs_tail : forall v, wf v -> v_local v = None -> tail_of vs v.
  Hypothesis vs_plus : forall v, wf v -> v_local v = None -> plusless (vs v).
  Hypothesis vs_local : forall v l, v_local v = Some l -> vs v = vs (unlocal v) ++ lit "+" ++ local_to_string l.

  (** Before the last part of the local segment. *)
  Lemma local_split a l x : exists b c, (c = 43%N \/ c = 46%N) /\ forall y, a ++ lit "+" ++ local_to_string (l ++ [y]) = b ++ c :: local_part_str y /\ (y = x -> In 43%N (b ++ [c])).
  Proof.
    unfold local_to_string. change (lit "+") with [43%N]. change (lit ".") with [46%N]. destruct l as [|z l].
    - exists a, 43%N. split; [auto|]. intros y. cbn [app map join]. split; [reflexivity|]. intros _. apply in_app_iff. right. now left.
    - exists (a ++ [43%N] ++ join [46%N] (map local_part_str (z :: l))), 46%N. split; [auto|]. intros y. rewrite map_app. cbn [map]. rewrite join_snoc by discriminate. split; [now rewrite <- !app_assoc|].
      intros _. rewrite <- app_assoc. apply in_app_iff. right. now left.
  Qed.

  Lemma stop_plus b c : c = 43%N \/ c = 46%N -> rstrip_by is_digit (b ++ [c]) = b ++ [c].
  Proof. intros [-> | ->]; now apply rstrip_stop. Qed.

  Lemma rstrip_word b c s : wf_part (LStr s) -> c = 43%N \/ c = 46%N -> rstrip_by is_digit (b ++ c :: s) = b ++ c :: rstrip_by is_digit s.
  Proof.
    intros _ C. change (c :: s) with ([c] ++ s). change (c :: rstrip_by is_digit s) with ([c] ++ rstrip_by is_digit s). rewrite !app_assoc. apply (stop_plus b) in C. revert C. generalize (b ++ [c]). clear.
    intros a A. induction s as [|x s IH] using rev_ind; [now rewrite !app_nil_r|]. rewrite app_assoc. unfold rstrip_by in *. rewrite !(rev_app_distr _ [x]). cbn [rev app drop_while].
    destruct (is_digit x); [exact IH|]. cbn [rev]. rewrite !rev_involutive. now rewrite app_assoc.
  Qed.

  Lemma forget_text v : wf v -> wildcard_string (vs (forget_last v)) = wildcard_string (vs v).
  Proof.
    intros W. unfold wildcard_string. f_equal. destruct (v_local v) as [l|] eqn:L.
    - assert (F : v_local (forget_last v) = Some (change_last forget_part l) /\ unlocal (forget_last v) = unlocal v).
      { destruct v as [e r p q d o]. cbn in L. subst o. now cbn. }
      destruct F as [F1 F2]. rewrite (vs_local v l L), (vs_local _ _ F1), F2. destruct W as (_ & _ & _ & _ & _ & _ & W). rewrite L in W. destruct W as [N P].
      destruct l as [|x l] using rev_ind; [congruence|]. rewrite change_last_snoc. apply Forall_app in P as [_ P]. inversion P; subst.
      destruct (local_split (vs (unlocal v)) l x) as (b & c & C & K). destruct (K x) as [-> _]. destruct (K (forget_part x)) as [-> _]. destruct x as [z|s]; cbn [forget_part local_part_str].
      + cbn [wf_part] in *. assert (S : forall t, b ++ c :: t = (b ++ [c]) ++ t) by (intros t; now rewrite <- app_assoc). rewrite (S (str_int z)), (S (str_int 0)), !number_end; auto using stop_plus; lia.
      + rewrite !rstrip_word; auto; [now rewrite rstrip_twice|]. now apply (forgotten_part_wf (LStr s)).
    - destruct (vs_tail v W L) as (a & A & -> & ->). rewrite !number_end; auto; [|lia]. clear - W. destruct W as (_ & R & N & P & Q & D & _). unfold last_number, nonneg_release in *.
      destruct (v_dev v) as [t|]; [apply D|]. destruct (v_post v) as [t|]; [apply Q|]. destruct (v_pre v) as [t|]; [apply P|]. destruct (v_release v) as [|x r] using rev_ind; [congruence|].
      rewrite last_last. apply Forall_app in N as [_ N]. now inversion N.
  Qed.

  (** Versions that have forgotten their last number. *)
  Lemma forgotten_text v : wf v -> forget_last v = v ->
    (exists a, rstrip_by is_digit a = a /\ vs v = a ++ [48%N] /\ (plusless a \/ exists b c, a = b ++ [c] /\ (c = 43%N \/ c = 46%N)))
    \/ (rstrip_by is_digit (vs v) = vs v /\ In 43%N (vs v) /\ exists b c, vs v = b ++ [c] /\ c <> 43%N /\ c <> 46%N).
  Proof.
    intros W F. destruct (v_local v) as [l|] eqn:L.
    - rewrite (vs_local v l L). destruct W as (_ & _ & _ & _ & _ & _ & W). rewrite L in W. destruct W as [N P].
      destruct l as [|x l] using rev_ind; [congruence|]. clear IHl. apply Forall_app in P as [_ P]. inversion P; subst.
      assert (X : forget_part x = x).
      { destruct v as [e r p q d o]. cbn in L. subst o. cbn [forget_last] in F. rewrite change_last_snoc in F. injection F as F. now apply app_inj_tail in F as [_ F]. }
      destruct (local_split (vs (unlocal v)) l x) as (b & c & C & K). destruct (K x) as [-> I]. specialize (I eq_refl). destruct x as [z|s]; cbn [forget_part local_part_str] in *.
      + injection X as <-. left. exists (b ++ [c]). split; [now apply stop_plus|]. split; [now rewrite <- app_assoc|]. right. eauto.
      + injection X as X. right. rewrite rstrip_word by auto. rewrite X. split; [reflexivity|]. split; [rewrite in_app_iff in *; cbn [In] in *; tauto|].
        destruct s as [|y s] using rev_ind; [match goal with H : wf_part _ |- _ => destruct H as [_ H]; discriminate H end|]. exists (b ++ c :: s), y. split; [now rewrite <- app_assoc|].
        match goal with H : wf_part _ |- _ => destruct H as [H _]; rewrite forallb_app in H; apply andb_true_iff in H as [_ H]; cbn in H end. split; intros ->; discriminate.
    - left. destruct (vs_tail v W L) as (a & A & _ & E). rewrite F in E. exists a. split; [exact A|]. split; [exact E|]. left. pose proof (vs_plus v W L) as P. rewrite E in P. now apply Forall_app in P.
  Qed.

  Lemma forgotten_wild v w : wf v -> wf w -> forget_last v = v -> forget_last w = w -> wildcard_string (vs v) = wildcard_string (vs w) -> v = w.
  Proof.
    intros V W FV FW E. apply vs_inj; auto. unfold wildcard_string in E. apply app_inv_tail in E.
    assert (M : forall v w a, plusless a \/ (exists b c, a = b ++ [c] /\ (c = 43%N \/ c = 46%N)) -> In 43%N (vs w) -> (exists b c, vs w = b ++ [c] /\ c <> 43%N /\ c <> 46%N) -> vs v = a ++ [48%N] -> a = vs w -> False).
    { clear. intros v w a [P|(b & c & -> & C)] I (d & x & D & X1 & X2) _ A.
      - subst a. unfold plusless in P. rewrite Forall_forall in P. now apply P in I.
      - rewrite D in A. apply app_inj_tail in A as [_ ->]. tauto. }
    destruct (forgotten_text v V FV) as [(a & A & AE & AP)|(A & AI & AX)], (forgotten_text w W FW) as [(b & B & BE & BP)|(B & BI & BX)].
    - rewrite AE, BE, !rstrip_digits in E by auto using digits_zero. congruence.
    - exfalso. rewrite AE, rstrip_digits, B in E by auto using digits_zero. eauto.
    - exfalso. rewrite BE, rstrip_digits, A in E by auto using digits_zero. eauto.
    - now rewrite A, B in E.
  Qed.
End Texts.

(** ** Specifiers *)

Definition forgetful (t : op_type) (v : version) : Prop := wf v /\ (op_is_wildcard t = true -> forget_last v = v).

Lemma blurred_forgetful s : each_op (fun _ => wf) s -> each_op forgetful (blurred s).
Proof.
  induction s as [| |t v|ss IH|ss IH] using spec_members; cbn [blurred]; auto.
  - intros W. cbn [each_op] in *. split; destruct (op_is_wildcard t); auto using forget_wf, forget_twice. discriminate.
  - rewrite !each_op_any. intros O. apply Forall_map. rewrite Forall_forall in *. auto.
  - rewrite !each_op_all. intros O. apply Forall_map. rewrite Forall_forall in *. auto.
Qed.

Lemma blurred_made s : each_op (fun _ => wf) s -> spec_made s -> spec_made (blurred s).
Proof.
  induction s as [| |t v|ss IH|ss IH] using spec_members; cbn [blurred]; auto.
  - intros W [V M]. cbn [each_op] in *. split; destruct (op_is_wildcard t) eqn:T; auto using wf_valid, forget_wf. intros ->. discriminate.
  - rewrite each_op_any, !made_any. intros O [L M]. split; [now rewrite map_length|]. apply Forall_map. rewrite Forall_forall in *. auto.
  - rewrite each_op_all, !made_all. intros O [L M]. split; [now rewrite map_length|]. apply Forall_map. rewrite Forall_forall in *. auto.
Qed.

Lemma blurred_words vs s : (forall v, wf v -> wildcard_string (vs (forget_last v)) = wildcard_string (vs v)) -> each_op (fun _ => wf) s -> words vs (blurred s) = words vs s.
Proof.
  intros F. induction s as [| |t v|ss IH|ss IH] using spec_members; cbn [blurred words]; auto.
  - intros W. unfold leaf. destruct (op_is_wildcard t); auto. now rewrite F.
  - rewrite each_op_any. intros O. do 3 f_equal. rewrite map_map. apply map_ext_in. rewrite Forall_forall in *. auto.
  - rewrite each_op_all. intros O. do 3 f_equal. rewrite map_map. apply map_ext_in. rewrite Forall_forall in *. auto.
Qed.

Lemma long_local v l : v_local v = Some l -> to_string v = to_string (unlocal v) ++ lit "+" ++ local_to_string l.
Proof. intros L. unfold to_string. cbn [unlocal v_epoch v_release v_pre v_post v_dev v_local]. rewrite L, app_nil_r. now rewrite <- !app_assoc. Qed.

Lemma short_local v l : v_local v = Some l -> to_short_string v = to_short_string (unlocal v) ++ lit "+" ++ local_to_string l.
Proof. intros L. unfold to_short_string. cbn [unlocal v_epoch v_release v_pre v_post v_dev v_local]. rewrite L, app_nil_r. now rewrite <- !app_assoc. Qed.

Theorem short_spec_exact s u : spec_made s -> spec_made u -> each_op (fun _ => wf) s -> each_op (fun _ => wf) u ->
  (spec_to_short_string s = spec_to_short_string u <-> blurred s = blurred u).
Proof.
  intros M N O P. assert (F : forall v, wf v -> wildcard_string (to_short_string (forget_last v)) = wildcard_string (to_short_string v)).
  { intros v W. apply forget_text; auto using short_tail, short_local. }
  rewrite (short_words s), (short_words u). rewrite <- (blurred_words to_short_string s F O), <- (blurred_words to_short_string u F P). split; [|now intros ->].
  apply words_inj with (kept := forgetful); auto using blurred_made, blurred_forgetful.
  - exact short_numeric.
  - exact short_inj.
  - now intros t v [].
  - intros t v w T [V1 V2] [W1 W2]. apply forgotten_wild; auto using short_tail, short_local; [exact short_inj|]. intros x X L. now apply plusless_version.
  - intros v W. now apply bald_version.
Qed.

Lemma blurred_string s : each_op (fun _ => wf) s -> spec_to_string (blurred s) = spec_to_string s.
Proof.
  induction s as [| |t v|ss IH|ss IH] using spec_members; cbn [blurred spec_to_string]; auto.
  - intros W. unfold op_to_string. destruct (op_is_wildcard t); auto. cbv zeta. rewrite forget_text; auto using long_tail, long_local.
  - rewrite each_op_any. intros O. rewrite map_map. f_equal. f_equal. apply map_ext_in. rewrite Forall_forall in *. auto.
  - rewrite each_op_all. intros O. rewrite map_map. f_equal. f_equal. apply map_ext_in. rewrite Forall_forall in *. auto.
Qed.

Theorem long_spec_exact s u : spec_made s -> spec_made u -> each_op (fun _ => wf) s -> each_op (fun _ => wf) u ->
  (spec_to_string s = spec_to_string u <-> blurred s = blurred u).
Proof.
  intros M N O P. rewrite <- (blurred_string s), <- (blurred_string u) by auto. split; [|now intros ->]. intros E.
  apply (long_words_eq forgetful) in E; auto using blurred_forgetful; [|now intros t v []]. revert E. apply words_inj with (kept := forgetful); auto using blurred_made, blurred_forgetful.
  - exact long_numeric.
  - exact to_string_inj.
  - now intros t v [].
  - intros t v w T [V1 V2] [W1 W2]. apply forgotten_wild; auto using long_tail, long_local; [exact to_string_inj|]. intros x X L. now apply plusless_version.
  - intros v W. now apply bald_version.
Qed.
