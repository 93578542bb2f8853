(** Strings of specifiers tell specifiers apart. *)

From Coq Require Import List ZArith NArith String Bool Arith Lia.
From Verif Require Import Py Segments Version VersionSets Operators SetStrings Specifiers Regex Patterns Parsers Orders Spec SetVersions
  OrderFacts OperatorFacts SpecifierFacts Provenance
  Grammar Clauses RegexFacts Unambiguous VersionRegex ParseFacts ParseTheorems ClauseRegex ClauseFacts SpecText SpecParse SpecStrings SpecMeaning SetTexts MetaFacts CacheFacts Compose SetNames.
Import ListNotations.

(** ** Cutting strings *)

(** Two ways to cut a string before the first character of some kind agree. *)
Lemma first_kind (k : N -> bool) a b r u : Forall (fun c => k c = false) a -> Forall (fun c => k c = false) b ->
  (r = [] \/ exists c w, r = c :: w /\ k c = true) -> (u = [] \/ exists c w, u = c :: w /\ k c = true) -> a ++ r = b ++ u -> a = b /\ r = u.
Proof.
  intros A. revert b. induction A as [|x a X A IH]; intros b B R U E.
  - destruct B as [|y b Y B]; [auto|]. exfalso. destruct R as [-> |(c & w & -> & K)]; cbn [app] in E; [discriminate|]. injection E as <- _. congruence.
  - destruct B as [|y b Y B].
    + exfalso. destruct U as [-> |(c & w & -> & K)]; cbn [app] in E; [discriminate|]. injection E as -> _. congruence.
    + cbn [app] in E. injection E as -> E. destruct (IH b B R U E) as [-> ->]. auto.
Qed.

(** ** Characters of versions *)

Definition bald (c : N) : Prop := c <> 40%N /\ c <> 41%N /\ c <> 42%N.

Lemma bald_int z : (0 <= z)%Z -> Forall bald (str_int z).
Proof. intros Z. destruct (str_int_digits z Z) as [[_ F] _]. eapply Forall_impl; [|exact F]. intros c. unfold digit, bald. lia. Qed.

Lemma bald_join s ws : Forall bald s -> Forall (Forall bald) ws -> Forall bald (join s ws).
Proof. intros S F. apply Forall_forall. intros c H. apply join_chars in H as [H|(w & W & H)]; rewrite Forall_forall in *; auto. apply F in W. rewrite Forall_forall in W. auto. Qed.

Lemma bald_check s : forallb (fun c => negb ((c =? 40) || (c =? 41) || (c =? 42))%N) s = true -> Forall bald s.
Proof.
  intros H. rewrite forallb_forall in H. apply Forall_forall. intros c I. apply H in I. rewrite negb_true_iff, !orb_false_iff, !N.eqb_neq in I. unfold bald. tauto.
Qed.

Lemma bald_phase c t : wf_tag c t -> Forall bald (phase t) /\ Forall bald (tag_short t).
Proof.
  intros [V _]. apply valid_phase in V. unfold tag_short. destruct c; cbn [In] in V; repeat (destruct V as [<-|V]; [split; apply bald_check; reflexivity|]); destruct V.
Qed.

Lemma bald_tag c o s : wf_otag c o -> Forall bald s ->
  Forall bald match o with None => [] | Some t => s ++ tag_to_string t end /\ Forall bald match o with None => [] | Some t => s ++ tag_to_short_string t end.
Proof.
  destruct o as [t|]; [|split; constructor]. intros W S. destruct (bald_phase c t W) as [P Q]. destruct W as [_ V]. apply bald_int in V. split; apply Forall_app; (split; [exact S|]).
  - unfold tag_to_string. apply bald_join; [apply bald_check; reflexivity|]. constructor; [assumption|]. constructor; [assumption|constructor].
  - unfold tag_to_short_string. now apply Forall_app.
Qed.

Lemma bald_alnum s : forallb is_alnum s = true -> Forall bald s.
Proof.
  intros H. rewrite forallb_forall in H. apply Forall_forall. intros c I. apply H in I. unfold bald. split; [|split]; intros ->; discriminate I.
Qed.

Lemma bald_local o : wf_local o -> Forall bald match o with None => [] | Some l => lit "+" ++ local_to_string l end.
Proof.
  destruct o as [l|]; [|constructor]. intros [_ F]. apply Forall_app. split; [apply bald_check; reflexivity|]. unfold local_to_string. apply bald_join; [apply bald_check; reflexivity|].
  apply Forall_map. eapply Forall_impl; [|exact F]. intros [z|s] H; cbn [local_part_str wf_part] in *; [now apply bald_int|]. now apply bald_alnum.
Qed.

Lemma bald_head v : wf v -> Forall bald (head_text v).
Proof.
  intros (E & _ & N & _). unfold head_text. apply Forall_app. split.
  - destruct (v_epoch v =? 0)%Z; [constructor|]. apply Forall_app. split; [now apply bald_int|apply bald_check; reflexivity].
  - unfold rel_to_string. apply bald_join; [apply bald_check; reflexivity|]. apply Forall_map. eapply Forall_impl; [|exact N]. exact bald_int.
Qed.

Lemma bald_version v : wf v -> Forall bald (to_string v) /\ Forall bald (to_short_string v).
Proof.
  intros W. pose proof (bald_head v W) as H. unfold head_text in H. destruct W as (_ & _ & _ & P & Q & D & L). apply bald_local in L.
  assert (M : Forall bald (lit "-")) by (apply bald_check; reflexivity). assert (O : Forall bald (lit ".")) by (apply bald_check; reflexivity).
  destruct (bald_tag _ _ _ P M) as [P1 _]. destruct (bald_tag _ _ [] P (Forall_nil _)) as [_ P2].
  destruct (bald_tag _ _ _ Q M) as [Q1 _]. destruct (bald_tag _ _ _ Q O) as [_ Q2].
  destruct (bald_tag _ _ _ D M) as [D1 _]. destruct (bald_tag _ _ _ D O) as [_ D2].
  unfold to_string, to_short_string. rewrite !app_assoc. rewrite <- !(app_assoc (_ ++ rel_to_string _)). split; apply Forall_app; (split; [exact H|]); rewrite !Forall_app; auto.
Qed.

(** ** Clauses *)

(** The version ends in the number zero, which a wildcard takes the place of. *)
Definition open_ended (s : pstr) : Prop := exists p, s = p ++ [48%N] /\ rstrip_by is_digit p = p.

Lemma open_wildcard s u : open_ended s -> open_ended u -> wildcard_string s = wildcard_string u -> s = u.
Proof.
  intros (p & -> & P) (q & -> & Q) E. unfold wildcard_string in E. rewrite !rstrip_digits in E by (auto using digits_zero). apply app_inv_tail in E. congruence.
Qed.

Lemma open_stop a c : is_digit c = false -> open_ended (a ++ c :: [48%N]).
Proof. intros H. exists (a ++ [c]). split; [now rewrite <- app_assoc|now apply rstrip_stop]. Qed.

Lemma short_open v : wf v -> v_local v = None -> last_number v = 0%Z -> open_ended (to_short_string v).
Proof.
  intros W L N. destruct (short_tree_ok v W) as (T & _ & E & _). destruct (short_wild 42 v) as (u & U); auto; [apply W|]. apply tree_loose in T as [T _].
  destruct (wild_string _ _ _ U T) as (a & A & _ & R). exists a. rewrite <- E. auto.
Qed.

Lemma join_snoc s ws w : ws <> [] -> join s (ws ++ [w]) = join s ws ++ s ++ w.
Proof.
  induction ws as [|x ws IH]; [congruence|]. intros _. destruct ws as [|y ws]; [reflexivity|]. cbn [app join] in *. rewrite IH by discriminate. now rewrite <- !app_assoc.
Qed.

Lemma tag_open a t : value t = 0%Z -> open_ended (a ++ lit "-" ++ tag_to_string t).
Proof.
  intros V. unfold tag_to_string. rewrite V, str_zero. change (lit "-") with [45%N]. change (lit ".") with [46%N]. cbn [join].
  assert (E : a ++ [45%N] ++ phase t ++ [46%N] ++ [48%N] = (a ++ [45%N] ++ phase t) ++ 46%N :: [48%N]) by (now rewrite <- !app_assoc).
  rewrite E. now apply open_stop.
Qed.

Lemma long_open v : wf v -> v_local v = None -> last_number v = 0%Z -> open_ended (to_string v).
Proof.
  intros (_ & R & _) L N. unfold to_string, last_number in *. rewrite L, app_nil_r. destruct (v_dev v) as [d|].
  { rewrite !app_assoc, <- (app_assoc _ (lit "-")). now apply tag_open. }
  rewrite app_nil_r. destruct (v_post v) as [d|].
  { rewrite !app_assoc, <- (app_assoc _ (lit "-")). now apply tag_open. }
  rewrite app_nil_r. destruct (v_pre v) as [d|].
  { rewrite !app_assoc, <- (app_assoc _ (lit "-")). now apply tag_open. }
  rewrite app_nil_r. destruct (v_release v) as [|z r] using rev_ind; [congruence|]. rewrite last_last in N. subst z. unfold rel_to_string. rewrite map_app. cbn [map]. rewrite str_zero.
  destruct r as [|x r].
  - cbn [map app join]. destruct (v_epoch v =? 0)%Z; [exists []; auto|]. change (lit "!") with [33%N]. rewrite <- app_assoc. now apply open_stop.
  - rewrite join_snoc by discriminate. change (lit ".") with [46%N]. rewrite app_assoc. now apply open_stop.
Qed.

Lemma writable_spelled t v : writable t v -> spelled t v.
Proof. intros (W & _ & L & N). split; auto. intros H. split; auto. apply L. now destruct t. Qed.

Lemma op_string_inj t u : op_string t = op_string u -> op_is_wildcard t = op_is_wildcard u -> t = u.
Proof. destruct t, u; cbn; intros; try reflexivity; discriminate. Qed.

Section Leaves.
  Variable vs : version -> pstr.
  Hypothesis vs_numeric : forall v, wf v -> numeric (vs v).
  Hypothesis vs_inj : forall v w, wf v -> wf w -> vs v = vs w -> v = w.
  (** Operators whose strings keep their version. *)
  Variable kept : op_type -> version -> Prop.
  Hypothesis kept_wf : forall t v, kept t v -> wf v.
  Hypothesis vs_wild : forall t v w, op_is_wildcard t = true -> kept t v -> kept t w -> wildcard_string (vs v) = wildcard_string (vs w) -> v = w.
  Hypothesis vs_bald : forall v, wf v -> Forall bald (vs v).

  Definition leaf (t : op_type) (v : version) : pstr := op_string t ++ (if op_is_wildcard t then wildcard_string (vs v) else vs v).

  (** Digits and the wildcard end the operator. *)
  Definition starts (c : N) : bool := is_digit c || (c =? 42)%N.

  Lemma op_string_stops t : Forall (fun c => starts c = false) (op_string t).
  Proof. destruct t; cbn; repeat (apply Forall_cons; [reflexivity|]); apply Forall_nil. Qed.

  Lemma wildcard_starts s : numeric s -> exists c w, wildcard_string s = c :: w /\ starts c = true.
  Proof.
    intros [(d & r & -> & D) _]. unfold wildcard_string. destruct (rstrip_by is_digit (d :: r)) as [|c w] eqn:E; [exists 42%N, []; auto|].
    assert (P : exists x, d :: r = rstrip_by is_digit (d :: r) ++ x).
    { clear. unfold rstrip_by. assert (K : forall p (l : pstr), exists x, l = x ++ drop_while p l).
      { clear. intros p l. induction l as [|c l (x & IH)]; [exists []; auto|]. cbn [drop_while]. destruct (p c); [exists (c :: x); cbn [app]; congruence|exists []; auto]. }
      destruct (K is_digit (rev (d :: r))) as (x & X). exists (rev x). rewrite <- rev_app_distr, <- X. symmetry. apply rev_involutive. }
    destruct P as (x & P). rewrite E in P. injection P as <- _. exists d, (w ++ lit "*"). split; [reflexivity|]. unfold starts. apply digit_iff in D. now rewrite D.
  Qed.

  Lemma vs_starts v : wf v -> exists c w, vs v = c :: w /\ starts c = true.
  Proof. intros W. destruct (vs_numeric v W) as [(d & r & -> & D) _]. exists d, r. split; auto. unfold starts. apply digit_iff in D. now rewrite D. Qed.

  Lemma no_star v : wf v -> ~ In 42%N (vs v).
  Proof. intros W H. pose proof (vs_bald v W) as F. rewrite Forall_forall in F. apply F in H. unfold bald in H. tauto. Qed.

  Lemma leaf_inj t v u w : kept t v -> kept u w -> leaf t v = leaf u w -> t = u /\ v = w.
  Proof.
    intros V W E. pose proof (kept_wf _ _ V) as V1. pose proof (kept_wf _ _ W) as W1. unfold leaf in E.
    apply (first_kind starts) in E as [E1 E2]; auto using op_string_stops.
    - destruct (op_is_wildcard t) eqn:T, (op_is_wildcard u) eqn:U.
      + assert (t = u) as <- by (apply op_string_inj; congruence). split; eauto.
      + exfalso. apply (no_star w W1). rewrite <- E2. unfold wildcard_string. apply in_app_iff. right. now left.
      + exfalso. apply (no_star v V1). rewrite E2. unfold wildcard_string. apply in_app_iff. right. now left.
      + split; [now apply op_string_inj; [|congruence]|]. auto.
    - right. destruct (op_is_wildcard t); [apply wildcard_starts; auto|now apply vs_starts].
    - right. destruct (op_is_wildcard u); [apply wildcard_starts; auto|now apply vs_starts].
  Qed.

  Lemma op_string_chars t : Forall (fun c => c <> 44%N /\ c <> 124%N /\ ~ white c) (op_string t) /\ Forall bald (op_string t) /\ op_string t <> [].
  Proof.
    split; [|split].
    - apply inner_unbroken. destruct t; reflexivity.
    - apply bald_check. destruct t; reflexivity.
    - destruct t; discriminate.
  Qed.

  (** Characters of clauses: no parentheses, commas, pipes and whitespace. *)
  Definition stem (c : N) : bool := negb ((c =? 40) || (c =? 41) || (c =? 44) || (c =? 124) || is_space c)%N.

  Lemma stem_iff c : stem c = true <-> (c <> 44%N /\ c <> 124%N /\ ~ white c) /\ c <> 40%N /\ c <> 41%N.
  Proof. unfold stem. rewrite negb_true_iff, !orb_false_iff, !N.eqb_neq, <- white_iff. destruct (is_space c); intuition congruence. Qed.

  Lemma rstrip_incl (l : pstr) : incl (rstrip_by is_digit l) l.
  Proof.
    assert (K : forall p (l : pstr), incl (drop_while p l) l).
    { clear. intros p l. induction l as [|c l IH]; [apply incl_refl|]. cbn [drop_while]. destruct (p c); [now apply incl_tl|apply incl_refl]. }
    intros c H. unfold rstrip_by in H. apply in_rev in H. apply K in H. now apply in_rev in H.
  Qed.

  Lemma vs_stem v : wf v -> Forall (fun c => stem c = true) (vs v).
  Proof.
    intros W. destruct (vs_numeric v W) as [_ U]. pose proof (vs_bald v W) as B. unfold unbroken in U. rewrite Forall_forall in *. intros c H. apply stem_iff. split; auto. apply B in H.
    unfold bald in H. tauto.
  Qed.

  Lemma leaf_stem t v : wf v -> Forall (fun c => stem c = true) (leaf t v).
  Proof.
    intros W. unfold leaf. apply Forall_app. split.
    - destruct (op_string_chars t) as (U & B & _). rewrite Forall_forall in *. intros c H. apply stem_iff. split; auto. apply B in H. unfold bald in H. tauto.
    - pose proof (vs_stem v W) as S. destruct (op_is_wildcard t); auto. unfold wildcard_string. apply Forall_app. split; [|constructor; [reflexivity|constructor]].
      rewrite Forall_forall in *. intros c H. apply S. now apply rstrip_incl.
  Qed.

  Lemma leaf_head t v : wf v -> exists c w, leaf t v = c :: w /\ stem c = true /\ starts c = false.
  Proof.
    intros W. pose proof (leaf_stem t v W) as F. destruct (op_string_chars t) as (_ & _ & N). pose proof (op_string_stops t) as S. unfold leaf in *.
    destruct (op_string t) as [|c o]; [congruence|]. cbn [app] in *. inversion F; subst. inversion S; subst. eauto.
  Qed.

  (** ** Trees *)

  Fixpoint words (s : spec) : pstr :=
    match s with
    | Never => EMPTY_VERSION
    | Always => UNIVERSE_VERSION
    | One t v => leaf t v
    | AnyOf ss => [40%N] ++ join [124%N; 124%N] (map words ss) ++ [41%N]
    | AllOf ss => [40%N] ++ join [44%N] (map words ss) ++ [41%N]
    end.

  (** Where a specifier ends. *)
  Definition ended (r : pstr) : Prop := r = [] \/ exists c w, r = c :: w /\ negb (stem c) = true.

  Definition read_off (s : spec) : Prop := forall u r w, spec_made s -> spec_made u -> each_op kept s -> each_op kept u -> ended r -> ended w ->
    words s ++ r = words u ++ w -> s = u /\ r = w.

  Lemma atom_cut a b r w : Forall (fun c => stem c = true) a -> Forall (fun c => stem c = true) b -> ended r -> ended w -> a ++ r = b ++ w -> a = b /\ r = w.
  Proof.
    intros A B R W E. apply (first_kind (fun c => negb (stem c)) a b r w); auto.
    - eapply Forall_impl; [|exact A]. intros c ->. reflexivity.
    - eapply Forall_impl; [|exact B]. intros c ->. reflexivity.
  Qed.

  Definition atom (s : spec) : Prop := match s with AnyOf _ | AllOf _ => False | _ => True end.

  Lemma atom_words s : atom s -> each_op kept s -> Forall (fun c => stem c = true) (words s) /\ exists c w, words s = c :: w /\ stem c = true.
  Proof.
    intros A O. destruct s as [| |t v|ss|ss]; try contradiction.
    - split; [constructor; [reflexivity|constructor]|]. exists 48%N, []. auto.
    - split; [constructor; [reflexivity|constructor]|]. exists 42%N, []. auto.
    - pose proof (kept_wf _ _ O) as W. split; [now apply leaf_stem|]. cbn [words]. destruct (leaf_head t v W) as (c & w & H & S & _). eauto.
  Qed.

  Lemma atom_inj s u : atom s -> atom u -> each_op kept s -> each_op kept u -> words s = words u -> s = u.
  Proof.
    intros A B O P E. destruct s as [| |t v|ss|ss], u as [| |t' v'|us|us]; try contradiction; cbn [words each_op] in *; try reflexivity; try discriminate E.
    - exfalso. pose proof (kept_wf _ _ P) as W. destruct (leaf_head t' v' W) as (c & w & H & _ & S). rewrite H in E. injection E as <- _. discriminate S.
    - exfalso. pose proof (kept_wf _ _ P) as W. destruct (leaf_head t' v' W) as (c & w & H & _ & S). rewrite H in E. injection E as <- _. discriminate S.
    - exfalso. pose proof (kept_wf _ _ O) as W. destruct (leaf_head t v W) as (c & w & H & _ & S). rewrite H in E. injection E as -> _. discriminate S.
    - exfalso. pose proof (kept_wf _ _ O) as W. destruct (leaf_head t v W) as (c & w & H & _ & S). rewrite H in E. injection E as -> _. discriminate S.
    - apply leaf_inj in E as [-> ->]; auto.
  Qed.

  Lemma atom_read s : atom s -> read_off s.
  Proof.
    intros A u r w M N O P R W E. destruct (atom_words s A O) as [F (c & x & H & S)]. assert (B : atom u \/ exists y, words u = 40%N :: y).
    { destruct u; [left; exact I..|right|right]; cbn [words app]; eauto. }
    destruct B as [B|(y & B)].
    - destruct (atom_words u B P) as [G _]. apply atom_cut in E as [E ->]; auto. split; auto. now apply atom_inj.
    - exfalso. rewrite H, B in E. cbn [app] in E. injection E as -> _. discriminate S.
  Qed.

  Lemma ended_sep sep r : sep = [124%N; 124%N] \/ sep = [44%N] \/ sep = [41%N] -> ended (sep ++ r).
  Proof. intros [-> |[-> | ->]]; right; cbn [app]; eauto. Qed.

  Lemma join_more sep x y ws : join sep (x :: y :: ws) = x ++ sep ++ join sep (y :: ws).
  Proof. reflexivity. Qed.

  Lemma members_read sep ss : sep = [124%N; 124%N] \/ sep = [44%N] -> Forall read_off ss -> ss <> [] -> forall us r w, us <> [] ->
    Forall spec_made ss -> Forall spec_made us -> Forall (each_op kept) ss -> Forall (each_op kept) us ->
    join sep (map words ss) ++ [41%N] ++ r = join sep (map words us) ++ [41%N] ++ w -> ss = us /\ r = w.
  Proof.
    intros S IH. assert (S3 : sep = [124%N; 124%N] \/ sep = [44%N] \/ sep = [41%N]) by tauto.
    assert (T3 : [41%N] = [124%N; 124%N] \/ [41%N] = [44%N] \/ [41%N] = [41%N]) by auto.
    induction IH as [|s ss H IH IHs]; [congruence|]. intros _ us r w N M1 M2 O1 O2 E. destruct us as [|u us]; [congruence|].
    inversion M1; inversion M2; inversion O1; inversion O2; subst. cbn [map] in E. destruct ss as [|s' ss], us as [|u' us].
    - cbn [map join] in E. apply H in E as [-> E]; auto using ended_sep. injection E as ->. auto.
    - exfalso. cbn [map] in E. rewrite join_more in E. cbn [join] in E. rewrite <- !(app_assoc (words u)), <- (app_assoc sep) in E. apply H in E as [_ E]; auto using ended_sep.
      destruct S as [-> | ->]; discriminate E.
    - exfalso. cbn [map] in E. rewrite join_more in E. cbn [join] in E. rewrite <- !(app_assoc (words s)), <- (app_assoc sep) in E. apply H in E as [_ E]; auto using ended_sep.
      destruct S as [-> | ->]; discriminate E.
    - cbn [map] in E. rewrite !join_more, <- !app_assoc in E. apply H in E as [-> E]; auto using ended_sep. apply app_inv_head in E.
      destruct (IHs ltac:(discriminate) (u' :: us) r w) as [E1 ->]; auto; [discriminate|]. now rewrite E1.
  Qed.

  Lemma two_members (ss : list spec) : (2 <= List.length ss)%nat -> exists s u us, ss = s :: u :: us.
  Proof. destruct ss as [|s [|u ss]]; cbn; intros; [lia|lia|eauto]. Qed.

  Lemma mixed_read ss us r w : Forall read_off ss -> (2 <= List.length ss)%nat -> (2 <= List.length us)%nat -> Forall spec_made ss -> Forall spec_made us ->
    Forall (each_op kept) ss -> Forall (each_op kept) us -> forall sep sep', sep <> sep' -> sep = [124%N; 124%N] \/ sep = [44%N] -> sep' = [124%N; 124%N] \/ sep' = [44%N] ->
    join sep (map words ss) ++ [41%N] ++ r <> join sep' (map words us) ++ [41%N] ++ w.
  Proof.
    intros IH L K M1 M2 O1 O2 sep sep' D S S' E. apply two_members in L as (s & s' & ss' & ->). apply two_members in K as (u & u' & us' & ->).
    inversion IH; inversion M1; inversion M2; inversion O1; inversion O2; subst. cbn [map] in E. rewrite !join_more, <- !app_assoc in E.
    match goal with H : read_off s |- _ => apply H in E as [_ E]; auto; try (apply ended_sep; tauto) end.
    destruct S as [-> | ->], S' as [-> | ->]; try congruence; discriminate E.
  Qed.

  Lemma words_read s : read_off s.
  Proof.
    induction s as [| |t v|ss IH|ss IH] using spec_members; try (apply atom_read; exact I).
    - intros u r w M N O P R W E. destruct u as [| |t' v'|us|us].
      1-3: symmetry in E; eapply atom_read in E as [E1 E2]; [symmetry in E1; discriminate E1|exact I|assumption..].
      + apply made_any in M as [L M], N as [K N]. apply each_op_any in O, P. cbn [words app] in E. injection E as E. rewrite <- !app_assoc in E.
        apply members_read in E as [-> ->]; auto; intros ->; cbn in *; lia.
      + exfalso. apply made_any in M as [L M]. apply made_all in N as [K N]. apply each_op_any in O. apply each_op_all in P. cbn [words app] in E. injection E as E. rewrite <- !app_assoc in E.
        revert E. apply mixed_read; auto. discriminate.
    - intros u r w M N O P R W E. destruct u as [| |t' v'|us|us].
      1-3: symmetry in E; eapply atom_read in E as [E1 E2]; [symmetry in E1; discriminate E1|exact I|assumption..].
      + exfalso. apply made_all in M as [L M]. apply made_any in N as [K N]. apply each_op_all in O. apply each_op_any in P. cbn [words app] in E. injection E as E. rewrite <- !app_assoc in E.
        revert E. apply mixed_read; auto. discriminate.
      + apply made_all in M as [L M], N as [K N]. apply each_op_all in O, P. cbn [words app] in E. injection E as E. rewrite <- !app_assoc in E.
        apply members_read in E as [-> ->]; auto; intros ->; cbn in *; lia.
  Qed.

  Lemma words_inj s u : spec_made s -> spec_made u -> each_op kept s -> each_op kept u -> words s = words u -> s = u.
  Proof. intros M N O P E. apply (words_read s u [] []); auto; [now left|now left|]. now rewrite E. Qed.

  Lemma words_clear s : each_op kept s -> visible (words s) = words s.
  Proof.
    intros O. apply visible_fixed. induction s as [| |t v|ss IH|ss IH] using spec_members; cbn [words].
    - constructor; [reflexivity|constructor].
    - constructor; [reflexivity|constructor].
    - pose proof (kept_wf _ _ O) as W. eapply Forall_impl; [|exact (leaf_stem t v W)]. cbn. intros c H. apply stem_iff in H. destruct (is_space c) eqn:E; auto. apply white_iff in E. tauto.
    - apply each_op_any in O. apply Forall_app. split; [constructor; [reflexivity|constructor]|]. apply Forall_app. split; [|constructor; [reflexivity|constructor]].
      apply Forall_forall. intros c H. apply join_chars in H as [H|(x & X & H)]; [cbn in H; intuition (subst; reflexivity)|]. apply in_map_iff in X as (s & <- & X).
      rewrite Forall_forall in IH, O. specialize (IH s X (O s X)). rewrite Forall_forall in IH. auto.
    - apply each_op_all in O. apply Forall_app. split; [constructor; [reflexivity|constructor]|]. apply Forall_app. split; [|constructor; [reflexivity|constructor]].
      apply Forall_forall. intros c H. apply join_chars in H as [H|(x & X & H)]; [cbn in H; intuition (subst; reflexivity)|]. apply in_map_iff in X as (s & <- & X).
      rewrite Forall_forall in IH, O. specialize (IH s X (O s X)). rewrite Forall_forall in IH. auto.
  Qed.
End Leaves.

(** ** Both strings *)

Lemma short_words s : spec_to_short_string s = words to_short_string s.
Proof.
  induction s as [| |t v|ss IH|ss IH] using spec_members; try reflexivity; cbn [spec_to_short_string words]; unfold wrap; change (lit "(") with [40%N]; change (lit ")") with [41%N];
    assert (E : map spec_to_short_string ss = map (words to_short_string) ss) by (apply map_ext_in; rewrite Forall_forall in IH; exact IH); now rewrite E.
Qed.

Lemma long_words s : respaced (spec_to_string s) (words to_string s).
Proof.
  induction s as [| |t v|ss IH|ss IH] using spec_members; cbn [spec_to_string words]; try apply respaced_refl; [exact (op_to_string_spaced t v)| |];
    unfold wrap; apply respaced_app; try apply respaced_refl; apply respaced_app; try apply respaced_refl; apply respaced_join; try (apply respaced_visible; reflexivity);
    induction IH; cbn [map]; constructor; auto.
Qed.

Theorem short_spec_names s u : spec_made s -> spec_made u -> each_op spelled s -> each_op spelled u -> spec_to_short_string s = spec_to_short_string u -> s = u.
Proof.
  rewrite !short_words. apply words_inj; [exact short_numeric|exact short_inj|now intros t v []| |]; [|intros v W; now apply bald_version].
  intros t v w T [V1 V2] [W1 W2] E. destruct (V2 T), (W2 T). apply short_inj; auto. apply open_wildcard; auto using short_open.
Qed.

Lemma long_words_eq (kept : op_type -> version -> Prop) s u : (forall t v, kept t v -> wf v) -> each_op kept s -> each_op kept u ->
  spec_to_string s = spec_to_string u -> words to_string s = words to_string u.
Proof.
  assert (B : forall v, wf v -> Forall bald (to_string v)) by (intros v W; now apply bald_version).
  intros K O P E. pose proof (long_words s) as A1. pose proof (long_words u) as A2. apply respaced_visible in A1, A2.
  rewrite (words_clear to_string long_numeric kept K B _ O) in A1. rewrite (words_clear to_string long_numeric kept K B _ P) in A2. congruence.
Qed.

Theorem long_spec_names s u : spec_made s -> spec_made u -> each_op spelled s -> each_op spelled u -> spec_to_string s = spec_to_string u -> s = u.
Proof.
  assert (K : forall t v, spelled t v -> wf v) by (now intros t v []).
  intros M N O P E. apply (long_words_eq spelled) in E; auto. revert E.
  apply words_inj with (kept := spelled); auto; [exact long_numeric|exact to_string_inj| |intros v W; now apply bald_version].
  intros t v w T [V1 V2] [W1 W2] E. destruct (V2 T), (W2 T). apply to_string_inj; auto. apply open_wildcard; auto using long_open.
Qed.

Lemma parsed_spelled s p : parse_specifier s = Ok p -> each_op spelled p.
Proof.
  intros H. apply parse_specifier_ok in H as (css & xss & _ & F & ->). unfold spec_of.
  assert (K : forall mk ss, (mk = AnyOf \/ mk = AllOf) -> Forall (each_op spelled) ss -> each_op spelled (grouped mk ss)).
  { intros mk ss T G. destruct ss as [|a [|b ss]]; [destruct T as [-> | ->]; exact I|now inversion G|]. cbn [grouped]. destruct T as [-> | ->]; [now apply each_op_any|now apply each_op_all]. }
  apply K; auto. apply Forall_map. induction F as [|cs xs css xss H F IH]; constructor; auto. apply K; auto. apply Forall_map. clear - H.
  induction H as [|c x cs xs H F IH]; constructor; auto. apply proper_writable in H. now apply writable_spelled.
Qed.

Theorem parsed_names s t p q : parse_specifier s = Ok p -> parse_specifier t = Ok q -> spec_to_string p = spec_to_string q \/ spec_to_short_string p = spec_to_short_string q -> p = q.
Proof.
  intros P Q. pose proof (parsed_spelled s p P). pose proof (parsed_spelled t q Q). destruct (parsed_made s p P), (parsed_made t q Q).
  intros [E|E]; [now apply long_spec_names|now apply short_spec_names].
Qed.
