(** Every string is spelled by at most one tree of the grammar. *)

From Coq Require Import List ZArith NArith String Bool Arith Lia.
From Verif Require Import Py Segments Version Regex Patterns Grammar.
Import ListNotations.
Open Scope N_scope.

(** ** Characters *)

Lemma digit_iff c : is_digit c = true <-> digit c.
Proof. unfold is_digit, digit. rewrite andb_true_iff, !N.leb_le. reflexivity. Qed.

Lemma sep_iff c : is_sep c = true <-> separator c.
Proof. unfold is_sep, separator. rewrite !orb_true_iff, !N.eqb_eq. tauto. Qed.

Ltac split_ifs := repeat match goal with |- context[if ?b then _ else _] => destruct b eqn:? end;
  repeat match goal with
  | H : (_ || _)%bool = true |- _ => apply orb_true_iff in H as [H|H]
  | H : (_ || _)%bool = false |- _ => apply orb_false_iff in H as [? H]
  | H : (_ && _)%bool = true |- _ => apply andb_true_iff in H as [? H]
  | H : (_ && _)%bool = false |- _ => apply andb_false_iff in H as [H|H]
  | H : (_ =? _) = true |- _ => apply N.eqb_eq in H
  | H : (_ =? _) = false |- _ => apply N.eqb_neq in H
  | H : (_ <=? _) = true |- _ => apply N.leb_le in H
  | H : (_ <=? _) = false |- _ => apply N.leb_gt in H
  end.

Lemma folds_iff c a : 97 <= a <= 122 -> lower c = a <-> folds c a.
Proof. intros H. unfold lower, folds. split_ifs; lia. Qed.

Lemma letter_iff c : is_alpha c = true <-> letter c.
Proof.
  unfold is_alpha, letter. rewrite andb_true_iff, !N.leb_le. split.
  - intros H. exists (lower c). split; auto. now apply folds_iff.
  - intros (a & H & F). apply folds_iff in F; auto. now subst.
Qed.

Lemma fold_char c a : 97 <= a <= 122 -> lower c = a -> is_digit c = false /\ is_sep c = false /\ c <> 33 /\ c <> 43 /\ c <> 42.
Proof.
  intros H. unfold lower. split_ifs; intros <-; unfold is_digit, is_sep; split_ifs;
    repeat split; try lia; try (apply andb_false_iff; rewrite !N.leb_gt; lia);
    try (rewrite !orb_false_iff, !N.eqb_neq; lia).
Qed.

Lemma digit_char c : is_digit c = true -> is_sep c = false /\ lower c = c /\ 48 <= c <= 57.
Proof.
  intros H. apply digit_iff in H. unfold digit in H. split; [|split; auto].
  - unfold is_sep. rewrite !orb_false_iff, !N.eqb_neq. lia.
  - unfold lower. split_ifs; lia.
Qed.

Lemma sep_char c : is_sep c = true -> is_digit c = false /\ lower c = c /\ (c = 46 \/ c = 45 \/ c = 95).
Proof.
  intros H. apply sep_iff in H. split; [|split; auto].
  - unfold is_digit. apply andb_false_iff. rewrite !N.leb_gt. unfold separator in H. lia.
  - unfold separator in H. unfold lower. split_ifs; lia.
Qed.

(** ** A lexer *)

Fixpoint span (p : N -> bool) (s : pstr) : pstr * pstr :=
  match s with
  | [] => ([], [])
  | c :: s' => if p c then let (a, b) := span p s' in (c :: a, b) else ([], s)
  end.

Definition stops (p : N -> bool) (s : pstr) : Prop := match s with [] => True | c :: _ => p c = false end.

Lemma span_app p d r : Forall (fun c => p c = true) d -> stops p r -> span p (d ++ r) = (d, r).
Proof.
  induction 1 as [|c d H F IH]; intros S; cbn.
  - destruct r as [|c r]; [reflexivity|]. cbn in *. now rewrite S.
  - now rewrite H, IH.
Qed.

Lemma span_digits d r : digits d -> stops is_digit r -> span is_digit (d ++ r) = (d, r).
Proof. intros [_ F] S. apply span_app; auto. eapply Forall_impl; [|exact F]. intros c. apply digit_iff. Qed.

(** an optional separator *)
Definition lex_sep (s : pstr) : option N * pstr :=
  match s with c :: s' => if is_sep c then (Some c, s') else (None, s) | [] => (None, s) end.

Lemma lex_sep_app o r : opt separator o -> stops is_sep r -> lex_sep (one o ++ r) = (o, r).
Proof.
  destruct o as [c|]; cbn; intros H S.
  - apply sep_iff in H. now rewrite H.
  - destruct r as [|c r]; [reflexivity|]. cbn in *. now rewrite S.
Qed.

(** a value *)
Definition lex_value (s : pstr) : option (option N * pstr) * pstr :=
  let (o, s') := lex_sep s in
  match span is_digit s' with
  | ([], _) => (None, s)
  | (d, r) => (Some (o, d), r)
  end.

(** Nothing more of a value follows. *)
Definition no_value (s : pstr) : Prop := stops is_digit (snd (lex_sep s)).

Lemma digits_head d : digits d -> exists c d', d = c :: d' /\ is_digit c = true /\ is_sep c = false.
Proof.
  intros [N F]. destruct d as [|c d]; [congruence|]. inversion F; subst. exists c, d.
  assert (E : is_digit c = true) by now apply digit_iff. split; auto. split; auto. now apply digit_char.
Qed.

Lemma lex_value_some x r : opt separator (fst x) -> digits (snd x) -> stops is_digit r ->
  lex_value ((one (fst x) ++ snd x) ++ r) = (Some x, r).
Proof.
  intros S G R. destruct x as [o d]; cbn in *. unfold lex_value. rewrite <- app_assoc.
  destruct (digits_head d G) as (c & d' & E & _ & E2).
  rewrite lex_sep_app; auto; [|now subst]. rewrite span_digits by assumption. subst. reflexivity.
Qed.

Lemma lex_value_none r : no_value r -> lex_value r = (None, r).
Proof.
  unfold no_value, lex_value. destruct (lex_sep r) as [o s]. cbn. intros S.
  pose proof (span_app is_digit [] s (Forall_nil _) S) as E. cbn [app] in E. now rewrite E.
Qed.

(** a word *)
Fixpoint strip_word (p s : pstr) : option pstr :=
  match p with
  | [] => Some s
  | a :: p' => match s with c :: s' => if lower c =? a then strip_word p' s' else None | [] => None end
  end.

Fixpoint lex_word (ps : list pstr) (s : pstr) : option (pstr * pstr) :=
  match ps with
  | [] => None
  | p :: ps' => match strip_word p s with Some r => Some (firstn (List.length p) s, r) | None => lex_word ps' s end
  end.

Definition lex_tag (ps : list pstr) (s : pstr) : option gtag * pstr :=
  let (o, s') := lex_sep s in
  match lex_word ps s' with
  | None => (None, s)
  | Some (w, r) => let (x, r') := lex_value r in (Some (GTag o w x), r')
  end.

Fixpoint starts (q s : pstr) : bool :=
  match q, s with
  | [], _ => true
  | a :: q', c :: s' => (c =? a) && starts q' s'
  | _, _ => false
  end.

Lemma strip_word_eq q s : strip_word q s = if starts q (map lower s) then Some (skipn (List.length q) s) else None.
Proof.
  revert s. induction q as [|a q IH]; intros [|c s]; cbn; auto. destruct (lower c =? a); cbn; auto.
Qed.

Definition all_words : list pstr := pre_words ++ post_words ++ dev_words.

Lemma words_letters p : In p all_words -> Forall (fun a => 97 <= a <= 122) p /\ p <> [].
Proof.
  cbn. intros H. repeat (destruct H as [<-|H]; [split; [repeat constructor; discriminate|discriminate]|]). destruct H.
Qed.

Lemma spells_lower w p : Forall (fun a => 97 <= a <= 122) p -> spells w p <-> map lower w = p.
Proof.
  intros F. unfold spells. split.
  - induction 1 as [|c a w p H G IH]; cbn; auto. inversion F; subst. f_equal; auto. now apply folds_iff.
  - revert p F. induction w as [|c w IH]; intros p F <-; cbn in *; [constructor|]. inversion F; subst. constructor; auto.
    now apply folds_iff.
Qed.

(** Words that extend others do so with one of these letters. *)
Definition ends_word (r : pstr) : Prop :=
  match r with [] => True | c :: _ => lower c <> 108 /\ lower c <> 101 /\ lower c <> 118 end.

Lemma lex_word_app ws p w r : In ws [pre_words; post_words; dev_words] -> In p ws -> spells w p -> ends_word r ->
  lex_word ws (w ++ r) = Some (w, r).
Proof.
  intros Hws Hp Hw Hr.
  assert (A : In p all_words).
  { unfold all_words. rewrite !in_app_iff. cbn in Hws. destruct Hws as [<-|[<-|[<-|[]]]]; auto. }
  destruct (words_letters p A) as [L _]. apply spells_lower in Hw; auto.
  assert (N : List.length w = List.length p) by (rewrite <- Hw; now rewrite map_length).
  assert (X : forall q, starts q (p ++ map lower r) = false -> strip_word q (w ++ r) = None).
  { intros q H. now rewrite strip_word_eq, map_app, Hw, H. }
  assert (Y : strip_word p (w ++ r) = Some r).
  { rewrite strip_word_eq, map_app, Hw. replace (starts p (p ++ map lower r)) with true.
    - now rewrite <- N, skipn_app, skipn_all, Nat.sub_diag.
    - clear. induction p as [|a p IH]; cbn; auto. now rewrite N.eqb_refl. }
  assert (Z : firstn (List.length p) (w ++ r) = w) by (rewrite <- N, firstn_app, firstn_all, Nat.sub_diag; apply app_nil_r).
  assert (E : forall a, a = 108 \/ a = 101 \/ a = 118 -> forall q, starts (a :: q) (map lower r) = false).
  { intros a Ha q. destruct r as [|c r]; [reflexivity|]. cbn in Hr |- *.
    destruct (lower c =? a) eqn:Q; auto. apply N.eqb_eq in Q. exfalso. lia. }
  cbn in Hws. destruct Hws as [<-|[<-|[<-|[]]]]; cbn in Hp.
  all: repeat (destruct Hp as [<-|Hp]; [cbn [lex_word pre_words post_words dev_words map];
    repeat first [rewrite Y, Z; reflexivity | rewrite X; [|first [reflexivity | apply E; lia | cbn; apply E; lia]]]|]); destruct Hp.
Qed.

Lemma lex_word_none ws s : (forall q, In q ws -> starts q (map lower s) = false) -> lex_word ws s = None.
Proof.
  induction ws as [|q ws IH]; intros H; cbn; auto. rewrite strip_word_eq, (H q (or_introl eq_refl)).
  apply IH. intros p Hp. apply H. now right.
Qed.

Lemma lex_tag_none ws s : (forall q, In q ws -> starts q (map lower (snd (lex_sep s))) = false) -> lex_tag ws s = (None, s).
Proof. intros H. unfold lex_tag. destruct (lex_sep s) as [o s'] eqn:E. cbn in H. now rewrite lex_word_none. Qed.

Lemma spelled_head w p : In p all_words -> spells w p -> exists c w', w = c :: w' /\ is_digit c = false /\ is_sep c = false /\ c <> 33 /\ c <> 43 /\ c <> 42.
Proof.
  intros A H. destruct (words_letters p A) as [L N]. destruct H as [|c a w p F H]; [congruence|]. inversion L; subst.
  exists c, w. split; auto. apply (fold_char c a); auto. now apply folds_iff.
Qed.

Lemma in_all_words ws p : In ws [pre_words; post_words; dev_words] -> In p ws -> In p all_words.
Proof. unfold all_words. rewrite !in_app_iff. cbn. intros [<-|[<-|[<-|[]]]]; auto. Qed.

Lemma sep_ends c r : is_sep c = true -> ends_word (c :: r).
Proof. intros H. apply sep_char in H as (_ & E & H). cbn. rewrite E. lia. Qed.

Lemma digit_ends c r : is_digit c = true -> ends_word (c :: r).
Proof. intros H. apply digit_char in H as (_ & E & H). cbn. rewrite E. lia. Qed.

Lemma lex_tag_some ws t r : In ws [pre_words; post_words; dev_words] -> tag_tree ws t ->
  (g_value t = None -> no_value r /\ ends_word r) -> (g_value t <> None -> stops is_digit r) ->
  lex_tag ws (tag_text t ++ r) = (Some t, r).
Proof.
  intros Hws (S & (p & Hp & W) & V) H1 H2. destruct t as [o w x]. unfold tag_text, tag_word, lex_tag. cbn in *.
  pose proof (in_all_words ws p Hws Hp) as A. destruct (spelled_head w p A W) as (c & w' & E & _ & E2 & _).
  rewrite <- !app_assoc. rewrite lex_sep_app; auto; [|now subst].
  rewrite (lex_word_app ws p w); auto.
  - destruct x as [x|]; cbn [spell].
    + destruct V as [V1 V2]. rewrite lex_value_some; auto. apply H2. discriminate.
    + cbn [app]. rewrite lex_value_none; auto. now apply H1.
  - destruct x as [[[s|] d]|]; cbn [spell fst snd one app] in *.
    + destruct V as [V1 V2]. apply sep_ends. now apply sep_iff.
    + destruct V as [V1 V2]. destruct (digits_head d V2) as (e & d' & -> & D1 & _). cbn [app]. now apply digit_ends.
    + now apply H1.
Qed.

(** ** What may follow *)

(** [r] is an optional separator and something satisfying [P]. *)
Definition after_sep (P : pstr -> Prop) (r : pstr) : Prop :=
  exists o s, opt separator o /\ stops is_sep s /\ r = one o ++ s /\ P s.

Definition low_head (s : pstr) : option N := match s with [] => None | c :: _ => Some (lower c) end.

(** after the development tag; after the post tag; after the pre tag; after the release *)
Definition T0 (r : pstr) : Prop := match r with [] => True | c :: _ => c = 43 end.
Definition T1 (r : pstr) : Prop := T0 r \/ after_sep (fun s => low_head s = Some 100) r.
Definition T2 (r : pstr) : Prop :=
  T1 r \/ after_sep (fun s => exists c s', s = c :: s' /\
    ((lower c = 112 /\ low_head s' = Some 111) \/ (lower c = 114 /\ low_head s' <> Some 99))) r.
Definition T2i (r : pstr) : Prop := T2 r \/ (exists c s, r = 45 :: c :: s /\ is_digit c = true).
Definition T3 (r : pstr) : Prop := T2i r \/ after_sep (fun s => exists c s', s = c :: s' /\ 97 <= lower c <= 122) r.

Lemma low_letter s a : low_head s = Some a -> 97 <= a <= 122 ->
  exists c s', s = c :: s' /\ lower c = a /\ is_digit c = false /\ is_sep c = false.
Proof. destruct s as [|c s]; [discriminate|]. intros [= H] L. exists c, s. split; auto. split; auto. split; now apply (fold_char c a). Qed.

Lemma after_sep_lex (P : pstr -> Prop) r : after_sep P r -> P (snd (lex_sep r)).
Proof. intros (o & s & O & S & -> & H). now rewrite lex_sep_app. Qed.

Lemma T0_stops r : T0 r -> stops is_digit r /\ ends_word r /\ snd (lex_sep r) = r.
Proof. destruct r as [|c r]; cbn; auto. intros ->. cbn. repeat split; discriminate. Qed.

Lemma letters_stop (P : pstr -> Prop) r : (forall s, P s -> exists c s', s = c :: s' /\ 97 <= lower c <= 122) -> after_sep P r ->
  stops is_digit r /\ no_value r.
Proof.
  intros L (o & s & O & S & -> & H). destruct (L s H) as (c & s' & -> & R).
  destruct (fold_char c (lower c) R eq_refl) as (D & E & _). unfold no_value. rewrite lex_sep_app; auto. cbn. split; auto.
  destruct o as [x|]; cbn; auto. apply sep_iff in O. now apply sep_char.
Qed.

Lemma letters_end (P : pstr -> Prop) r : (forall s, P s -> exists c s', s = c :: s' /\ (lower c = 100 \/ lower c = 112 \/ lower c = 114)) ->
  after_sep P r -> ends_word r.
Proof.
  intros L (o & s & O & S & -> & H). destruct (L s H) as (c & s' & -> & R). destruct o as [x|]; cbn [one app].
  - apply sep_iff in O. now apply sep_ends.
  - cbn. lia.
Qed.

Lemma T1_letters s : low_head s = Some 100 -> exists c s', s = c :: s' /\ (lower c = 100 \/ lower c = 112 \/ lower c = 114).
Proof. destruct s as [|c s]; [discriminate|]. intros [= H]. eauto 6. Qed.

Lemma T2_letters s : (exists c s', s = c :: s' /\
    ((lower c = 112 /\ low_head s' = Some 111) \/ (lower c = 114 /\ low_head s' <> Some 99))) ->
  exists c s', s = c :: s' /\ (lower c = 100 \/ lower c = 112 \/ lower c = 114).
Proof. intros (c & s' & -> & [[H _]|[H _]]); eauto 6. Qed.

Lemma few_letters (P : pstr -> Prop) : (forall s, P s -> exists c s', s = c :: s' /\ (lower c = 100 \/ lower c = 112 \/ lower c = 114)) ->
  forall s : pstr, P s -> exists c s', s = c :: s' /\ 97 <= lower c <= 122.
Proof. intros H s Ps. destruct (H s Ps) as (c & s' & -> & L). exists c, s'. split; auto. lia. Qed.

Lemma T2_ok r : T2 r -> stops is_digit r /\ no_value r /\ ends_word r.
Proof.
  intros [[H|H]|H].
  - destruct (T0_stops r H) as (A & B & C). unfold no_value. rewrite C. auto.
  - destruct (letters_stop _ r (few_letters _ T1_letters) H). split; auto. split; auto. exact (letters_end _ r T1_letters H).
  - destruct (letters_stop _ r (few_letters _ T2_letters) H). split; auto. split; auto. exact (letters_end _ r T2_letters H).
Qed.

Lemma T0_none ws r : In ws [pre_words; post_words; dev_words] -> T0 r -> lex_tag ws r = (None, r).
Proof.
  intros Hws H. apply lex_tag_none. intros q Hq. destruct (T0_stops r H) as (_ & _ & ->).
  pose proof (in_all_words ws q Hws Hq) as A. destruct (words_letters q A) as [L N].
  destruct q as [|a q]; [congruence|]. destruct r as [|c r]; [reflexivity|]. cbn in H. subst c. cbn [map starts]. change (lower 43) with 43.
  inversion L; subst. destruct (43 =? a) eqn:E; auto. apply N.eqb_eq in E. lia.
Qed.

Lemma T1_none ws r : In ws [pre_words; post_words] -> T1 r -> lex_tag ws r = (None, r).
Proof.
  intros Hws [H|H]; [apply T0_none; auto; cbn in *; tauto|].
  apply lex_tag_none. intros q Hq. apply after_sep_lex in H. destruct (snd (lex_sep r)) as [|c s]; [discriminate H|].
  injection H as H. cbn in Hws. cbn [map]. rewrite H.
  destruct Hws as [<-|[<-|[]]]; cbn in Hq; repeat (destruct Hq as [<-|Hq]; [reflexivity|]); destruct Hq.
Qed.

Lemma T2i_none r : T2i r -> lex_tag pre_words r = (None, r).
Proof.
  intros [[H|H]|H].
  - apply T1_none; auto. now left.
  - apply lex_tag_none. intros q Hq. apply after_sep_lex in H. destruct H as (c & s & -> & [[H1 H2]|[H1 H2]]); cbn [map]; rewrite H1.
    + destruct s as [|c' s]; [discriminate H2|]. injection H2 as H2. cbn [map]. rewrite H2. cbn in Hq.
      repeat (destruct Hq as [<-|Hq]; [reflexivity|]); destruct Hq.
    + cbn in Hq. repeat (destruct Hq as [<-|Hq]; [try reflexivity|]); [|destruct Hq].
      destruct s as [|c' s]; [reflexivity|]. cbn in H2 |- *. destruct (lower c' =? 99) eqn:E; auto. apply N.eqb_eq in E. congruence.
  - destruct H as (c & s & -> & H). apply lex_tag_none. intros q Hq. cbn [lex_sep is_sep N.eqb snd map orb].
    change (is_sep 45) with true. cbn [snd map].
    pose proof (in_all_words pre_words q (or_introl eq_refl) Hq) as A. destruct (words_letters q A) as [L N].
    destruct q as [|a q]; [congruence|]. cbn. inversion L; subst. apply digit_char in H as (_ & -> & H).
    destruct (c =? a) eqn:E; auto. apply N.eqb_eq in E. lia.
Qed.

(** ** What does follow *)

Lemma local_T0 (l : option (pstr * list (N * pstr))) : T0 (spell (fun l => 43 :: local_text l) l).
Proof. now destruct l. Qed.

(** the text of a tag is an optional separator, a word and more *)
Lemma tag_text_shape ws t r : In ws [pre_words; post_words; dev_words] -> tag_tree ws t ->
  exists p w, In p ws /\ map lower w = p /\ opt separator (g_sep t) /\ w = g_word t
    /\ tag_text t ++ r = one (g_sep t) ++ w ++ spell (fun x => one (fst x) ++ snd x) (g_value t) ++ r
    /\ stops is_sep (w ++ spell (fun x => one (fst x) ++ snd x) (g_value t) ++ r).
Proof.
  intros Hws (S & (p & Hp & W) & V). exists p, (g_word t). split; auto.
  pose proof (in_all_words ws p Hws Hp) as A. split; [now apply spells_lower; [apply words_letters|]|].
  split; auto. split; auto. split.
  - unfold tag_text, tag_word. now rewrite <- !app_assoc.
  - destruct (spelled_head _ p A W) as (c & w' & -> & _ & E & _). exact E.
Qed.

Lemma dev_T1 d r : opt (tag_tree dev_words) d -> T0 r -> T1 (spell tag_text d ++ r).
Proof.
  destruct d as [t|]; cbn [opt spell app]; intros H R; [|now left]. right.
  destruct (tag_text_shape dev_words t r (or_intror (or_intror (or_introl eq_refl))) H) as (p & w & Hp & W & S & _ & E & Z).
  rewrite E. eexists _, _. split; [exact S|]. split; [exact Z|]. split; [reflexivity|].
  destruct Hp as [<-|[]]. destruct w as [|c w]; [discriminate W|]. cbn in W |- *. now injection W as -> _.
Qed.

Lemma value_head x r c : opt (fun x => opt separator (fst x) /\ digits (snd x)) x -> (97 <= c <= 122) ->
  (x = None -> low_head r <> Some c) -> low_head (spell (fun x => one (fst x) ++ snd x) x ++ r) <> Some c.
Proof.
  destruct x as [[[s|] d]|]; cbn [opt spell fst snd one app]; intros V C H; auto; intros X.
  - destruct V as [V _]. apply sep_iff, sep_char in V as (_ & V & W). injection X as X. lia.
  - destruct V as [_ V]. destruct (digits_head d V) as (e & d' & -> & D1 & _). apply digit_char in D1 as (_ & D1 & D2).
    injection X as X. lia.
Qed.

Lemma T1_head r c : T1 r -> 97 <= c <= 122 -> c <> 100 -> low_head r <> Some c.
Proof.
  intros [H|(o & s & O & _ & -> & L)] C N X.
  - destruct r as [|x r]; [discriminate|]. cbn in H. subst x. change (Some 43 = Some c) in X. injection X as <-. lia.
  - destruct o as [x|]; cbn in X.
    + apply sep_iff, sep_char in O as (_ & V & W). injection X as X. lia.
    + rewrite L in X. congruence.
Qed.

Lemma post_T2i p r : opt post_tree p -> T1 r -> T2i (spell post_text p ++ r).
Proof.
  destruct p as [[d|t]|]; cbn [opt spell post_tree post_text app]; intros H R.
  - right. destruct (digits_head d H) as (c & d' & -> & D1 & _). exists c, (d' ++ r). auto.
  - left. right.
    destruct (tag_text_shape post_words t r (or_intror (or_introl eq_refl)) H) as (p & w & Hp & W & S & _ & E & Z).
    rewrite E. eexists _, _. split; [exact S|]. split; [exact Z|]. split; [reflexivity|].
    destruct Hp as [<-|[<-|[<-|[]]]]; (destruct w as [|c w]; [discriminate W|]); injection W as W1 W2;
      eexists _, _; (split; [reflexivity|]); [left|right|right]; (split; [assumption|]).
    + destruct w as [|c' w]; [discriminate W2|]. injection W2 as W2 _. cbn. now rewrite W2.
    + destruct w as [|c' w]; [discriminate W2|]. injection W2 as W2 _. cbn. now rewrite W2.
    + destruct w; [|discriminate W2]. cbn [app]. apply value_head; [apply H|lia|]. intros _. apply T1_head; auto; lia.
  - left. now left.
Qed.

Lemma post_T2 t r : tag_tree post_words t -> T1 r -> T2 (tag_text t ++ r).
Proof.
  intros H R. destruct (post_T2i (Some (Explicit t)) r H R) as [K|(c & s & E & D)]; [exact K|]. exfalso.
  destruct (tag_text_shape post_words t r (or_intror (or_introl eq_refl)) H) as (p & w & Hp & W & S & _ & E' & Z).
  cbn [spell post_text] in E. rewrite E' in E.
  assert (A : In p all_words) by (apply (in_all_words post_words); cbn; auto).
  destruct (words_letters p A) as [L N]. destruct w as [|x w]; [cbn in W; congruence|]. cbn in W. subst p. inversion L; subst.
  destruct (fold_char x _ H2 eq_refl) as (D' & S' & _). destruct (g_sep t) as [o|]; cbn in E.
  - injection E as _ E _. congruence.
  - injection E as E _. subst x. discriminate S'.
Qed.

Lemma pre_T3 p r : opt (tag_tree pre_words) p -> T2i r -> T3 (spell tag_text p ++ r).
Proof.
  destruct p as [t|]; cbn [opt spell app]; intros H R; [|now left]. right.
  destruct (tag_text_shape pre_words t r (or_introl eq_refl) H) as (p & w & Hp & W & S & _ & E & Z).
  rewrite E. eexists _, _. split; [exact S|]. split; [exact Z|]. split; [reflexivity|].
  assert (A : In p all_words) by (apply (in_all_words pre_words); cbn; auto).
  destruct (words_letters p A) as [L N]. destruct w as [|x w]; [cbn in W; congruence|]. cbn in W. subst p. inversion L; subst.
  cbn [app]. eauto.
Qed.

(** after the release: no digit, no dot followed by a digit, no "!" *)
Lemma T3_ok r : T3 r -> stops is_digit r /\ match r with [] => True | c :: r' => c <> 33 /\ (c = 46 -> stops is_digit r') end.
Proof.
  assert (A : forall P : pstr -> Prop, (forall s, P s -> exists c s', s = c :: s' /\ 97 <= lower c <= 122) -> after_sep P r ->
     stops is_digit r /\ match r with [] => True | c :: r' => c <> 33 /\ (c = 46 -> stops is_digit r') end).
  { intros P L H. split; [now apply (letters_stop P r L)|]. destruct H as (o & s & O & S & -> & H).
    destruct (L s H) as (c & s' & -> & R). destruct (fold_char c _ R eq_refl) as (D & E & E2 & _).
    destruct o as [x|]; cbn.
    - apply sep_iff, sep_char in O as (_ & _ & W). split; [lia|]. auto.
    - split; auto. intros ->. discriminate E. }
  intros [[[[H|H]|H]|H]|H].
  - destruct r as [|c r]; cbn in *; auto. subst c. repeat split; discriminate.
  - exact (A _ (few_letters _ T1_letters) H).
  - exact (A _ (few_letters _ T2_letters) H).
  - destruct H as (c & s & -> & H). cbn. repeat split; discriminate.
  - apply (A _ (fun s H => H) H).
Qed.

(** ** The whole lexer *)

Definition lex_v (s : pstr) : option N * pstr :=
  match s with c :: s' => if lower c =? 118 then (Some c, s') else (None, s) | [] => (None, s) end.

Definition lex_epoch (s : pstr) : option pstr * pstr :=
  match span is_digit s with
  | (d, c :: r) => if c =? 33 then (Some d, r) else (None, s)
  | _ => (None, s)
  end.

Fixpoint lex_more (n : nat) (s : pstr) : list pstr * pstr :=
  match n, s with
  | S n', c :: s' =>
      if c =? 46 then
        match span is_digit s' with
        | ([], _) => ([], s)
        | (d, r) => let (ds, r') := lex_more n' r in (d :: ds, r')
        end
      else ([], s)
  | _, _ => ([], s)
  end.

Lemma lex_more_app more r n : Forall digits more -> T3 r -> (List.length more <= n)%nat ->
  lex_more n (List.concat (map (cons 46) more) ++ r) = (more, r).
Proof.
  intros F R. destruct (T3_ok r R) as [S1 S2]. revert n. induction F as [|d more G F IH]; intros n L.
  - cbn. destruct n as [|n], r as [|c r]; cbn; auto. destruct (c =? 46) eqn:E; auto. apply N.eqb_eq in E.
    destruct S2 as [_ S2]. specialize (S2 E). destruct r as [|e r]; cbn; auto. cbn in S2. now rewrite S2.
  - cbn in L |- *. destruct n as [|n]; [lia|]. cbn. rewrite <- app_assoc, span_digits; auto.
    + rewrite IH by lia. destruct d; [destruct G; congruence|reflexivity].
    + destruct F; [exact S1|reflexivity].
Qed.

Definition lex_post (s : pstr) : option gpost * pstr :=
  match s with
  | c :: s' =>
      if c =? 45 then
        match span is_digit s' with
        | ([], _) => let (t, r) := lex_tag post_words s in (option_map Explicit t, r)
        | (d, r) => (Some (Implicit d), r)
        end
      else let (t, r) := lex_tag post_words s in (option_map Explicit t, r)
  | [] => (None, s)
  end.

Lemma lex_post_app p r : opt post_tree p -> T1 r -> lex_post (spell post_text p ++ r) = (p, r).
Proof.
  intros H R. assert (R' : T2 r) by now left. destruct (T2_ok r R') as (A & B & C).
  destruct p as [[d|t]|]; cbn [opt post_tree spell post_text app] in *.
  - cbn. rewrite span_digits by assumption. destruct d; [destruct H; congruence|reflexivity].
  - pose proof (lex_tag_some post_words t r (or_intror (or_introl eq_refl)) H (fun _ => conj B C) (fun _ => A)) as L.
    pose proof (post_T2 t r H R) as K. destruct (T2_ok _ K) as (K1 & K2 & _).
    destruct (tag_text t ++ r) as [|c s] eqn:E; [injection L; discriminate|]. unfold lex_post. rewrite L. cbn [option_map].
    destruct (c =? 45) eqn:Q; auto. apply N.eqb_eq in Q. subst c. unfold no_value in K2. cbn in K2.
    destruct s as [|e s]; cbn; auto. cbn in K2. now rewrite K2.
  - pose proof (T1_none post_words r (or_intror (or_introl eq_refl)) R) as L.
    destruct r as [|c s] eqn:E; [reflexivity|]. unfold lex_post. rewrite L. cbn [option_map].
    destruct (c =? 45) eqn:Q; auto. apply N.eqb_eq in Q. subst c. unfold no_value in B. cbn in B.
    destruct s as [|e s]; cbn; auto. cbn in B. now rewrite B.
Qed.

Fixpoint lex_parts (n : nat) (s : pstr) : list (N * pstr) :=
  match n, s with
  | S n', c :: s' => let (w, r) := span is_alnum s' in (c, w) :: lex_parts n' r
  | _, _ => []
  end.

Definition lex_local (s : pstr) : option (pstr * list (N * pstr)) :=
  match s with
  | [] => None
  | _ :: s' => let (w, r) := span is_alnum s' in Some (w, lex_parts (List.length r) r)
  end.

Lemma span_alnum w r : alphanumeric w -> stops is_alnum r -> span is_alnum (w ++ r) = (w, r).
Proof.
  intros [_ F] S. apply span_app; auto. eapply Forall_impl; [|exact F]. intros c H. cbn beta in H. unfold is_alnum.
  rewrite orb_true_iff, digit_iff, letter_iff. tauto.
Qed.

Lemma sep_alnum c : separator c -> is_alnum c = false.
Proof. intros [->|[->| ->]]; reflexivity. Qed.

Lemma lex_local_app l : opt (fun l => alphanumeric (fst l) /\ Forall (fun x => separator (fst x) /\ alphanumeric (snd x)) (snd l)) l ->
  lex_local (spell (fun l => 43 :: local_text l) l) = l.
Proof.
  destruct l as [[w xs]|]; [|reflexivity]. cbn [opt spell fst snd local_text]. intros [A F]. unfold local_text. cbn [fst snd lex_local].
  assert (S : stops is_alnum (List.concat (map (fun x : N * pstr => fst x :: snd x) xs))).
  { destruct F as [|x xs [Sx _] _]; cbn; auto. now apply sep_alnum. }
  rewrite span_alnum by assumption. f_equal. f_equal.
  assert (K : forall n, (List.length xs <= n)%nat -> lex_parts n (List.concat (map (fun x : N * pstr => fst x :: snd x) xs)) = xs).
  { clear A w S. induction F as [|[c w] xs [Sx Ax] F IH]; intros n L; [now destruct n|].
    cbn in L |- *. destruct n as [|n]; [lia|]. cbn [lex_parts]. cbn in Ax. rewrite span_alnum; auto.
    - rewrite IH by lia. reflexivity.
    - destruct F as [|x xs [Sx' _] _]; cbn; auto. now apply sep_alnum. }
  apply K. clear. induction xs as [|x xs IH]; cbn; auto. rewrite app_length. lia.
Qed.

Definition lex (s : pstr) : gversion :=
  let (v, s) := lex_v s in
  let (e, s) := lex_epoch s in
  let (first, s) := span is_digit s in
  let (more, s) := lex_more (List.length s) s in
  let (pre, s) := lex_tag pre_words s in
  let (post, s) := lex_post s in
  let (dev, s) := lex_tag dev_words s in
  GVersion v e first more pre post dev (lex_local s).

Lemma lex_text t : tree t -> lex (text t) = t.
Proof.
  destruct t as [v e first more pre post dev l]. unfold tree, text, public_text. cbn [g_v g_epoch g_first g_more g_pre g_post g_dev g_local].
  intros (Hv & He & Hf & Hm & Hpre & Hpost & Hdev & Hl & G).
  pose proof (local_T0 l) as R0. set (rl := spell (fun l => 43 :: local_text l) l) in *.
  pose proof (dev_T1 dev rl Hdev R0) as R1. pose proof (post_T2i post _ Hpost R1) as R2.
  pose proof (pre_T3 pre _ Hpre R2) as R3. destruct (T3_ok _ R3) as [R4 R5].
  unfold release_text. rewrite <- !app_assoc. unfold lex.
  assert (E1 : lex_v (one v ++ spell (fun d => d ++ [33]) e ++ first ++ List.concat (map (cons 46) more) ++
     spell tag_text pre ++ spell post_text post ++ spell tag_text dev ++ rl) =
     (v, spell (fun d => d ++ [33]) e ++ first ++ List.concat (map (cons 46) more) ++
     spell tag_text pre ++ spell post_text post ++ spell tag_text dev ++ rl)).
  { destruct v as [c|]; cbn [one app].
    - cbn in Hv. destruct Hv as [->| ->]; reflexivity.
    - assert (X : exists c s, is_digit c = true /\ spell (fun d => d ++ [33]) e ++ first ++ List.concat (map (cons 46) more) ++
         spell tag_text pre ++ spell post_text post ++ spell tag_text dev ++ rl = c :: s).
      { destruct e as [d|]; cbn [spell app].
        - destruct (digits_head d He) as (c & d' & -> & D1 & _). cbn [app]. eauto.
        - destruct (digits_head first Hf) as (c & d' & -> & D1 & _). cbn [app]. eauto. }
      destruct X as (c & s & D1 & ->). cbn. apply digit_char in D1 as (_ & -> & D1).
      destruct (c =? 118) eqn:Q; auto. apply N.eqb_eq in Q. lia. }
  rewrite E1. clear E1.
  set (rest := List.concat (map (cons 46) more) ++ spell tag_text pre ++ spell post_text post ++ spell tag_text dev ++ rl) in *.
  assert (S : stops is_digit rest /\ match rest with [] => True | c :: _ => c <> 33 end).
  { unfold rest. destruct more as [|d more]; cbn [map List.concat app].
    - split; [exact R4|]. destruct (spell tag_text pre ++ _); [exact I|]. apply R5.
    - split; [reflexivity|discriminate]. }
  destruct S as [S S'].
  assert (E2 : lex_epoch (spell (fun d => d ++ [33]) e ++ first ++ rest) = (e, first ++ rest)).
  { unfold lex_epoch. destruct e as [d|]; cbn [spell app].
    - rewrite <- app_assoc. cbn [app]. rewrite span_digits; [reflexivity|exact He|reflexivity].
    - rewrite span_digits by assumption. destruct rest as [|c r]; auto. destruct (c =? 33) eqn:Q; auto. apply N.eqb_eq in Q. congruence. }
  rewrite E2. clear E2. rewrite span_digits by assumption. unfold rest.
  rewrite lex_more_app; auto.
  2:{ rewrite app_length. assert (L : forall more : list pstr, (List.length more <= List.length (List.concat (map (cons 46%N) more)))%nat).
      { induction more0 as [|d m IH]; cbn; auto. rewrite app_length. lia. } specialize (L more). lia. }
  assert (E3 : lex_tag pre_words (spell tag_text pre ++ spell post_text post ++ spell tag_text dev ++ rl) =
     (pre, spell post_text post ++ spell tag_text dev ++ rl)).
  { destruct pre as [t|]; cbn [spell app].
    - apply lex_tag_some; cbn; auto.
      + intros V. apply T2_ok. destruct post as [[d|p]|]; cbn [spell post_text app].
        * unfold greedy in G. cbn in G. congruence.
        * now apply post_T2.
        * now left.
      + intros _. destruct R2 as [R2|(c & s & E & _)]; [now apply T2_ok|]. rewrite E. reflexivity.
    - now apply T2i_none. }
  rewrite E3. clear E3. rewrite lex_post_app by assumption.
  assert (E4 : lex_tag dev_words (spell tag_text dev ++ rl) = (dev, rl)).
  { assert (R0' : T2 rl) by (left; now left). destruct (T2_ok rl R0') as (A & B & C).
    destruct dev as [t|]; cbn [spell app].
    - apply lex_tag_some; cbn; auto.
    - apply T0_none; cbn; auto. }
  rewrite E4. clear E4. f_equal. now apply lex_local_app.
Qed.

Lemma text_unique t u : tree t -> tree u -> text t = text u -> t = u.
Proof. intros T U E. rewrite <- (lex_text t T), <- (lex_text u U). now rewrite E. Qed.
