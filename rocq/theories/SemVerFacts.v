(** Versions as strings of Semantic Versioning. *)

From Coq Require Import List ZArith NArith String Bool Lia.
From Verif Require Import Py Regex Patterns Segments Version Parsers Spec Orders OrderFacts SetVersions BumpFacts Grammar ParseFacts ParseTheorems PythonFacts DenseFacts SemVerSpec.
Import ListNotations.
Local Open Scope Z_scope.
Local Opaque key str_int.

(** ** Reading a string in one way *)

Definition begins (stop : N -> Prop) (r : pstr) : Prop := match r with [] => True | c :: _ => stop c end.

Lemma cut_unique (stop : N -> Prop) a : forall b r s, Forall (fun c => ~ stop c) a -> Forall (fun c => ~ stop c) b -> begins stop r -> begins stop s ->
  a ++ r = b ++ s -> a = b /\ r = s.
Proof.
  induction a as [|c a IH]; intros [|d b] r s A B R S E; cbn [app] in E.
  - auto.
  - inversion B; subst. now exfalso.
  - inversion A; subst. now exfalso.
  - injection E as -> E. inversion A; inversion B; subst. destruct (IH b r s) as [-> ->]; auto.
Qed.

Lemma dot_join ws vs : ws <> [] -> vs <> [] -> Forall (Forall (fun c => c <> 46%N)) ws -> Forall (Forall (fun c => c <> 46%N)) vs ->
  join (lit ".") ws = join (lit ".") vs -> ws = vs.
Proof.
  intros N M W V E. change (lit ".") with [46%N] in E. rewrite <- (split_join_any 46 ws), <- (split_join_any 46 vs); auto; [now rewrite E| |];
    intros w I J; [rewrite Forall_forall in V; specialize (V w I)|rewrite Forall_forall in W; specialize (W w I)]; rewrite Forall_forall in *; eauto.
  - now apply (V 46%N).
  - now apply (W 46%N).
Qed.

Lemma int_digits z : 0 <= z -> digits (str_int z).
Proof. intros H. apply (str_int_digits z H). Qed.
Lemma int_inj y z : 0 <= y -> 0 <= z -> str_int y = str_int z -> y = z.
Proof. intros Y Z E. rewrite <- (proj2 (str_int_digits y Y)), <- (proj2 (str_int_digits z Z)). now rewrite E. Qed.

Lemma ident_str_ok i : ident_ok i -> ident_str i <> [] /\ Forall ident_char (ident_str i).
Proof.
  destruct i as [z|s]; cbn [ident_ok ident_str].
  - intros H. destruct (int_digits z H) as [N F]. split; auto. eapply Forall_impl; [|exact F]. intros c C. unfold digit in C. unfold ident_char. lia.
  - intros [F E]. split; auto. intros ->. inversion E.
Qed.

Lemma ident_inj i j : ident_ok i -> ident_ok j -> ident_str i = ident_str j -> i = j.
Proof.
  assert (K : forall z s, 0 <= z -> Exists (fun c => ~ (48 <= c <= 57)%N) s -> str_int z <> s).
  { intros z s Z E <-. destruct (int_digits z Z) as [_ F]. apply Exists_exists in E as (c & I & C). rewrite Forall_forall in F. now apply C, F. }
  destruct i as [y|s], j as [z|t]; cbn [ident_ok ident_str]; intros I J E.
  - f_equal. now apply int_inj.
  - exfalso. apply (K y t); tauto.
  - exfalso. apply (K z s); [auto|tauto|congruence].
  - congruence.
Qed.

Lemma idents_inj l : forall m, Forall ident_ok l -> Forall ident_ok m -> map ident_str l = map ident_str m -> l = m.
Proof.
  induction l as [|i l IH]; intros [|j m] L M E; try discriminate; auto. inversion L; inversion M; subst. injection E as E E'. f_equal; auto. now apply ident_inj.
Qed.

Lemma join_chars (P : N -> Prop) ws : P 46%N -> Forall (Forall P) ws -> Forall P (join (lit ".") ws).
Proof.
  intros D F. induction F as [|w ws W F IH]; [constructor|]. destruct ws as [|v vs]; [exact W|]. cbn [join]. apply Forall_app. split; auto. apply Forall_app. split; [now repeat constructor|exact IH].
Qed.

Definition core (x : semver) : pstr := join (lit ".") [str_int (sem_major x); str_int (sem_minor x); str_int (sem_patch x)].
Definition pre_text (l : list ident) : pstr := match l with [] => [] | _ => lit "-" ++ join (lit ".") (map ident_str l) end.
Definition build_text (l : list pstr) : pstr := match l with [] => [] | _ => lit "+" ++ join (lit ".") l end.
Lemma sem_string_parts x : sem_string x = core x ++ pre_text (sem_pre x) ++ build_text (sem_build x).
Proof. unfold sem_string, pre_text, build_text. destruct (sem_pre x), (sem_build x); reflexivity. Qed.

Definition mark (c : N) : Prop := c = 45%N \/ c = 43%N.
Definition plus (c : N) : Prop := c = 43%N.

Lemma ints_chars (P : N -> Prop) r : (forall c, digit c -> P c) -> Forall (fun z => 0 <= z) r -> Forall (Forall P) (map str_int r).
Proof. intros D F. apply Forall_map. eapply Forall_impl; [|exact F]. intros z Z. destruct (int_digits z Z) as [_ K]. eapply Forall_impl; [|exact K]. auto. Qed.

Lemma release_chars (P : N -> Prop) r : (forall c, digit c -> P c) -> P 46%N -> Forall (fun z => 0 <= z) r -> Forall P (join (lit ".") (map str_int r)).
Proof. intros D N F. apply join_chars; auto. now apply ints_chars. Qed.

Lemma build_begins l : begins plus (build_text l).
Proof. destruct l; cbn; auto. reflexivity. Qed.
Lemma rest_begins l m : begins mark (pre_text l ++ build_text m).
Proof. destruct l; [destruct m|]; cbn; auto; [right|left]; reflexivity. Qed.

Lemma digit_unmarked c : digit c -> ~ mark c.
Proof. unfold digit, mark. lia. Qed.
Lemma dot_unmarked : ~ mark 46.
Proof. unfold mark. lia. Qed.

Lemma ident_words l : Forall ident_ok l -> Forall (Forall (fun c => c <> 46%N)) (map ident_str l).
Proof. intros F. apply Forall_map. eapply Forall_impl; [|exact F]. intros i I. apply ident_str_ok in I as [_ I]. eapply Forall_impl; [|exact I]. intros c C. unfold ident_char in C. lia. Qed.

Lemma pre_chars l : Forall ident_ok l -> Forall (fun c => ~ plus c) (pre_text l).
Proof.
  intros F. unfold pre_text. destruct l as [|i l]; [constructor|]. apply Forall_app. split; [repeat constructor; unfold plus; cbn; lia|]. apply join_chars; [unfold plus; lia|].
  apply Forall_map. eapply Forall_impl; [|exact F]. intros j J. apply ident_str_ok in J as [_ J]. eapply Forall_impl; [|exact J]. intros c C. unfold ident_char in C. unfold plus. lia.
Qed.

Lemma pre_text_inj l m : Forall ident_ok l -> Forall ident_ok m -> pre_text l = pre_text m -> l = m.
Proof.
  intros L M E. unfold pre_text in E. destruct l as [|i l], m as [|j m]; try discriminate; auto. apply app_inv_head in E.
  apply idents_inj; auto. apply dot_join; try discriminate; auto using ident_words.
Qed.

Lemma build_text_inj l m : Forall (fun b => b <> [] /\ Forall ident_char b) l -> Forall (fun b => b <> [] /\ Forall ident_char b) m -> build_text l = build_text m -> l = m.
Proof.
  intros L M E. unfold build_text in E. destruct l as [|i l], m as [|j m]; try discriminate; auto. apply app_inv_head in E.
  assert (K : forall l, Forall (fun b => b <> [] /\ Forall ident_char b) l -> Forall (Forall (fun c => c <> 46%N)) l).
  { intros k F. eapply Forall_impl; [|exact F]. intros b [_ B]. eapply Forall_impl; [|exact B]. intros c C. unfold ident_char in C. lia. }
  apply dot_join; try discriminate; auto.
Qed.

(** How a text that begins with numbers and goes on with tags and a build part is read. *)
Lemma text_parts r l m x : Forall (fun z => 0 <= z) r -> r <> [] -> Forall ident_ok l -> sem_ok x ->
  join (lit ".") (map str_int r) ++ pre_text l ++ m = sem_string x -> begins plus m ->
  r = [sem_major x; sem_minor x; sem_patch x] /\ l = sem_pre x /\ m = build_text (sem_build x).
Proof.
  intros R N L (X1 & X2 & X3 & X4 & X5) E B. rewrite sem_string_parts in E. unfold core in E. change [str_int (sem_major x); str_int (sem_minor x); str_int (sem_patch x)] with (map str_int [sem_major x; sem_minor x; sem_patch x]) in E.
  assert (X : Forall (fun z => 0 <= z) [sem_major x; sem_minor x; sem_patch x]) by (repeat constructor; auto).
  apply (cut_unique mark) in E as [E1 E2]; [| | | |apply rest_begins].
  - apply dot_join in E1; try discriminate; [| |apply ints_chars|apply ints_chars]; auto; try (unfold digit; lia); [|intros H; now apply map_eq_nil in H].
    apply (cut_unique plus) in E2 as [E2 E3]; auto using pre_chars, build_begins. apply pre_text_inj in E2; auto. split; [|auto].
    clear - E1 R X. revert E1. generalize [sem_major x; sem_minor x; sem_patch x] as q, X. induction r as [|y r IH]; intros [|z q] Q E; try discriminate; auto.
    inversion R; inversion Q; subst. injection E as E1 E2. f_equal; auto. now apply int_inj.
  - apply release_chars; auto using digit_unmarked, dot_unmarked.
  - apply release_chars; auto using digit_unmarked, dot_unmarked.
  - destruct l; [|left; reflexivity]. destruct m; cbn; auto. right. exact B.
Qed.

(** ** Versions as such texts *)

Fixpoint more_ids (n : Z) (ts : list tag) : list ident :=
  match ts with
  | [] => [Num n]
  | t :: ts' => Word (str_int n ++ lit "-" ++ phase t) :: more_ids (value t) ts'
  end.
Definition tag_ids (ts : list tag) : list ident :=
  match ts with [] => [] | t :: ts' => Word (phase t) :: more_ids (value t) ts' end.
Definition tags_of (v : version) : list tag :=
  flat_map (fun o => match o with None => [] | Some t => [t] end) [v_pre v; v_post v; v_dev v].
Definition tag_text (t : tag) : pstr := lit "-" ++ tag_to_string t.

Lemma more_text ts : forall n, join (lit ".") (map ident_str (more_ids n ts)) = str_int n ++ flat_map tag_text ts.
Proof.
  induction ts as [|t ts IH]; intros n; [cbn; now rewrite app_nil_r|]. cbn [more_ids map flat_map ident_str].
  assert (K : forall w l, l <> [] -> join (lit ".") (w :: l) = w ++ lit "." ++ join (lit ".") l) by (intros w [|a l] H; [congruence|reflexivity]).
  rewrite K by (destruct ts; discriminate). rewrite IH. unfold tag_text, tag_to_string. cbn [join]. now rewrite <- !app_assoc.
Qed.

Lemma tag_ids_text ts : pre_text (tag_ids ts) = flat_map tag_text ts.
Proof.
  destruct ts as [|t ts]; [reflexivity|]. unfold pre_text, tag_ids. cbn [map flat_map ident_str].
  assert (K : forall w l, l <> [] -> join (lit ".") (w :: l) = w ++ lit "." ++ join (lit ".") l) by (intros w [|a l] H; [congruence|reflexivity]).
  rewrite K by (destruct ts; discriminate). rewrite more_text. unfold tag_text, tag_to_string. cbn [join]. now rewrite <- !app_assoc.
Qed.

Definition small_word (s : pstr) : Prop := s <> [] /\ Forall (fun c => (97 <= c <= 122)%N) s.

Lemma phases_small c t : valid_tag c t = true -> small_word (phase t).
Proof.
  intros V. apply valid_phase in V.
  assert (K : In (phase t) (PHASE_ORDER ++ POST_ORDER ++ [lit "dev"])) by (destruct c; rewrite !in_app_iff; auto; now rewrite !in_app_iff in V).
  clear V. cbn in K. repeat (destruct K as [<- | K]; [split; [discriminate|]; repeat constructor; vm_compute; discriminate|]). destruct K.
Qed.

Lemma small_chars s : small_word s -> Forall ident_char s.
Proof. intros [_ F]. eapply Forall_impl; [|exact F]. intros c C. unfold ident_char. cbv beta in C. lia. Qed.
Lemma small_exists s : small_word s -> Exists (fun c => ~ (48 <= c <= 57)%N) s.
Proof. intros [N F]. destruct F as [|c s C F]; [congruence|]. left. lia. Qed.

Lemma more_ok ts : forall n, 0 <= n -> Forall (fun t => small_word (phase t) /\ 0 <= value t) ts -> Forall ident_ok (more_ids n ts).
Proof.
  induction ts as [|t ts IH]; intros n N F; cbn [more_ids]; [repeat constructor; auto|]. inversion F as [|? ? [S V] F']; subst. constructor; auto. cbn [ident_ok].
  destruct (int_digits n N) as [_ D]. split.
  - apply Forall_app. split; [eapply Forall_impl; [|exact D]; intros c C; unfold digit in C; unfold ident_char; lia|]. apply Forall_app. split; [repeat constructor; unfold ident_char; cbn; lia|now apply small_chars].
  - apply Exists_app. right. apply Exists_app. right. now apply small_exists.
Qed.

Lemma tags_ok v : wf v -> Forall ident_ok (tag_ids (tags_of v)).
Proof.
  intros (_ & _ & _ & P & Q & D & _).
  assert (K : Forall (fun t => small_word (phase t) /\ 0 <= value t) (tags_of v)).
  { unfold tags_of. cbn [flat_map]. rewrite app_nil_r. repeat (apply Forall_app; split).
    - destruct (v_pre v) as [t|]; constructor; auto. destruct P as [V N]. split; [exact (phases_small _ _ V)|exact N].
    - destruct (v_post v) as [t|]; constructor; auto. destruct Q as [V N]. split; [exact (phases_small _ _ V)|exact N].
    - destruct (v_dev v) as [t|]; constructor; auto. destruct D as [V N]. split; [exact (phases_small _ _ V)|exact N]. }
  unfold tag_ids. destruct (tags_of v) as [|t ts]; [constructor|]. inversion K as [|? ? [S V] F]; subst. constructor; [|now apply more_ok].
  split; [now apply small_chars|now apply small_exists].
Qed.

Definition builds (v : version) : list pstr := match v_local v with None => [] | Some l => map local_part_str l end.

Lemma version_text v : wf v -> v_epoch v = 0 -> to_string v = join (lit ".") (map str_int (v_release v)) ++ pre_text (tag_ids (tags_of v)) ++ build_text (builds v).
Proof.
  intros W E. rewrite tag_ids_text. unfold to_string. rewrite E. cbn [Z.eqb app]. unfold rel_to_string. f_equal. unfold tags_of. cbn [flat_map].
  assert (L : match v_local v with Some l => lit "+" ++ local_to_string l | None => [] end = build_text (builds v)).
  { unfold builds, build_text. destruct W as (_ & _ & _ & _ & _ & _ & L). destruct (v_local v) as [[|p l]|]; auto. destruct L. congruence. }
  rewrite L. destruct (v_pre v), (v_post v), (v_dev v); cbn [app flat_map]; unfold tag_text; now rewrite <- ?app_assoc, ?app_nil_r.
Qed.

Lemma alnum_ascii c : is_alnum c = true -> (c < 128)%N -> ident_char c.
Proof.
  unfold is_alnum, is_alpha, Regex.lower, is_digit, ident_char. rewrite orb_true_iff, !andb_true_iff, !N.leb_le. intros H L.
  destruct ((65 <=? c) && (c <=? 90))%N eqn:U; [apply andb_true_iff in U as [U1 U2]; apply N.leb_le in U1, U2; lia|].
  destruct ((c =? 304) || (c =? 305))%N eqn:A; [apply orb_true_iff in A as [A|A]; apply N.eqb_eq in A; lia|].
  destruct (c =? 383)%N eqn:B; [apply N.eqb_eq in B; lia|]. destruct (c =? 8490)%N eqn:D; [apply N.eqb_eq in D; lia|]. lia.
Qed.

Lemma builds_ok v : wf v -> ascii_local v <-> Forall (fun b => b <> [] /\ Forall ident_char b) (builds v).
Proof.
  intros (_ & _ & _ & _ & _ & _ & L). unfold ascii_local, builds. destruct (v_local v) as [l|]; [|split; auto; constructor]. destruct L as [_ L].
  rewrite Forall_map, !Forall_forall in *. split; intros H p I; specialize (H p I); specialize (L p I); destruct p as [z|s]; cbn [local_part_str wf_part] in *; auto.
  - destruct (int_digits z L) as [N F]. split; auto. eapply Forall_impl; [|exact F]. intros c C. unfold digit in C. unfold ident_char. lia.
  - destruct L as [A X]. split; [intros ->; discriminate X|]. rewrite forallb_forall in A. rewrite Forall_forall in *. intros c C. apply alnum_ascii; auto.
  - destruct H as [_ H]. eapply Forall_impl; [|exact H]. intros c C. unfold ident_char in C. lia.
Qed.

Definition sem_of (v : version) : semver :=
  SemVer (part (v_release v) 0) (part (v_release v) 1) (part (v_release v) 2) (tag_ids (tags_of v)) (builds v).

Lemma semantic_release v : is_semantic v = true <-> exists a b c, v_release v = [a; b; c].
Proof.
  unfold is_semantic, rel_is_semantic, rel_precision. rewrite len_nat, Z.eqb_eq. unfold TOTAL.
  destruct (v_release v) as [|a [|b [|c [|d r]]]]; split; try (cbn [List.length]; lia); try (intros (x & y & z & E); discriminate E); eauto.
Qed.

Lemma epoch_mark v : wf v -> v_epoch v <> 0 -> In 33%N (to_string v).
Proof.
  intros _ E. unfold to_string. apply Z.eqb_neq in E. apply in_app_iff. left. rewrite E. apply in_app_iff. right. now left.
Qed.

Lemma sem_chars x : sem_ok x -> Forall (fun c => ident_char c \/ c = 46 \/ c = 43)%N (sem_string x).
Proof.
  intros (A & B & C & P & Q).
  assert (J : forall l, Forall (fun w => Forall ident_char w) l -> Forall (fun c => ident_char c \/ c = 46 \/ c = 43)%N (join (lit ".") l)).
  { induction l as [|w l IH]; intros F; [constructor|]. inversion F as [|? ? F1 F2]; subst.
    assert (Forall (fun c => ident_char c \/ c = 46 \/ c = 43)%N w) by (eapply Forall_impl; [|exact F1]; auto).
    destruct l as [|w' l]; [exact H|]. change (join (lit ".") (w :: w' :: l)) with (w ++ lit "." ++ join (lit ".") (w' :: l)).
    apply Forall_app. split; auto. apply Forall_app. split; auto. constructor; [right; now left|constructor]. }
  assert (K : forall z, 0 <= z -> Forall ident_char (str_int z)).
  { intros z Z. destruct (int_digits z Z) as [_ D]. eapply Forall_impl; [|exact D]. intros c H. unfold digit in H. unfold ident_char. lia. }
  unfold sem_string. apply Forall_app. split; [apply J; repeat constructor; auto|]. apply Forall_app. split.
  - destruct (sem_pre x) as [|i l] eqn:E; [constructor|]. rewrite <- E in *. apply Forall_app. split; [constructor; [left; unfold ident_char; cbn; lia|constructor]|].
    apply J. rewrite Forall_map. eapply Forall_impl; [|exact P]. intros [z|w] H; cbn [ident_ok ident_str] in *; [auto|tauto].
  - destruct (sem_build x) as [|b l] eqn:E; [constructor|]. rewrite <- E in *. apply Forall_app. split; [constructor; [right; now right|constructor]|].
    apply J. eapply Forall_impl; [|exact Q]. cbv beta. tauto.
Qed.

Lemma sem_of_ok v : wf v -> is_semantic v = true -> ascii_local v -> sem_ok (sem_of v).
Proof.
  intros W S A. destruct (proj1 (semantic_release v) S) as (a & b & c & R). pose proof W as (_ & _ & F & _). unfold nonneg_release in F. rewrite R in F.
  unfold sem_ok, sem_of. cbn [sem_major sem_minor sem_patch sem_pre sem_build]. rewrite R. cbn.
  inversion F as [|? ? F1 F2]; subst. inversion F2 as [|? ? F3 F4]; subst. inversion F4; subst. repeat split; auto.
  - now apply tags_ok.
  - now apply builds_ok.
Qed.

Lemma sem_of_string v : wf v -> v_epoch v = 0 -> is_semantic v = true -> sem_string (sem_of v) = to_string v.
Proof.
  intros W E S. destruct (proj1 (semantic_release v) S) as (a & b & c & R). rewrite (version_text v W E), R, sem_string_parts.
  unfold sem_of, core. cbn [sem_major sem_minor sem_patch sem_pre sem_build]. rewrite R. reflexivity.
Qed.

Lemma join_in (c : N) sep w l : In w l -> In c w -> In c (join sep l).
Proof.
  induction l as [|a l IH]; [intros []|]. intros [<- | I] C; destruct l as [|b l]; cbn [join]; auto; rewrite ?in_app_iff; auto. destruct I.
Qed.

Lemma strings v : wf v -> (semver_text (to_string v) <-> v_epoch v = 0 /\ is_semantic v = true /\ ascii_local v).
Proof.
  intros W. split.
  - intros (x & X & E). pose proof (sem_chars x X) as CH. rewrite E, Forall_forall in CH.
    assert (E0 : v_epoch v = 0).
    { destruct (Z.eq_dec (v_epoch v) 0) as [e|n]; auto. exfalso. specialize (CH _ (epoch_mark v W n)). unfold ident_char in CH. lia. }
    pose proof (version_text v W E0) as T. pose proof W as (_ & N & F & _).
    assert (B : begins plus (build_text (builds v))) by apply build_begins.
    destruct (text_parts (v_release v) (tag_ids (tags_of v)) (build_text (builds v)) x F N (tags_ok v W) X (eq_trans (eq_sym T) (eq_sym E)) B) as (R & _).
    split; auto. split; [apply semantic_release; eauto|].
    unfold ascii_local. destruct (v_local v) as [l|] eqn:L; auto. rewrite Forall_forall. intros [z|s] I; auto. rewrite Forall_forall. intros c C.
    assert (K : In c (to_string v)).
    { rewrite T, !in_app_iff. right. right. unfold builds. rewrite L. unfold build_text. destruct (map local_part_str l) as [|b k] eqn:M; [destruct l; [destruct I|discriminate]|].
      rewrite in_app_iff. right. rewrite <- M. apply (join_in c (lit ".") s); auto. apply in_map_iff. now exists (LStr s). }
    specialize (CH _ K). unfold ident_char in CH. lia.
  - intros (E & S & A). exists (sem_of v). split; [now apply sem_of_ok|now apply sem_of_string].
Qed.

Lemma readings v x : wf v -> sem_ok x -> sem_string x = to_string v -> x = sem_of v.
Proof.
  intros W X E. destruct (proj1 (strings v W)) as (E0 & S & A); [now exists x|].
  pose proof (version_text v W E0) as T. pose proof W as (_ & N & F & _).
  assert (B : begins plus (build_text (builds v))) by apply build_begins.
  destruct (text_parts (v_release v) (tag_ids (tags_of v)) (build_text (builds v)) x F N (tags_ok v W) X (eq_trans (eq_sym T) (eq_sym E)) B) as (R & P & M).
  apply build_text_inj in M; [|now apply builds_ok|now destruct X as (_ & _ & _ & _ & X)].
  unfold sem_of. rewrite R, P, M. now destruct x.
Qed.

Lemma semantic_text v : wf v -> v_epoch v = 0 -> ascii_local v -> exists w, to_semantic v = Ok w /\ semver_text (to_string w).
Proof.
  intros W E A. assert (V : valid_version v = true) by exact (proj1 (DenseFacts.wf_ordinary v W)).
  destruct (to_semantic_shape v V) as (r & Q & L & B). exists (set_release v r). split; auto.
  assert (W' : wf (set_release v r)).
  { destruct W as (W1 & W2 & W3 & W4). split; [exact W1|]. split; [intros K; cbn in K; subst r; discriminate|]. split; [|exact W4].
    unfold nonneg_release. cbn [v_release set_release]. apply parts_nonneg. intros n. pose proof (part_nonneg _ n W3). pose proof (part_nonneg _ 2 W3).
    destruct (_ <? _)%nat; rewrite B; auto. destruct (n <? 2)%nat, (n =? 2)%nat; lia. }
  apply strings; auto. split; [exact E|]. split; [|exact A]. unfold is_semantic, rel_is_semantic, rel_precision. cbn. now rewrite len_nat, L.
Qed.

(** ** Precedence *)

Lemma pair_before p n q m : dict_before ident_before [Word p; Num n] [Word q; Num m] <-> str_cmp p q = Lt \/ p = q /\ n < m.
Proof.
  rewrite str_before. split.
  - intros [(b & k & E)|(k & a & b & l & l' & E & E' & L)].
    + destruct k; discriminate.
    + destruct k as [|k1 [|k2 [|k3 k]]]; cbn in E, E'; inversion E; inversion E'; subst; cbn [ident_before] in L; auto; right; split; congruence || auto.
  - intros [L|[-> L]].
    + right. exists [], (Word p), (Word q), [Num n], [Num m]. auto.
    + right. exists [Word q], (Num n), (Num m), [], []. auto.
Qed.

Lemma rel_three a b c a' b' c' : rel_before [a; b; c] [a'; b'; c'] <-> a < a' \/ a = a' /\ (b < b' \/ b = b' /\ c < c').
Proof.
  unfold rel_before. split.
  - intros (n & S & L). pose proof (S 0%nat) as S0. pose proof (S 1%nat) as S1.
    destruct n as [|[|[|n]]]; cbn in *; try (specialize (S0 ltac:(lia))); try (specialize (S1 ltac:(lia))); try lia; destruct n; cbn in L; lia.
  - intros [L|[-> [L|[-> L]]]].
    + exists 0%nat. split; [lia|exact L].
    + exists 1%nat. split; [|exact L]. intros [|m] M; [reflexivity|lia].
    + exists 2%nat. split; [|exact L]. intros [|[|m]] M; [reflexivity..|lia].
Qed.

Lemma same_three a b c a' b' c' : rel_same [a; b; c] [a'; b'; c'] <-> a = a' /\ b = b' /\ c = c'.
Proof.
  split; [|intros (-> & -> & ->); intros n; reflexivity]. intros S. exact (conj (S 0%nat) (conj (S 1%nat) (S 2%nat))).
Qed.

Lemma tag_order_pair t u : tag_cmp t u = Lt <-> str_cmp (phase t) (phase u) = Lt \/ phase t = phase u /\ value t < value u.
Proof. unfold tag_cmp. rewrite then_lt, (law_eq lawful_str), Z.compare_lt_iff. reflexivity. Qed.

Lemma precedence v w x y : wf v -> wf w -> v_post v = None -> v_dev v = None -> v_post w = None -> v_dev w = None ->
  sem_ok x -> sem_string x = to_string v -> sem_ok y -> sem_string y = to_string w ->
  sem_before x y <-> v_lt (without_local v) (without_local w) = true.
Proof.
  intros V W Pv Dv Pw Dw X EX Y EY.
  destruct (proj1 (strings v V)) as (E0 & S & _); [now exists x|]. destruct (proj1 (strings w W)) as (E1 & S' & _); [now exists y|].
  rewrite (readings v x V X EX), (readings w y W Y EY).
  destruct (proj1 (semantic_release v) S) as (a & b & c & R). destruct (proj1 (semantic_release w) S') as (a' & b' & c' & R').
  assert (K : forall u, wf u -> wf (without_local u)).
  { intros u (U1 & U2 & U3 & U4 & U5 & U6 & _). repeat (split; [assumption|]). exact I. }
  rewrite lt_before by (apply DenseFacts.wf_ordinary; auto).
  destruct V as (_ & _ & _ & V & _). destruct W as (_ & _ & _ & W & _).
  unfold before, sem_before, sem_of, tags_of, stage, without_local, set_local. cbn [sem_major sem_minor sem_patch sem_pre v_epoch v_release v_pre v_post v_dev v_local].
  rewrite E0, E1, R, R', Pv, Dv, Pw, Dw, rel_three, same_three. cbn [part nth none_first none_last local_before flat_map app].
  destruct (v_pre v) as [t|], (v_pre w) as [u|]; cbn [app tag_ids more_ids none_first].
  - rewrite pair_before, <- tag_order_pair, pre_order by (apply V || apply W). clear. intuition lia.
  - clear. intuition (lia || discriminate).
  - clear. intuition (lia || discriminate).
  - clear. intuition (lia || discriminate).
Qed.


Lemma word_ok s : forallb (fun c => (48 <=? c) && (c <=? 57) || (65 <=? c) && (c <=? 90) || (97 <=? c) && (c <=? 122) || (c =? 45))%N s = true ->
  existsb (fun c => negb ((48 <=? c) && (c <=? 57)))%N s = true -> ident_ok (Word s).
Proof.
  intros A B. cbn [ident_ok]. rewrite forallb_forall in A. rewrite existsb_exists in B. rewrite Forall_forall, Exists_exists. split.
  - intros c I. specialize (A c I). unfold ident_char. rewrite !orb_true_iff, !andb_true_iff, !N.leb_le, N.eqb_eq in A. lia.
  - destruct B as (c & I & B). exists c. split; auto. apply negb_true_iff, andb_false_iff in B. rewrite !N.leb_gt in B. lia.
Qed.

Lemma sem_intro a b c l : 0 <= a -> 0 <= b -> 0 <= c -> Forall ident_ok l -> sem_ok (SemVer a b c l []).
Proof. intros A B C L. repeat split; auto. constructor. Qed.

Lemma one_reading v x y : wf v -> sem_ok x -> sem_ok y -> sem_string x = to_string v -> sem_string y = to_string v -> x = y.
Proof. intros V X Y E F. now rewrite (readings v x V X E), (readings v y V Y F). Qed.

Lemma otherwise :
  (exists v w x y, parse_version (lit "1.0.0-dev.1") = Ok v /\ to_string v = lit "1.0.0-dev.1" /\ parse_version (lit "1.0.0-alpha.1") = Ok w /\ to_string w = lit "1.0.0-alpha.1"
    /\ sem_ok x /\ sem_string x = to_string v /\ sem_ok y /\ sem_string y = to_string w /\ sem_before y x /\ v_lt v w = true)
  /\ exists v w x y, parse_version (lit "1.0.0-post.1") = Ok v /\ to_string v = lit "1.0.0-post.1" /\ parse_version (lit "1.0.0") = Ok w /\ to_string w = lit "1.0.0"
    /\ sem_ok x /\ sem_string x = to_string v /\ sem_ok y /\ sem_string y = to_string w /\ sem_before x y /\ v_lt w v = true.
Proof.
  split; do 2 eexists.
  - exists (SemVer 1 0 0 [Word (lit "dev"); Num 1] []), (SemVer 1 0 0 [Word (lit "alpha"); Num 1] []).
    do 4 (split; [vm_compute; reflexivity|]).
    split; [apply sem_intro; try lia; repeat (constructor; try (apply word_ok; vm_compute; reflexivity)); cbn; lia|]. split; [vm_compute; reflexivity|].
    split; [apply sem_intro; try lia; repeat (constructor; try (apply word_ok; vm_compute; reflexivity)); cbn; lia|]. split; [vm_compute; reflexivity|].
    split; [|vm_compute; reflexivity]. right; split; [reflexivity|]; right; split; [reflexivity|]; right; split; [reflexivity|]. cbn [sem_pre].
    apply pair_before. left. vm_compute. reflexivity.
  - exists (SemVer 1 0 0 [Word (lit "post"); Num 1] []), (SemVer 1 0 0 [] []).
    do 4 (split; [vm_compute; reflexivity|]).
    split; [apply sem_intro; try lia; repeat (constructor; try (apply word_ok; vm_compute; reflexivity)); cbn; lia|]. split; [vm_compute; reflexivity|].
    split; [apply sem_intro; try lia; constructor|]. split; [vm_compute; reflexivity|].
    split; [|vm_compute; reflexivity]. right; split; [reflexivity|]; right; split; [reflexivity|]; right; split; [reflexivity|]. exact I.
Qed.

Lemma merged : exists v x y, parse_version (sem_string x) = Ok v /\ parse_version (sem_string y) = Ok v /\ sem_ok x /\ sem_ok y /\ sem_before x y.
Proof.
  eexists. exists (SemVer 1 0 0 [Word (lit "alpha")] []), (SemVer 1 0 0 [Word (lit "alpha"); Num 0] []).
  split; [vm_compute; reflexivity|]. split; [vm_compute; reflexivity|].
  split; [apply sem_intro; try lia; repeat (constructor; try (apply word_ok; vm_compute; reflexivity))|].
  split; [apply sem_intro; try lia; repeat (constructor; try (apply word_ok; vm_compute; reflexivity)); cbn; lia|].
  right; split; [reflexivity|]; right; split; [reflexivity|]; right; split; [reflexivity|]. cbn [sem_pre]. left. now exists (Num 0), [].
Qed.
