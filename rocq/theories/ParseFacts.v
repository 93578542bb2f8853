(** [parse_version] reads the trees of the grammar. *)

From Coq Require DecimalPos DecimalN.
From Coq Require Import List ZArith NArith String Bool Arith Lia.
From Verif Require Import Py Segments Version VersionSets Operators Specifiers Regex Patterns Parsers Orders Grammar RegexFacts Unambiguous VersionRegex.
Import ListNotations.
Open Scope Z_scope.

(** ** Numbers *)

Definition step (n : Z) (c : N) : Z := 10 * n + (Z.of_N c - 48).

Lemma digit_cases c : digit c -> In c [48; 49; 50; 51; 52; 53; 54; 55; 56; 57]%N.
Proof. unfold digit. intros H. cbn. lia. Qed.

Lemma str_uint_digits s : Forall digit s -> exists d, str_uint s = Some d.
Proof.
  induction 1 as [|c s Hc Hs [d E]]; [now exists Decimal.Nil|]. cbn [str_uint]. rewrite E. apply digit_cases in Hc.
  cbn [In] in Hc. repeat destruct Hc as [<-|Hc]; [eexists; reflexivity..|destruct Hc].
Qed.

Lemma of_uint_acc_number s : Forall digit s -> forall d acc, str_uint s = Some d ->
  Zpos (Pos.of_uint_acc d acc) = fold_left step s (Zpos acc).
Proof.
  induction 1 as [|c s Hc Hs IH]; intros d acc; cbn [str_uint fold_left].
  - intros [= <-]. reflexivity.
  - destruct (str_uint s) as [d'|]; [|discriminate]. intros H. apply digit_cases in Hc. cbn [In] in Hc.
    repeat destruct Hc as [<-|Hc]; [..|destruct Hc]; injection H as <-; cbn [Pos.of_uint_acc]; rewrite (IH d') by auto; f_equal; unfold step; lia.
Qed.

Lemma of_uint_number s : Forall digit s -> forall d, str_uint s = Some d -> Z.of_N (N.of_uint d) = number s.
Proof.
  unfold number. fold step. change (fun n c => 10 * n + (Z.of_N c - 48)) with step.
  induction 1 as [|c s Hc Hs IH]; intros d; cbn [str_uint fold_left].
  - intros [= <-]. reflexivity.
  - destruct (str_uint s) as [d'|] eqn:E; [|discriminate]. intros H. apply digit_cases in Hc. cbn [In] in Hc.
    repeat destruct Hc as [<-|Hc]; [..|destruct Hc]; injection H as <-; [exact (IH d' eq_refl)|..];
      unfold N.of_uint; cbn [Pos.of_uint Z.of_N]; rewrite (of_uint_acc_number s) by auto; reflexivity.
Qed.

Lemma py_int_digits d : digits d -> py_int d = Ok (number d).
Proof.
  intros [N F]. destruct (str_uint_digits d F) as [u E]. unfold py_int. rewrite E, (of_uint_number d F u E). now destruct d.
Qed.

Lemma number_nonneg d : Forall digit d -> 0 <= number d.
Proof.
  unfold number. intros F. assert (X : forall n, 0 <= n -> 0 <= fold_left step d n).
  { induction F as [|c s Hc Hs IH]; intros n Hn; cbn [fold_left]; auto. apply IH. unfold step, digit in *. lia. }
  apply X. lia.
Qed.

Lemma uint_str_digits d : Forall digit (uint_str d).
Proof. induction d; cbn [uint_str]; constructor; auto; unfold digit; lia. Qed.

Lemma str_uint_str d : str_uint (uint_str d) = Some d.
Proof. induction d; cbn [uint_str str_uint]; rewrite ?IHd; reflexivity. Qed.

Lemma str_int_digits z : 0 <= z -> digits (str_int z) /\ number (str_int z) = z.
Proof.
  intros H. assert (E : str_int z = uint_str (N.to_uint (Z.to_N z))) by (destruct z; [reflexivity..|lia]).
  rewrite E. split.
  - split; [|apply uint_str_digits]. intros X.
    assert (Y : str_uint (uint_str (N.to_uint (Z.to_N z))) = Some Decimal.Nil) by (rewrite X; reflexivity).
    rewrite str_uint_str in Y. injection Y as Y.
    destruct (Z.to_N z); [discriminate|]. cbn in Y. pose proof (DecimalPos.Unsigned.to_uint_nonnil p). auto.
  - rewrite <- (of_uint_number _ (uint_str_digits _) _ (str_uint_str _)), DecimalN.Unsigned.of_to. lia.
Qed.

(** ** Tags *)

Definition letters (w : pstr) : Prop := w <> [] /\ Forall (fun c => is_alpha c = true) w.
Definition value_tree (x : option (option N * pstr)) : Prop := opt (fun x => opt separator (fst x) /\ digits (snd x)) x.
Definition value_text (x : option (option N * pstr)) : pstr := spell (fun x => one (fst x) ++ snd x) x.
Definition value_reading (x : option (option N * pstr)) : Z := match x with None => 0 | Some (_, d) => number d end.

Lemma D_TAG w ds : D TAG w ds <-> exists u x, letters u /\ value_tree x /\ w = u ++ value_text x
  /\ ds = match x with None => [] | Some x => [(G_VALUE, snd x)] end ++ [(G_PHASE, u)].
Proof.
  unfold TAG. rewrite D_cat_iff. split.
  - intros (w1 & w2 & d1 & d2 & -> & -> & H1 & H2). apply D_grp_iff in H1 as (es & -> & H1).
    apply D_plus_chr in H1 as (N & F & ->). apply D_value in H2 as (x & X & -> & ->). exists w1, x. repeat split; auto.
  - intros (u & x & (N & F) & X & -> & ->). do 4 eexists. split; [reflexivity|]. split; [reflexivity|]. split.
    + apply D_grp_iff. exists []. split; auto. apply D_plus_chr. auto.
    + apply D_value. exists x. auto.
Qed.

Lemma alpha_not c : is_alpha c = true -> is_digit c = false /\ is_sep c = false.
Proof. intros H. apply letter_iff in H as (a & R & F). apply folds_iff in F; auto. apply (fold_char c a) in F; tauto. Qed.

Lemma value_stops x : value_tree x -> stops is_alpha (value_text x).
Proof.
  assert (A : forall d r, digits d -> stops is_alpha (d ++ r)).
  { intros d r H. apply digits_head in H as (c & d' & -> & H & _). cbn. destruct (is_alpha c) eqn:E; auto. apply alpha_not in E as [E _]. congruence. }
  destruct x as [[[c|] d]|]; cbn; auto.
  - intros [S _]. destruct (is_alpha c) eqn:E; auto. apply alpha_not in E as [_ E]. apply sep_iff in S. congruence.
  - intros [_ H]. specialize (A d [] H). now rewrite app_nil_r in A.
Qed.

Lemma value_unique x y : value_tree x -> value_tree y -> value_text x = value_text y -> x = y.
Proof.
  assert (A : forall d e, digits d -> digits e -> forall c, separator c -> c :: d = e -> False).
  { intros d e _ H c S <-. apply digits_head in H as (c' & d' & [= <- _] & H & E). apply sep_iff in S. congruence. }
  assert (B : forall d, digits d -> d = [] -> False) by (intros d [N _] ->; congruence).
  unfold value_tree, value_text. destruct x as [[[c|] d]|], y as [[[c'|] e]|]; cbn; intros X Y E; auto; try discriminate.
  - now injection E as <- <-.
  - exfalso. apply (A d e (proj2 X) (proj2 Y) c); tauto.
  - exfalso. apply (A e d (proj2 Y) (proj2 X) c'); tauto || auto.
  - now subst.
  - exfalso. apply (B d); tauto.
  - exfalso. apply (B e); auto; tauto.
Qed.

Lemma fullmatch_TAG u x : letters u -> value_tree x ->
  fullmatch TAG (u ++ value_text x) = Some (match x with None => [] | Some x => [(G_VALUE, snd x)] end ++ [(G_PHASE, u)]).
Proof.
  intros U X. destruct (fullmatch_complete TAG (u ++ value_text x)
    (match x with None => [] | Some x => [(G_VALUE, snd x)] end ++ [(G_PHASE, u)])) as [cs E].
  { apply D_TAG. exists u, x. auto. }
  rewrite E. apply fullmatch_sound, D_TAG in E as (u' & x' & U' & X' & E & ->).
  assert (S : span is_alpha (u ++ value_text x) = (u, value_text x)) by (apply span_app; [apply U|now apply value_stops]).
  rewrite E, span_app in S by (apply U' || now apply value_stops). injection S as -> E'.
  now rewrite (value_unique x' x).
Qed.

Lemma parse_tag_eq c u x : letters u -> value_tree x -> parse_tag c (u ++ value_text x) = tag_new c u (value_reading x).
Proof.
  intros U X. unfold parse_tag. rewrite fullmatch_TAG by auto. destruct x as [[o d]|]; cbn [get_group app group_index N.eqb Pos.eqb snd].
  - rewrite py_int_digits by apply X. reflexivity.
  - reflexivity.
Qed.

Lemma parse_tag_none c s : (forall u x, letters u -> value_tree x -> s <> u ++ value_text x) -> parse_tag c s = Err ParseTagError.
Proof.
  intros H. unfold parse_tag. destruct (fullmatch TAG s) eqn:E; auto.
  apply fullmatch_sound, D_TAG in E as (u & x & U & X & -> & _). now destruct (H u x).
Qed.

(** A word written in lower case spells only itself. *)
Definition low (w : pstr) : bool := forallb (fun c => (97 <=? c) && (c <=? 122))%N w.

Lemma spells_low w p : spells w p -> low w = true -> w = p.
Proof.
  induction 1 as [|c a w p F S IH]; auto. cbn. rewrite !andb_true_iff, !N.leb_le. intros [H L].
  rewrite IH by auto. f_equal. unfold folds in F. lia.
Qed.

Lemma str_in_iff w ws : str_in w ws = true <-> In w ws.
Proof.
  unfold str_in. rewrite existsb_exists. split.
  - intros (x & H & E). apply str_eqb_eq in E. now subst.
  - intros H. exists w. split; auto. now apply str_eqb_eq.
Qed.

Lemma spells_letters w p : In p all_words -> spells w p -> letters w.
Proof.
  intros A H. destruct (words_letters p A) as [L N]. split.
  - intros ->. inversion H. subst. congruence.
  - clear A N. induction H as [|c a w p F S IH]; constructor; inversion L; subst; auto. apply letter_iff. exists a. auto.
Qed.

Definition class_words (c : tag_class) : list pstr :=
  match c with AnyTag => all_words | PreTag => pre_words | PostTag => post_words | DevTag => dev_words end.

Lemma tag_new_word c w v : In w (class_words c) -> tag_new c w v = Ok (Tag (long_form w) v).
Proof.
  destruct c; cbn; intros H; repeat (destruct H as [<-|H]; [reflexivity|]); destruct H.
Qed.

Lemma class_all c p : In p (class_words c) -> In p all_words.
Proof. destruct c; auto; unfold all_words; rewrite !in_app_iff; cbn [class_words]; tauto. Qed.

Lemma tag_new_cased c w p v : In p (class_words c) -> spells w p -> ~ In w (class_words c) -> tag_new c w v = Err ValueError.
Proof.
  intros Hp S Hw. assert (L : low w = false) by (destruct (low w) eqn:E; auto; rewrite (spells_low w p) in Hw by auto; contradiction).
  assert (X : forall q, low q = true -> str_eqb q w = false).
  { intros q Q. destruct (str_eqb q w) eqn:E; auto. apply str_eqb_eq in E. congruence. }
  unfold tag_new. assert (C : convert_phase w = w).
  { unfold convert_phase. cbn [SHORT_TO_PHASE PHASE_TO_SHORT map dict_get fst snd]. 
    repeat (rewrite X by reflexivity). reflexivity. }
  rewrite C. destruct (str_in w (phase_set c)) eqn:E; auto. apply str_in_iff in E.
  assert (L' : low w = true); [|congruence].
  destruct c; cbn in E; repeat (destruct E as [<-|E]; [reflexivity|]); destruct E.
Qed.

Lemma parse_tag_tree c t : tag_tree (class_words c) t ->
  parse_tag c (tag_word t) = if str_in (g_word t) (class_words c) then Ok (tag_reading t) else Err ValueError.
Proof.
  intros (_ & (p & Hp & S) & V). destruct t as [o w x]. cbn [g_word g_value] in *.
  unfold tag_word, tag_reading. cbn [g_word g_value].
  fold (value_text x). rewrite (parse_tag_eq c w x); auto; [|apply (spells_letters w p); auto; now apply class_all in Hp].
  destruct (str_in w (class_words c)) eqn:E.
  - apply str_in_iff in E. now apply tag_new_word.
  - apply (tag_new_cased c w p); auto. intros H. apply str_in_iff in H. congruence.
Qed.

(** ** Release and local *)

Lemma split_on_app a w r : Forall (fun c => (c =? a)%N = false) w ->
  split_on a (w ++ r) = match split_on a r with x :: xs => (w ++ x) :: xs | [] => [w] end.
Proof.
  induction 1 as [|c w H F IH]; cbn [split_on app].
  - destruct r as [|c r]; cbn [split_on]; auto. destruct (c =? a)%N; auto. now destruct (split_on a r).
  - rewrite H, IH. now destruct (split_on a r).
Qed.

Lemma split_on_cons a ws : forall w, Forall (fun c => (c =? a)%N = false) w -> Forall (Forall (fun c => (c =? a)%N = false)) ws ->
  split_on a (w ++ List.concat (map (cons a) ws)) = w :: ws.
Proof.
  induction ws as [|x ws IH]; intros w H F; rewrite split_on_app by auto.
  - cbn. now rewrite app_nil_r.
  - cbn [map List.concat app split_on]. rewrite N.eqb_refl. inversion F; subst. rewrite IH by auto. now rewrite app_nil_r.
Qed.

Lemma mapM_ok {A B} (f : A -> result B) g xs : (forall x, In x xs -> f x = Ok (g x)) -> mapM f xs = Ok (map g xs).
Proof.
  induction xs as [|x xs IH]; intros H; cbn; auto. rewrite H by (cbn; auto). cbn. rewrite IH by (intros; apply H; cbn; auto). reflexivity.
Qed.

Lemma release_reading first more : digits first -> Forall digits more ->
  rel_from_string (release_text first more) = Ok (map number (first :: more)).
Proof.
  intros F M. unfold rel_from_string, release_text.
  assert (X : forall d, digits d -> Forall (fun c => (c =? 46)%N = false) d).
  { intros d [_ H]. eapply Forall_impl; [|exact H]. intros c Hc. unfold digit in Hc. apply N.eqb_neq. lia. }
  rewrite split_on_cons; [|now apply X|eapply Forall_impl; [apply X|exact M]].
  rewrite (mapM_ok py_int number); [reflexivity|]. intros x [<-|H]; apply py_int_digits; auto. rewrite Forall_forall in M. auto.
Qed.

Lemma part_of w : alphanumeric w -> local_part_of w = Ok (part_reading w).
Proof.
  intros [N F]. unfold local_part_of, part_reading, check_int. change (fun c => (48 <=? c) && (c <=? 57))%N with is_digit.
  assert (E : match w with [] => false | _ => forallb is_digit w end = forallb is_digit w) by now destruct w.
  destruct (forallb is_digit w) eqn:B.
  - rewrite E. rewrite py_int_digits; auto. split; auto. rewrite forallb_forall in B. apply Forall_forall. intros c H. now apply digit_iff, B.
  - now rewrite E.
Qed.

Lemma local_reading l : local_tree l -> local_from_string (local_text l) = Ok (map part_reading (fst l :: map snd (snd l))).
Proof.
  destruct l as [w xs]. unfold local_tree. cbn [fst snd]. intros [W F]. unfold local_from_string, split_separators, local_text. cbn [fst snd].
  set (g := fun c => if (c =? 45)%N || (c =? 95)%N then 46%N else c).
  assert (A : forall w, alphanumeric w -> map g w = w /\ Forall (fun c => (c =? 46)%N = false) w).
  { intros u [_ H]. assert (Z : forall c, digit c \/ letter c -> is_sep c = false).
    { intros c [Hc|Hc]; [apply digit_iff, digit_char in Hc as [Hc _]; auto|].
      apply letter_iff, alpha_not in Hc. tauto. }
    clear - H Z. induction H as [|c u Hc H [IH1 IH2]]; cbn [map]; [split; auto|].
    apply Z in Hc. unfold is_sep in Hc. rewrite !orb_false_iff in Hc. destruct Hc as [[H1 H2] H3].
    split; [|constructor; auto]. rewrite IH1. unfold g. now rewrite H2, H3. }
  rewrite map_app, concat_map, map_map. destruct (A w W) as [A1 A2]. rewrite A1.
  assert (M : map (fun x : N * pstr => map g (fst x :: snd x)) xs = map (cons 46%N) (map snd xs)).
  { rewrite map_map. apply map_ext_in. intros [c u] H. rewrite Forall_forall in F. destruct (F _ H) as [S U]. cbn [map fst snd] in *.
    destruct (A u U) as [-> _]. f_equal. unfold separator in S. unfold g. destruct S as [-> | [-> | ->]]; reflexivity. }
  cbn beta. match goal with |- context[List.concat ?a] => replace a with (map (cons 46%N) (map snd xs)) by (symmetry; exact M) end. rewrite split_on_cons; auto.
  - rewrite (mapM_ok local_part_of part_reading); [reflexivity|]. intros x [<-|H]; apply part_of; auto.
    apply in_map_iff in H as (y & <- & H). rewrite Forall_forall in F. now apply F.
  - apply Forall_map. eapply Forall_impl; [|exact F]. intros [c u] [_ U]. now apply A.
Qed.

(** ** Versions *)

Definition lower_caseb (t : gversion) : bool :=
  match g_pre t with None => true | Some u => str_in (g_word u) pre_words end
  && match g_post t with Some (Explicit u) => str_in (g_word u) post_words | _ => true end
  && match g_dev t with None => true | Some u => str_in (g_word u) dev_words end.

Lemma lower_case_iff t : lower_caseb t = true <-> lower_case t.
Proof.
  unfold lower_caseb, lower_case, lower_tag. rewrite !andb_true_iff.
  destruct (g_pre t), (g_post t) as [[]|], (g_dev t); cbn [opt]; rewrite ?str_in_iff; tauto.
Qed.

Lemma get_epoch t : get_group G_EPOCH (all_caps t) = g_epoch t.
Proof. unfold all_caps, public_caps, pre_caps, dev_caps, post_caps, tag_caps. destruct t as [v [e|] f m [[o w [x|]]|] [[d|[o2 w2 [x2|]]]|] [[o3 w3 [x3|]]|] [l|]]; reflexivity. Qed.
Lemma get_release t : get_group G_RELEASE (all_caps t) = Some (release_text (g_first t) (g_more t)).
Proof. unfold all_caps, public_caps, pre_caps, dev_caps, post_caps, tag_caps. destruct t as [v [e|] f m [[o w [x|]]|] [[d|[o2 w2 [x2|]]]|] [[o3 w3 [x3|]]|] [l|]]; reflexivity. Qed.
Lemma get_pre t : get_group G_PRE (all_caps t) = option_map tag_word (g_pre t).
Proof. unfold all_caps, public_caps, pre_caps, dev_caps, post_caps, tag_caps. destruct t as [v [e|] f m [[o w [x|]]|] [[d|[o2 w2 [x2|]]]|] [[o3 w3 [x3|]]|] [l|]]; reflexivity. Qed.
Lemma get_implicit t : get_group G_POST_IMPLICIT (all_caps t) = match g_post t with Some (Implicit d) => Some d | _ => None end.
Proof. unfold all_caps, public_caps, pre_caps, dev_caps, post_caps, tag_caps. destruct t as [v [e|] f m [[o w [x|]]|] [[d|[o2 w2 [x2|]]]|] [[o3 w3 [x3|]]|] [l|]]; reflexivity. Qed.
Lemma get_post t : get_group G_POST (all_caps t) = match g_post t with Some (Explicit u) => Some (tag_word u) | _ => None end.
Proof. unfold all_caps, public_caps, pre_caps, dev_caps, post_caps, tag_caps. destruct t as [v [e|] f m [[o w [x|]]|] [[d|[o2 w2 [x2|]]]|] [[o3 w3 [x3|]]|] [l|]]; reflexivity. Qed.
Lemma get_dev t : get_group G_DEV (all_caps t) = option_map tag_word (g_dev t).
Proof. unfold all_caps, public_caps, pre_caps, dev_caps, post_caps, tag_caps. destruct t as [v [e|] f m [[o w [x|]]|] [[d|[o2 w2 [x2|]]]|] [[o3 w3 [x3|]]|] [l|]]; reflexivity. Qed.
Lemma get_local t : get_group G_LOCAL (all_caps t) = option_map local_text (g_local t).
Proof. unfold all_caps, public_caps, pre_caps, dev_caps, post_caps, tag_caps. destruct t as [v [e|] f m [[o w [x|]]|] [[d|[o2 w2 [x2|]]]|] [[o3 w3 [x3|]]|] [l|]]; reflexivity. Qed.

Lemma parse_tag_optional_tree c o : opt (tag_tree (class_words c)) o ->
  parse_tag_optional c (option_map tag_word o) =
    if match o with None => true | Some u => str_in (g_word u) (class_words c) end then Ok (option_map tag_reading o) else Err ValueError.
Proof.
  destruct o as [t|]; intros T; [|reflexivity]. cbn [opt] in T. unfold parse_tag_optional. cbn [option_map mapO].
  rewrite parse_tag_tree by auto. now destruct (str_in (g_word t) (class_words c)).
Qed.

Theorem parse_tree t : tree t -> parse_version (text t) = if lower_caseb t then Ok (reading t) else Err ValueError.
Proof.
  intros T. unfold parse_version. rewrite fullmatch_version by auto.
  rewrite get_epoch, get_release, get_pre, get_implicit, get_post, get_dev, get_local.
  destruct T as (_ & E & F & M & P & Q & G & L & _).
  unfold parse_release_optional. rewrite release_reading by auto.
  assert (X1 : parse_epoch_optional (g_epoch t) = Ok match g_epoch t with None => 0 | Some d => number d end).
  { destruct (g_epoch t); cbn; auto. now apply py_int_digits. }
  rewrite X1. cbn [bind]. rewrite (parse_tag_optional_tree PreTag), (parse_tag_optional_tree DevTag) by auto.
  assert (X2 : parse_local_optional (option_map local_text (g_local t)) = Ok (option_map (fun l => map part_reading (fst l :: map snd (snd l))) (g_local t))).
  { destruct (g_local t) as [l|]; auto. unfold parse_local_optional. cbn [option_map mapO]. now rewrite local_reading. }
  rewrite X2. unfold lower_caseb, reading. cbn [class_words].
  destruct (match g_pre t with None => true | Some u => str_in (g_word u) pre_words end); [|reflexivity]. cbn [bind andb].
  assert (X3 : bind (parse_post_implicit_optional match g_post t with Some (Implicit d) => Some d | _ => None end)
      (fun imp => match imp with Some u => Ok (Some u) | None => parse_tag_optional PostTag match g_post t with Some (Explicit u) => Some (tag_word u) | _ => None end end)
    = if match g_post t with Some (Explicit u) => str_in (g_word u) post_words | _ => true end then Ok (option_map post_reading (g_post t)) else Err ValueError).
  { destruct (g_post t) as [[d|u]|]; cbn [opt post_tree] in Q.
    - unfold parse_post_implicit_optional. cbn [mapO]. rewrite py_int_digits by auto. reflexivity.
    - cbn [parse_post_implicit_optional mapO bind]. apply (parse_tag_optional_tree PostTag (Some u)). exact Q.
    - reflexivity. }
  destruct (match g_post t with Some (Explicit u) => str_in (g_word u) post_words | _ => true end);
  destruct (parse_post_implicit_optional _) as [[i|]|]; cbn [bind] in *; try discriminate.
  - injection X3 as X3. rewrite <- X3. cbn [andb]. destruct (match g_dev t with None => true | Some u => str_in (g_word u) dev_words end); reflexivity.
  - rewrite X3. cbn [andb bind]. destruct (match g_dev t with None => true | Some u => str_in (g_word u) dev_words end); reflexivity.
  - rewrite X3. reflexivity.
  - injection X3 as ->. reflexivity.
Qed.

Theorem parse_no_tree s : (~ exists t, tree t /\ text t = s) -> parse_version s = Err ParseVersionError.
Proof. intros H. apply fullmatch_version_none in H. unfold parse_version. now rewrite H. Qed.
