(** Round trips, well-formedness and spelling variants. *)

From Coq Require Import List ZArith NArith String Bool Arith Lia.
From Verif Require Import Py Segments Version VersionSets Operators Specifiers Regex Patterns Parsers Orders Grammar Spec
  RegexFacts Unambiguous VersionRegex ParseFacts.
Import ListNotations.
Open Scope Z_scope.

(** ** Outcomes *)

Lemma parse_ok s v : parse_version s = Ok v <-> exists t, tree t /\ lower_case t /\ text t = s /\ reading t = v.
Proof.
  split.
  - intros H. destruct (fullmatch VERSION s) eqn:E.
    + apply fullmatch_version_sound in E as (t & T & <- & _). rewrite parse_tree in H by auto.
      destruct (lower_caseb t) eqn:L; [|discriminate]. injection H as <-. exists t. apply lower_case_iff in L. auto.
    + unfold parse_version in H. now rewrite E in H.
  - intros (t & T & L & <- & <-). rewrite parse_tree by auto. apply lower_case_iff in L. now rewrite L.
Qed.

Lemma parse_err s e : parse_version s = Err e <->
  (e = ParseVersionError /\ ~ exists t, tree t /\ text t = s) \/ (e = ValueError /\ exists t, tree t /\ ~ lower_case t /\ text t = s).
Proof.
  split.
  - intros H. destruct (fullmatch VERSION s) eqn:E.
    + apply fullmatch_version_sound in E as (t & T & <- & _). rewrite parse_tree in H by auto.
      destruct (lower_caseb t) eqn:L; [discriminate|]. injection H as <-. right. split; auto. exists t. split; auto. split; auto.
      intros X. apply lower_case_iff in X. congruence.
    + left. unfold parse_version in H. rewrite E in H. injection H as <-. split; auto. now apply fullmatch_version_none.
  - intros [[-> H]|[-> (t & T & L & <-)]].
    + now apply parse_no_tree.
    + rewrite parse_tree by auto. destruct (lower_caseb t) eqn:X; auto. apply lower_case_iff in X. contradiction.
Qed.

(** ** Parsed versions *)

Lemma long_form_valid c w n : In w (class_words c) -> 0 <= n -> wf_tag c (Tag (long_form w) n).
Proof.
  intros H N. split; auto. destruct c; cbn in H; repeat (destruct H as [<-|H]; [reflexivity|]); destruct H.
Qed.

Lemma value_nonneg x : value_tree x -> 0 <= value_reading x.
Proof. destruct x as [[o d]|]; cbn; [|lia]. intros [_ [_ F]]. now apply number_nonneg. Qed.

Lemma tag_reading_wf c t : tag_tree (class_words c) t -> lower_tag (class_words c) t -> wf_tag c (tag_reading t).
Proof. intros (_ & _ & V) L. apply long_form_valid; auto. exact (value_nonneg _ V). Qed.

Lemma part_reading_wf w : alphanumeric w -> wf_part (part_reading w).
Proof.
  intros [N F]. unfold part_reading. change (fun c => (48 <=? c) && (c <=? 57))%N with is_digit.
  destruct (forallb is_digit w) eqn:B; cbn.
  - apply number_nonneg. rewrite forallb_forall in B. apply Forall_forall. intros c H. now apply digit_iff, B.
  - rewrite forallb_forall, existsb_exists. split.
    + intros c H. rewrite Forall_forall in F. apply F in H. unfold is_alnum. apply orb_true_iff. rewrite digit_iff, letter_iff. tauto.
    + assert (X : exists c, In c w /\ is_digit c = false).
      { clear - B. induction w as [|c w IH]; [discriminate|]. cbn in B. destruct (is_digit c) eqn:E; [|exists c; cbn; auto].
        destruct (IH B) as (d & H & Hd). exists d. cbn. auto. }
      destruct X as (c & H & E). exists c. split; auto. rewrite Forall_forall in F. apply F in H as [H|H]; [apply digit_iff in H; congruence|].
      now apply letter_iff.
Qed.

Lemma reading_wf t : tree t -> lower_case t -> wf (reading t).
Proof.
  intros (_ & E & F & M & P & Q & G & L & _) (LP & LQ & LG).
  assert (NN : forall d, digits d -> 0 <= number d) by (intros d [_ H]; now apply number_nonneg).
  unfold wf, reading, nonneg_release. cbn [v_epoch v_release v_pre v_post v_dev v_local].
  split; [destruct (g_epoch t); auto; lia|]. split; [discriminate|]. split; [|split; [|split; [|split]]].
  - apply Forall_map. constructor; auto. eapply Forall_impl; [|exact M]. auto.
  - destruct (g_pre t) as [u|]; cbn; auto. now apply (tag_reading_wf PreTag).
  - destruct (g_post t) as [[d|u]|]; cbn; auto.
    + split; [reflexivity|]. apply NN. exact Q.
    + now apply (tag_reading_wf PostTag).
  - destruct (g_dev t) as [u|]; cbn; auto. now apply (tag_reading_wf DevTag).
  - destruct (g_local t) as [l|]; cbn; auto. split; [discriminate|]. destruct L as [L1 L2]. constructor; [now apply part_reading_wf|].
    rewrite map_map. apply Forall_map. eapply Forall_impl; [|exact L2]. intros x [_ X]. now apply part_reading_wf.
Qed.

Lemma parse_wf s v : parse_version s = Ok v -> wf v.
Proof. intros H. apply parse_ok in H as (t & T & L & _ & <-). now apply reading_wf. Qed.

(** ** Writing and reading back *)

Definition phases (c : tag_class) : list pstr :=
  match c with
  | AnyTag => []
  | PreTag => map lit ["alpha"; "beta"; "candidate"; "rc"; "preview"]%string
  | PostTag => map lit ["post"; "rev"]%string
  | DevTag => map lit ["dev"]%string
  end.

Lemma wf_phase c t : wf_tag c t -> c <> AnyTag -> In (phase t) (phases c).
Proof.
  intros [V _] N. unfold valid_tag in V. apply andb_true_iff in V as [V1 V2]. apply str_in_iff in V1.
  destruct t as [p n]. cbn [phase] in *. destruct c; [congruence|..]; cbn in V1;
    repeat (destruct V1 as [<-|V1]; [try discriminate V2; cbn; tauto|]); destruct V1.
Qed.

Definition v_int (z : Z) : option pstr := if z =? 0 then None else Some (str_int z).

Definition part_text (p : local_part) : pstr := local_part_str p.

Definition vtree (pre : option gtag) (post : option gpost) (dev : option gtag) (v : version) : gversion :=
  GVersion None (v_int (v_epoch v)) (str_int (hd 0 (v_release v))) (map str_int (tl (v_release v))) pre post dev
    match v_local v with
    | Some (p :: l) => Some (part_text p, map (fun p => (46%N, part_text p)) l)
    | _ => None
    end.

Definition long_tag (t : tag) : gtag := GTag (Some 45%N) (phase t) (Some (Some 46%N, str_int (value t))).
Definition short_tag (o : option N) (t : tag) : gtag := GTag o (tag_short t) (Some (None, str_int (value t))).

Definition long_tree (v : version) : gversion :=
  vtree (option_map long_tag (v_pre v)) (option_map (fun t => Explicit (long_tag t)) (v_post v)) (option_map long_tag (v_dev v)) v.
Definition short_tree (v : version) : gversion :=
  vtree (option_map (short_tag None) (v_pre v)) (option_map (fun t => Explicit (short_tag (Some 46%N) t)) (v_post v))
    (option_map (short_tag (Some 46%N)) (v_dev v)) v.

Lemma join_concat s w ws : join [s] (w :: ws) = w ++ List.concat (map (cons s) ws).
Proof.
  revert w. induction ws as [|x ws IH]; intros w; cbn [map List.concat]; [cbn; now rewrite app_nil_r|].
  change (w ++ [s] ++ join [s] (x :: ws) = w ++ (s :: x) ++ List.concat (map (cons s) ws)). rewrite IH. reflexivity.
Qed.

Lemma vtree_text pre post dev v : v_release v <> [] -> v_local v <> Some [] ->
  text (vtree pre post dev v) =
    (if v_epoch v =? 0 then [] else str_int (v_epoch v) ++ lit "!") ++ rel_to_string (v_release v)
    ++ spell tag_text pre ++ spell post_text post ++ spell tag_text dev
    ++ match v_local v with None => [] | Some l => lit "+" ++ local_to_string l end.
Proof.
  intros R L. unfold text, public_text, vtree. cbn [g_v g_epoch g_first g_more g_pre g_post g_dev g_local one app].
  rewrite <- !app_assoc. f_equal.
  { unfold v_int. destruct (v_epoch v =? 0); reflexivity. }
  f_equal.
  { unfold rel_to_string, release_text. destruct (v_release v) as [|x r]; [congruence|]. cbn [hd tl map]. symmetry. apply (join_concat 46%N). }
  do 3 f_equal. destruct (v_local v) as [[|p l]|]; [congruence| |reflexivity]. cbn [spell lit]. unfold local_to_string, local_text. cbn [fst snd map].
  change (lit ".") with [46%N]. rewrite join_concat, !map_map. reflexivity.
Qed.

Lemma wf_local_some v : wf v -> v_local v <> Some [].
Proof. intros (_ & _ & _ & _ & _ & _ & L) E. rewrite E in L. now destruct L. Qed.

Lemma long_text v : wf v -> text (long_tree v) = to_string v.
Proof.
  intros W. unfold long_tree. rewrite vtree_text by (apply W || now apply wf_local_some). unfold to_string.
  destruct (v_pre v), (v_post v), (v_dev v); reflexivity.
Qed.

Lemma short_text v : wf v -> text (short_tree v) = to_short_string v.
Proof.
  intros W. unfold short_tree. rewrite vtree_text by (apply W || now apply wf_local_some). unfold to_short_string.
  destruct (v_pre v), (v_post v), (v_dev v); reflexivity.
Qed.

Lemma part_text_ok p : wf_part p -> alphanumeric (part_text p) /\ part_reading (part_text p) = p.
Proof.
  destruct p as [z|s]; cbn [wf_part part_text local_part_str].
  - intros H. destruct (str_int_digits z H) as [[N F] E]. split.
    + split; auto. eapply Forall_impl; [|exact F]. auto.
    + unfold part_reading. change (fun c => (48 <=? c) && (c <=? 57))%N with is_digit.
      replace (forallb is_digit (str_int z)) with true; [now rewrite E|]. symmetry. apply forallb_forall.
      rewrite Forall_forall in F. intros c Hc. now apply digit_iff, F.
  - intros [H1 H2]. rewrite forallb_forall in H1. apply existsb_exists in H2 as (c & Hc & A). split.
    + split; [intros ->; destruct Hc|]. apply Forall_forall. intros x Hx. apply H1 in Hx. unfold is_alnum in Hx.
      apply orb_true_iff in Hx as [Hx|Hx]; [right; now apply letter_iff|left; now apply digit_iff].
    + unfold part_reading. change (fun c => (48 <=? c) && (c <=? 57))%N with is_digit.
      destruct (forallb is_digit s) eqn:E; auto. rewrite forallb_forall in E. apply E in Hc. apply alpha_not in A as [A _]. congruence.
Qed.

Lemma vtree_ok pre post dev v : wf v ->
  opt (tag_tree pre_words) pre -> opt post_tree post -> opt (tag_tree dev_words) dev -> 
  opt (fun p => match p with Implicit _ => False | Explicit _ => True end) post ->
  option_map tag_reading pre = v_pre v -> option_map post_reading post = v_post v -> option_map tag_reading dev = v_dev v ->
  tree (vtree pre post dev v) /\ reading (vtree pre post dev v) = v.
Proof.
  intros (E & R & NR & _ & _ & _ & L) P Q G X E1 E2 E3.
  assert (IR : Forall digits (map str_int (v_release v)) /\ map number (map str_int (v_release v)) = v_release v).
  { clear - NR. unfold nonneg_release in NR. induction NR as [|x r H _ [IH1 IH2]]; [split; constructor|]. destruct (str_int_digits x H) as [S1 S2].
    cbn [map]. split; [constructor; auto|]. now rewrite S2, IH2. }
  destruct IR as [IR1 IR2]. split.
  - unfold tree, vtree. cbn [g_v g_epoch g_first g_more g_pre g_post g_dev g_local opt]. split; [exact I|]. split.
    { unfold v_int. destruct (v_epoch v =? 0); cbn; auto. now apply str_int_digits. }
    destruct (v_release v) as [|x r]; [congruence|]. inversion IR1; subst. cbn [hd tl]. split; auto. split; auto. split; auto. split; auto. split; auto.
    split.
    + destruct (v_local v) as [[|p l]|]; cbn; auto. destruct L as [_ L]. inversion L as [|? ? L1 L2]; subst. split; [now apply part_text_ok|].
      apply Forall_map. eapply Forall_impl; [|exact L2]. cbn. intros q Hq. split; [now left|now apply part_text_ok].
    + unfold greedy. cbn [g_pre g_post]. destruct pre; auto. destruct post as [[|]|]; auto; destruct X.
  - unfold reading, vtree. cbn [g_v g_epoch g_first g_more g_pre g_post g_dev g_local].
    rewrite E1, E2, E3. destruct v as [e r a p d l]. cbn [v_epoch v_release v_pre v_post v_dev v_local] in *. f_equal.
    + unfold v_int. destruct (e =? 0) eqn:Z; [apply Z.eqb_eq in Z; auto|]. now apply str_int_digits.
    + destruct r; [congruence|]. cbn [hd tl]. exact IR2.
    + destruct l as [[|q l]|]; auto; [now destruct L|]. destruct L as [_ L]. cbn [option_map fst snd]. f_equal.
      rewrite map_map. cbn [snd]. inversion L as [|? ? L1 L2]; subst. cbn [map]. f_equal; [now apply part_text_ok|].
      rewrite map_map. clear - L2. induction L2 as [|y l H _ IH]; auto. cbn [map]. now rewrite IH, (proj2 (part_text_ok y H)).
Qed.

Lemma digits_value z : 0 <= z -> digits (str_int z).
Proof. apply str_int_digits. Qed.

Lemma self_spells c p : In p (class_words c) -> spells p p.
Proof. intros _. unfold spells. induction p; constructor; auto. now left. Qed.

Lemma short_tag_ok c o t : c <> AnyTag -> opt separator o -> wf_tag c t ->
  tag_tree (class_words c) (short_tag o t) /\ lower_tag (class_words c) (short_tag o t) /\ tag_reading (short_tag o t) = t.
Proof.
  intros C O W. pose proof (wf_phase c t W C) as P. destruct W as [_ V]. destruct (str_int_digits _ V) as [V1 V2].
  assert (X : In (tag_short t) (class_words c) /\ long_form (tag_short t) = phase t).
  { unfold tag_short. destruct t as [p n]. cbn [phase value] in *.
    destruct c; [congruence|..]; cbn in P; repeat (destruct P as [<-|P]; [split; [cbn; tauto|reflexivity]|]); destruct P. }
  destruct X as [X1 X2]. split; [|split].
  - split; auto. split; [exists (tag_short t); split; auto; now apply (self_spells c)|]. cbn. auto.
  - exact X1.
  - unfold tag_reading, short_tag. cbn [g_word g_value]. rewrite X2, V2. now destruct t.
Qed.

Lemma long_tag_ok c t : c <> AnyTag -> phase t <> lit "candidate" -> wf_tag c t ->
  tag_tree (class_words c) (long_tag t) /\ lower_tag (class_words c) (long_tag t) /\ tag_reading (long_tag t) = t.
Proof.
  intros C NC W. pose proof (wf_phase c t W C) as P. destruct W as [_ V]. destruct (str_int_digits _ V) as [V1 V2].
  assert (X : In (phase t) (class_words c) /\ long_form (phase t) = phase t).
  { destruct t as [p n]. cbn [phase value] in *.
    destruct c; [congruence|..]; cbn in P; repeat (destruct P as [<-|P]; [first [exfalso; now apply NC | split; [cbn; tauto|reflexivity]]|]); destruct P. }
  destruct X as [X1 X2]. split; [|split].
  - split; [right; now left|]. split; [exists (phase t); split; auto; now apply (self_spells c)|]. cbn. split; auto. now left.
  - exact X1.
  - unfold tag_reading, long_tag. cbn [g_word g_value]. rewrite X2, V2. now destruct t.
Qed.

Lemma short_tree_ok v : wf v -> tree (short_tree v) /\ lower_case (short_tree v) /\ text (short_tree v) = to_short_string v /\ reading (short_tree v) = v.
Proof.
  intros W. pose proof W as (_ & _ & _ & P & Q & G & _).
  assert (A : opt (tag_tree pre_words) (option_map (short_tag None) (v_pre v)) /\ opt (lower_tag pre_words) (option_map (short_tag None) (v_pre v)) /\ option_map tag_reading (option_map (short_tag None) (v_pre v)) = v_pre v).
  { destruct (v_pre v) as [t|]; cbn [opt option_map]; auto. destruct (short_tag_ok PreTag None t) as (A & B & C); [discriminate|exact I|exact P|]. rewrite C. split; [assumption|]. split; [assumption|reflexivity]. }
  assert (B : opt (tag_tree post_words) (option_map (short_tag (Some 46%N)) (v_post v)) /\ opt (lower_tag post_words) (option_map (short_tag (Some 46%N)) (v_post v)) /\ option_map tag_reading (option_map (short_tag (Some 46%N)) (v_post v)) = v_post v).
  { destruct (v_post v) as [t|]; cbn [opt option_map]; auto. destruct (short_tag_ok PostTag (Some 46%N) t) as (A1 & B & C); [discriminate|now left|exact Q|]. rewrite C. split; [assumption|]. split; [assumption|reflexivity]. }
  assert (C : opt (tag_tree dev_words) (option_map (short_tag (Some 46%N)) (v_dev v)) /\ opt (lower_tag dev_words) (option_map (short_tag (Some 46%N)) (v_dev v)) /\ option_map tag_reading (option_map (short_tag (Some 46%N)) (v_dev v)) = v_dev v).
  { destruct (v_dev v) as [t|]; cbn [opt option_map]; auto. destruct (short_tag_ok DevTag (Some 46%N) t) as (A1 & B1 & C); [discriminate|now left|exact G|]. rewrite C. split; [assumption|]. split; [assumption|reflexivity]. }
  destruct A as (A1 & A2 & A3), B as (B1 & B2 & B3), C as (C1 & C2 & C3).
  destruct (vtree_ok (option_map (short_tag None) (v_pre v)) (option_map (fun t => Explicit (short_tag (Some 46%N) t)) (v_post v)) (option_map (short_tag (Some 46%N)) (v_dev v)) v) as [T R]; auto.
  - destruct (v_post v); exact B1.
  - destruct (v_post v); exact I.
  - destruct (v_post v); exact B3.
  - split; [exact T|]. split; [|split; [now apply short_text|exact R]].
    unfold lower_case, short_tree, vtree. cbn [g_pre g_post g_dev]. split; auto. split; auto. destruct (v_post v); auto.
Qed.

Lemma parse_short v : wf v -> parse_version (to_short_string v) = Ok v.
Proof.
  intros. apply parse_ok. exists (short_tree v). now apply short_tree_ok.
Qed.

Definition candidate (v : version) : bool := match v_pre v with Some t => str_eqb (phase t) (lit "candidate") | None => false end.

Lemma candidate_iff v : candidate v = true <-> exists u, v_pre v = Some u /\ phase u = lit "candidate".
Proof.
  unfold candidate. destruct (v_pre v) as [u|]; [|split; [discriminate|intros (u & [=] & _)]]. rewrite str_eqb_eq. split; [eauto|]. now intros (x & [= <-] & E).
Qed.

Lemma long_tree_ok v : wf v -> candidate v = false -> tree (long_tree v) /\ lower_case (long_tree v) /\ text (long_tree v) = to_string v /\ reading (long_tree v) = v.
Proof.
  intros W NC. pose proof W as (_ & _ & _ & P & Q & G & _).
  assert (A : opt (tag_tree pre_words) (option_map long_tag (v_pre v)) /\ opt (lower_tag pre_words) (option_map long_tag (v_pre v)) /\ option_map tag_reading (option_map long_tag (v_pre v)) = v_pre v).
  { unfold candidate in NC. destruct (v_pre v) as [t|]; cbn [opt option_map]; auto. destruct (long_tag_ok PreTag t) as (A & B & C); [discriminate| |exact P|].
    - intros E. rewrite E, str_eqb_refl in NC. discriminate.
    - rewrite C. split; [assumption|]. split; [assumption|reflexivity]. }
  assert (B : opt (tag_tree post_words) (option_map long_tag (v_post v)) /\ opt (lower_tag post_words) (option_map long_tag (v_post v)) /\ option_map tag_reading (option_map long_tag (v_post v)) = v_post v).
  { destruct (v_post v) as [t|]; cbn [opt option_map]; auto. destruct (long_tag_ok PostTag t) as (A1 & B & C); [discriminate| |exact Q|].
    - intros E. apply (wf_phase PostTag) in Q; [|discriminate]. cbn in Q. rewrite E in Q. destruct Q as [Q|[Q|[]]]; discriminate.
    - rewrite C. split; [assumption|]. split; [assumption|reflexivity]. }
  assert (C : opt (tag_tree dev_words) (option_map long_tag (v_dev v)) /\ opt (lower_tag dev_words) (option_map long_tag (v_dev v)) /\ option_map tag_reading (option_map long_tag (v_dev v)) = v_dev v).
  { destruct (v_dev v) as [t|]; cbn [opt option_map]; auto. destruct (long_tag_ok DevTag t) as (A1 & B1 & C); [discriminate| |exact G|].
    - intros E. apply (wf_phase DevTag) in G; [|discriminate]. cbn in G. rewrite E in G. destruct G as [G|[]]; discriminate.
    - rewrite C. split; [assumption|]. split; [assumption|reflexivity]. }
  destruct A as (A1 & A2 & A3), B as (B1 & B2 & B3), C as (C1 & C2 & C3).
  destruct (vtree_ok (option_map long_tag (v_pre v)) (option_map (fun t => Explicit (long_tag t)) (v_post v)) (option_map long_tag (v_dev v)) v) as [T R]; auto.
  - destruct (v_post v); exact B1.
  - destruct (v_post v); exact I.
  - destruct (v_post v); exact B3.
  - split; [exact T|]. split; [|split; [now apply long_text|exact R]].
    unfold lower_case, long_tree, vtree. cbn [g_pre g_post g_dev]. split; auto. split; auto. destruct (v_post v); auto.
Qed.

Lemma parse_long v : wf v -> candidate v = false -> parse_version (to_string v) = Ok v.
Proof.
  intros. apply parse_ok. exists (long_tree v). now apply long_tree_ok.
Qed.

(** ** Candidates *)

Definition plain (c : N) : bool := negb ((lower c =? 110) || (lower c =? 120) || (c =? 42) || (c =? 43))%N.

Lemma plain_digits d : digits d -> forallb plain d = true.
Proof.
  intros [_ F]. apply forallb_forall. rewrite Forall_forall in F. intros c H. apply F in H. apply digit_iff, digit_char in H as (_ & E & R).
  unfold plain. rewrite E. rewrite negb_true_iff, !orb_false_iff, !N.eqb_neq. lia.
Qed.

Lemma plain_sep o : opt separator o -> forallb plain (one o) = true.
Proof. destruct o as [c|]; cbn; auto. intros [-> | [-> | ->]]; reflexivity. Qed.

Lemma plain_word ws w p : In ws [pre_words; post_words; dev_words] -> In p ws -> spells w p -> forallb plain w = true.
Proof.
  intros Hws Hp S. pose proof (in_all_words ws p Hws Hp) as A. destruct (words_letters p A) as [L _].
  assert (N : Forall (fun a => a <> 110%N /\ a <> 120%N) p).
  { clear - A. apply Forall_forall. intros a Ha. cbn in A. repeat (destruct A as [<-|A]; [cbn in Ha; repeat (destruct Ha as [<-|Ha]; [split; discriminate|]); destruct Ha|]). destruct A. }
  clear - S L N. induction S as [|c a w p F S IH]; auto. inversion L; inversion N; subst. cbn [forallb]. rewrite IH by auto.
  apply folds_iff in F; auto. rewrite andb_true_r. unfold plain. rewrite F, negb_true_iff, !orb_false_iff, !N.eqb_neq.
  repeat split; try tauto; intros ->; [change (lower 42) with 42%N in F|change (lower 43) with 43%N in F]; lia.
Qed.

Lemma plain_tag ws t : In ws [pre_words; post_words; dev_words] -> tag_tree ws t -> forallb plain (tag_text t) = true.
Proof.
  intros Hws (O & (p & Hp & S) & V). unfold tag_text, tag_word. rewrite !forallb_app, plain_sep, (plain_word ws _ p) by auto.
  destruct (g_value t) as [[o d]|]; cbn [spell fst snd]; auto. destruct V as [V1 V2]. now rewrite forallb_app, plain_sep, plain_digits.
Qed.

Lemma plain_public t : loose t -> forallb plain (public_text t) = true.
Proof.
  intros (V & E & F & M & P & Q & G & _). unfold public_text, release_text. rewrite !forallb_app.
  repeat (apply andb_true_iff; split).
  - destruct (g_v t) as [c|]; auto. destruct V as [-> | ->]; reflexivity.
  - destruct (g_epoch t); auto. cbn [spell]. rewrite forallb_app, plain_digits; auto.
  - now apply plain_digits.
  - apply forallb_forall. intros c H. apply in_concat in H as (x & Hx & H). apply in_map_iff in Hx as (d & <- & Hd).
    destruct H as [<-|H]; [reflexivity|]. rewrite Forall_forall in M. apply M, plain_digits in Hd. rewrite forallb_forall in Hd. auto.
  - destruct (g_pre t); auto. apply (plain_tag pre_words); cbn; auto.
  - destruct (g_post t) as [[d|u]|]; auto; cbn [spell post_text].
    + change (plain 45%N && forallb plain d = true). rewrite plain_digits; auto.
    + apply (plain_tag post_words); cbn; auto.
  - destruct (g_dev t); auto. apply (plain_tag dev_words); cbn; auto.
Qed.

Lemma split_plus a : forall b x y, (forall c, In c a -> c <> 43%N) -> (forall c, In c b -> c <> 43%N) ->
  match x with [] => True | c :: _ => c = 43%N end -> match y with [] => True | c :: _ => c = 43%N end -> a ++ x = b ++ y -> a = b.
Proof.
  induction a as [|c a IH]; intros [|d b] x y A B X Y E; auto; cbn [app] in E.
  - subst x. subst d. exfalso. apply (B 43%N); cbn; auto.
  - subst y. subst c. exfalso. apply (A 43%N); cbn; auto.
  - injection E as <- E. f_equal. apply (IH b x y); auto; intros z Hz; [apply A|apply B]; cbn; auto.
Qed.

Lemma not_plus s : forallb plain s = true -> forall c, In c s -> c <> 43%N.
Proof. rewrite forallb_forall. intros H c Hc ->. now apply H in Hc. Qed.

Lemma parse_candidate v : wf v -> candidate v = true -> parse_version (to_string v) = Err ParseVersionError.
Proof.
  intros W C. apply parse_no_tree. intros (t & T & E). apply tree_loose in T as [T _].
  rewrite <- (long_text v W) in E. unfold text in E.
  assert (P : forallb plain (public_text t) = true) by now apply plain_public.
  destruct W as (WE & WR & WN & WP & WQ & WG & WL).
  unfold candidate in C. destruct (v_pre v) as [u|] eqn:V; [|discriminate]. apply str_eqb_eq in C.
  set (a := public_text (GVersion None (v_int (v_epoch v)) (str_int (hd 0 (v_release v))) (map str_int (tl (v_release v))) None None None None)).
  set (rest := spell post_text (option_map (fun t => Explicit (long_tag t)) (v_post v)) ++ spell tag_text (option_map long_tag (v_dev v))).
  assert (X : public_text (long_tree v) = a ++ lit "-candidate." ++ str_int (value u) ++ rest).
  { unfold a, rest, long_tree, vtree, public_text. rewrite V. cbn [g_v g_epoch g_first g_more g_pre g_post g_dev g_local spell option_map one app].
    rewrite !app_nil_r, <- !app_assoc. do 2 f_equal. unfold tag_text, tag_word, long_tag. cbn [g_sep g_word g_value one spell fst snd]. rewrite C.
    rewrite <- !app_assoc. reflexivity. }
  assert (NP : forall c, In c (public_text (long_tree v)) -> c <> 43%N).
  { assert (PI : forall d, digits d -> forall c, In c d -> c <> 43%N) by (intros d D; apply not_plus, plain_digits, D).
    assert (LT : forall t, 0 <= value t -> (forall c, In c (phase t) -> c <> 43%N) -> forall c, In c (tag_text (long_tag t)) -> c <> 43%N).
    { intros x V0 HP c. unfold tag_text, tag_word, long_tag. cbn [g_sep g_word g_value one spell fst snd]. rewrite !in_app_iff. cbn [In].
      intros [[<-|[]]|[H|[[<-|[]]|H]]]; try discriminate; auto. revert H. apply PI. now apply str_int_digits. }
    assert (PH : forall k x, k <> AnyTag -> wf_tag k x -> forall c, In c (phase x) -> c <> 43%N).
    { intros k x K W c. apply wf_phase in W; auto. destruct x as [p n]. cbn [phase] in *.
      destruct k; [congruence|..]; cbn in W; repeat (destruct W as [<-|W]; [intros H ->; cbn in H; repeat (destruct H as [H|H]; [discriminate|]); destruct H|]); destruct W. }
    intros c. unfold long_tree, vtree, public_text. cbn [g_v g_epoch g_first g_more g_pre g_post g_dev g_local]. rewrite !in_app_iff.
    intros [H|[H|[H|[H|[H|H]]]]].
    - destruct H.
    - unfold v_int in H. destruct (v_epoch v =? 0); [destruct H|]. cbn [spell] in H. apply in_app_iff in H as [H|[<-|[]]]; [|discriminate].
      revert H. apply PI. now apply str_int_digits.
    - assert (RD : Forall digits (map str_int (v_release v))).
      { apply Forall_map. eapply Forall_impl; [|exact WN]. intros z Hz. now apply str_int_digits. }
      unfold release_text in H. destruct (v_release v) as [|z r]; [congruence|]. inversion RD; subst. cbn [hd tl] in H. apply in_app_iff in H as [H|H].
      + revert H. now apply PI.
      + apply in_concat in H as (x & Hx & H). apply in_map_iff in Hx as (d & <- & Hd). destruct H as [<-|H]; [discriminate|].
        revert H. apply PI. match goal with H : Forall digits _ |- _ => rewrite Forall_forall in H; auto end.
    - rewrite V in H. cbn in H. revert H. cbn [wf_otag] in WP. apply LT; [apply WP|]. apply (PH PreTag); auto; discriminate.
    - destruct (v_post v) as [x|]; [|destruct H]. cbn [option_map spell post_text] in H. revert H. apply LT; [apply WQ|]. apply (PH PostTag); auto; discriminate.
    - destruct (v_dev v) as [x|]; [|destruct H]. cbn [option_map spell] in H. revert H. apply LT; [apply WG|]. apply (PH DevTag); auto; discriminate. }
  assert (Y : public_text t = public_text (long_tree v)).
  { eapply split_plus; [| | | |exact E]; auto; [now apply not_plus|destruct (g_local t); cbn; auto|].
    destruct (g_local (long_tree v)); cbn; auto. }
  rewrite Y, X, !forallb_app, !andb_true_iff in P. destruct P as (_ & P & _). discriminate P.
Qed.

(** ** Normal forms *)

Lemma normalize_tag c t : c <> AnyTag -> wf_tag c t -> tag_normalize c t = Ok (normal_tag t) /\ wf_tag c (normal_tag t)
  /\ normal_tag (normal_tag t) = normal_tag t.
Proof.
  intros C W. pose proof (wf_phase c t W C) as P. destruct W as [_ V]. destruct t as [p n]. cbn [phase value] in *.
  unfold wf_tag. destruct c; [congruence|..]; cbn in P;
    repeat (destruct P as [<-|P]; [split; [reflexivity|split; [split; [reflexivity|exact V]|reflexivity]]|]); destruct P.
Qed.

Lemma normalize_eq v : wf v -> normalize v = Ok (normal_version v) /\ wf (normal_version v) /\ normal_version (normal_version v) = normal_version v.
Proof.
  intros (E & R & N & P & Q & G & L). unfold normalize, normal_version.
  assert (A : mapO (tag_normalize PreTag) (v_pre v) = Ok (option_map normal_tag (v_pre v)) /\ wf_otag PreTag (option_map normal_tag (v_pre v)) /\ option_map normal_tag (option_map normal_tag (v_pre v)) = option_map normal_tag (v_pre v)).
  { destruct (v_pre v) as [t|]; cbn [mapO option_map wf_otag]; auto. destruct (normalize_tag PreTag t) as (-> & X & ->); auto. discriminate. }
  assert (B : mapO (tag_normalize PostTag) (v_post v) = Ok (option_map normal_tag (v_post v)) /\ wf_otag PostTag (option_map normal_tag (v_post v)) /\ option_map normal_tag (option_map normal_tag (v_post v)) = option_map normal_tag (v_post v)).
  { destruct (v_post v) as [t|]; cbn [mapO option_map wf_otag]; auto. destruct (normalize_tag PostTag t) as (-> & X & ->); auto. discriminate. }
  assert (C : mapO (tag_normalize DevTag) (v_dev v) = Ok (option_map normal_tag (v_dev v)) /\ wf_otag DevTag (option_map normal_tag (v_dev v)) /\ option_map normal_tag (option_map normal_tag (v_dev v)) = option_map normal_tag (v_dev v)).
  { destruct (v_dev v) as [t|]; cbn [mapO option_map wf_otag]; auto. destruct (normalize_tag DevTag t) as (-> & X & ->); auto. discriminate. }
  destruct A as (A1 & A2 & A3), B as (B1 & B2 & B3), C as (C1 & C2 & C3). rewrite A1, B1, C1. cbn [bind].
  split; [reflexivity|]. split.
  - unfold wf. cbn [v_epoch v_release v_pre v_post v_dev v_local]. auto 10.
  - cbn [v_epoch v_release v_pre v_post v_dev v_local]. now rewrite A3, B3, C3.
Qed.

Lemma pep440_parse v : wf v -> exists s, to_pep440_string v = Ok s /\ parse_version s = Ok (normal_version v).
Proof.
  intros W. destruct (normalize_eq v W) as (E & W' & _). unfold to_pep440_string. rewrite E. cbn [bind]. eexists. split; [reflexivity|].
  now apply parse_short.
Qed.

(** ** Spelling variants *)

Lemma number_snoc d c : number (d ++ [c]) = 10 * number d + (Z.of_N c - 48).
Proof. unfold number. now rewrite fold_left_app. Qed.

Lemma number_zero d : Forall digit d -> number d = 0 -> d = repeat 48%N (List.length d).
Proof.
  induction d as [|c d IH] using rev_ind; intros F E; auto. apply Forall_app in F as [F1 F2]. inversion F2; subst.
  rewrite number_snoc in E. pose proof (number_nonneg d F1). unfold digit in *.
  rewrite app_length. cbn [List.length]. rewrite repeat_app, <- IH by (auto; lia). cbn. f_equal. f_equal. lia.
Qed.

Lemma number_zeros k d : number (repeat 48%N k ++ d) = number d.
Proof. induction k as [|k IH]; auto. Qed.

Lemma number_same d e : Forall digit d -> Forall digit e -> number d = number e <-> same_number d e.
Proof.
  intros D E. split.
  - revert e E. induction d as [|c d IH] using rev_ind; intros e E H.
    + symmetry in H. apply number_zero in H; auto. exists O, (List.length e), []. rewrite !app_nil_r. auto.
    + destruct e as [|b e _] using rev_ind.
      * apply number_zero in H; auto. exists (List.length (d ++ [c])), O, []. rewrite !app_nil_r. auto.
      * apply Forall_app in D as [D1 D2], E as [E1 E2]. inversion D2; inversion E2; subst. rewrite !number_snoc in H.
        unfold digit in *. assert (X : number d = number e /\ c = b) by lia. destruct X as [X <-].
        destruct (IH D1 e E1 X) as (k & m & u & -> & ->). exists k, m, (u ++ [c]). now rewrite <- !app_assoc.
  - intros (k & m & c & -> & ->). now rewrite !number_zeros.
Qed.

Lemma same_word_iff w w' : In w all_words -> In w' all_words -> long_form w = long_form w' <-> same_word w w'.
Proof.
  intros W W'. split.
  - intros E. cbn in W, W'. unfold same_word.
    repeat (destruct W as [<-|W]; [repeat (destruct W' as [<-|W']; [first [left; reflexivity|discriminate E|right; cbn; tauto]|]); destruct W'|]); destruct W.
  - intros [-> | [H|H]]; auto; cbn in H; repeat (destruct H as [H|H]; [injection H as <- <-; reflexivity|]); destruct H.
Qed.

Lemma same_tag_iff ws ws' t u : In ws [pre_words; post_words; dev_words] -> In ws' [pre_words; post_words; dev_words] ->
  tag_tree ws t -> tag_tree ws' u -> lower_tag ws t -> lower_tag ws' u ->
  tag_reading t = tag_reading u <-> same_tag t u.
Proof.
  intros Hws Hws' (_ & _ & V) (_ & _ & V') L L'. unfold tag_reading, same_tag.
  apply (in_all_words ws) in L; auto. apply (in_all_words ws') in L'; auto. rewrite <- same_word_iff by auto.
  assert (N : forall x, value_tree x -> Forall digit (no_digits x) /\ value_reading x = number (no_digits x)).
  { intros [[o d]|]; cbn; auto. intros [_ [_ F]]. auto. }
  destruct (N _ V) as [F1 E1], (N _ V') as [F2 E2]. unfold value_reading in E1, E2. rewrite E1, E2, <- number_same by auto.
  split; [intros [= -> ->]; auto|]. intros [-> ->]. reflexivity.
Qed.

Lemma option_both {A B} (P Q : A -> Prop) (R : A -> A -> Prop) (f : A -> B) o o' :
  (forall a b, P a -> Q b -> f a = f b <-> R a b) -> opt P o -> opt Q o' -> option_map f o = option_map f o' <-> both R o o'.
Proof.
  intros H. destruct o as [a|], o' as [b|]; cbn; intros Pa Qb.
  - rewrite <- H by auto. split; [intros [= ->]; auto|intros ->; auto].
  - split; [discriminate|tauto].
  - split; [discriminate|tauto].
  - tauto.
Qed.

Lemma map_both {A B} (P : A -> Prop) (R : A -> A -> Prop) (f : A -> B) l : forall m,
  (forall a b, P a -> P b -> f a = f b <-> R a b) -> Forall P l -> Forall P m -> map f l = map f m <-> Forall2 R l m.
Proof.
  induction l as [|a l IH]; intros [|b m] H L M; cbn [map].
  - split; auto.
  - split; [discriminate|inversion 1].
  - split; [discriminate|inversion 1].
  - inversion L; inversion M; subst. specialize (IH m H). split.
    + intros [= E1 E2]. constructor; [apply H; auto|apply IH; auto].
    + intros X. inversion X; subst. f_equal; [apply H; auto|apply IH; auto].
Qed.

Lemma same_part_iff w w' : alphanumeric w -> alphanumeric w' -> part_reading w = part_reading w' <-> same_part w w'.
Proof.
  intros W W'. unfold part_reading, same_part. change (fun c => (48 <=? c) && (c <=? 57))%N with is_digit.
  assert (X : forall u, alphanumeric u -> forallb is_digit u = true <-> digits u).
  { intros u [N _]. unfold digits. rewrite forallb_forall, Forall_forall. split.
    - intros H. split; auto. intros c Hc. now apply digit_iff, H.
    - intros [_ H] c Hc. now apply digit_iff, H. }
  pose proof (X w W) as Xw. pose proof (X w' W') as Xw'.
  destruct (forallb is_digit w), (forallb is_digit w').
  - assert (D : digits w) by now apply Xw. assert (D' : digits w') by now apply Xw'. split.
    + intros [= E]. right. split; auto. split; auto. apply number_same; auto; [apply D|apply D'].
    + intros [-> | (_ & _ & H)]; auto. f_equal. apply number_same in H; auto; [apply D|apply D'].
  - split; [discriminate|]. intros [-> | (_ & H & _)]; [|now apply Xw' in H].
    assert (digits w') as H by now apply Xw. now apply Xw' in H.
  - split; [discriminate|]. intros [-> | (H & _ & _)]; [|now apply Xw in H].
    assert (digits w') as H by now apply Xw'. now apply Xw in H.
  - split; [intros [= ->]; auto|]. intros [-> | (H & _ & _)]; auto. now apply Xw in H.
Qed.

Lemma post_reading_explicit p : post_reading p = tag_reading (as_explicit p).
Proof. now destruct p. Qed.

Lemma reading_same t u : tree t -> tree u -> lower_case t -> lower_case u -> reading t = reading u <-> same_spelling t u.
Proof.
  intros (_ & E & F & M & P & Q & G & L & _) (_ & E' & F' & M' & P' & Q' & G' & L' & _) (LP & LQ & LG) (LP' & LQ' & LG').
  assert (ep : forall o, opt digits o -> Forall digit (spell (fun d => d) o) /\ match o with None => 0 | Some d => number d end = number (spell (fun d => d) o)).
  { intros [d|]; cbn; auto. intros [_ H]. auto. }
  assert (R1 : match g_epoch t with None => 0 | Some d => number d end = match g_epoch u with None => 0 | Some d => number d end
    <-> same_number (spell (fun d => d) (g_epoch t)) (spell (fun d => d) (g_epoch u))).
  { destruct (ep _ E) as [A ->], (ep _ E') as [A' ->]. now apply number_same. }
  assert (R2 : map number (g_first t :: g_more t) = map number (g_first u :: g_more u) <-> Forall2 same_number (g_first t :: g_more t) (g_first u :: g_more u)).
  { apply (map_both digits); try (constructor; assumption). intros a b [_ A] [_ B]. now apply number_same. }
  assert (both_and : forall A (P Q : A -> Prop) o, opt P o -> opt Q o -> opt (fun a => P a /\ Q a) o) by (intros A P0 Q0 [a|]; cbn; auto).
  assert (R3 : option_map tag_reading (g_pre t) = option_map tag_reading (g_pre u) <-> both same_tag (g_pre t) (g_pre u)).
  { apply (option_both (fun a => tag_tree pre_words a /\ lower_tag pre_words a) (fun a => tag_tree pre_words a /\ lower_tag pre_words a)); auto.
    intros a b [A1 A2] [B1 B2]. apply (same_tag_iff pre_words pre_words); auto; now left. }
  assert (ex : forall q, opt post_tree q -> opt (fun p => match p with Implicit _ => True | Explicit t => lower_tag post_words t end) q ->
    opt (fun a => tag_tree post_words a /\ lower_tag post_words a) (option_map as_explicit q)).
  { intros [[d|x]|]; cbn [opt option_map as_explicit post_tree]; auto. intros D _. split; [|left; reflexivity].
    split; [exact I|]. split; [exists (lit "post"); split; [now left|]|cbn; auto]. apply (self_spells PostTag). now left. }
  assert (R4 : option_map post_reading (g_post t) = option_map post_reading (g_post u)
    <-> both same_tag (option_map as_explicit (g_post t)) (option_map as_explicit (g_post u))).
  { rewrite <- (option_both (fun a => tag_tree post_words a /\ lower_tag post_words a) (fun a => tag_tree post_words a /\ lower_tag post_words a) same_tag tag_reading).
    - destruct (g_post t), (g_post u); cbn [option_map]; rewrite ?post_reading_explicit; reflexivity.
    - intros a b [A1 A2] [B1 B2]. apply (same_tag_iff post_words post_words); auto; right; now left.
    - now apply ex.
    - now apply ex. }
  assert (R5 : option_map tag_reading (g_dev t) = option_map tag_reading (g_dev u) <-> both same_tag (g_dev t) (g_dev u)).
  { apply (option_both (fun a => tag_tree dev_words a /\ lower_tag dev_words a) (fun a => tag_tree dev_words a /\ lower_tag dev_words a)); auto.
    intros a b [A1 A2] [B1 B2]. apply (same_tag_iff dev_words dev_words); auto; right; right; now left. }
  assert (R6 : option_map (fun l => map part_reading (fst l :: map snd (snd l))) (g_local t) = option_map (fun l => map part_reading (fst l :: map snd (snd l))) (g_local u)
    <-> both (fun l m => Forall2 same_part (fst l :: map snd (snd l)) (fst m :: map snd (snd m))) (g_local t) (g_local u)).
  { apply (option_both local_tree local_tree); auto. intros a b [A1 A2] [B1 B2]. apply (map_both alphanumeric).
    - apply same_part_iff.
    - constructor; auto. apply Forall_map. eapply Forall_impl; [|exact A2]. tauto.
    - constructor; auto. apply Forall_map. eapply Forall_impl; [|exact B2]. tauto. }
  unfold same_spelling. rewrite <- R1, <- R2, <- R3, <- R4, <- R5, <- R6. unfold reading. split.
  - intros H. exact (conj (f_equal v_epoch H) (conj (f_equal v_release H) (conj (f_equal v_pre H)
      (conj (f_equal v_post H) (conj (f_equal v_dev H) (f_equal v_local H)))))).
  - intros (-> & -> & -> & -> & -> & ->). reflexivity.
Qed.

(** ** Strings in lower case *)

Lemma spells_fixed w p : spells w p -> (forall c a, In c w -> folds c a -> c = a) -> w = p.
Proof.
  induction 1 as [|c a w p F S IH]; intros H; auto. rewrite (H c a) by (cbn; auto). f_equal. apply IH. intros x y Hx. apply H. cbn. auto.
Qed.

Lemma fixed_tag ws t : tag_tree ws t -> (forall c a, In c (tag_text t) -> folds c a -> c = a) -> lower_tag ws t.
Proof.
  intros (_ & (p & Hp & S) & _) H. unfold lower_tag. rewrite (spells_fixed _ _ S); auto.
  intros c a Hc. apply H. unfold tag_text, tag_word. rewrite !in_app_iff. auto.
Qed.

Lemma fixed_lower t : tree t -> (forall c a, In c (text t) -> folds c a -> c = a) -> lower_case t.
Proof.
  intros (_ & _ & _ & _ & P & Q & G & _ & _) H.
  assert (X : forall s, (forall c, In c s -> In c (text t)) -> forall c a, In c s -> folds c a -> c = a) by eauto.
  unfold lower_case. split; [|split].
  - destruct (g_pre t) as [x|] eqn:E; cbn; auto. apply (fixed_tag pre_words); auto. apply X. intros c Hc.
    unfold text, public_text. rewrite E. cbn [spell]. rewrite !in_app_iff. auto 10.
  - destruct (g_post t) as [[d|x]|] eqn:E; cbn; auto. apply (fixed_tag post_words); auto. apply X. intros c Hc.
    unfold text, public_text. rewrite E. cbn [spell post_text]. rewrite !in_app_iff. auto 10.
  - destruct (g_dev t) as [x|] eqn:E; cbn; auto. apply (fixed_tag dev_words); auto. apply X. intros c Hc.
    unfold text, public_text. rewrite E. cbn [spell]. rewrite !in_app_iff. auto 10.
Qed.

Lemma parse_fixed s : (forall c a, In c s -> folds c a -> c = a) -> (exists v, parse_version s = Ok v) \/ parse_version s = Err ParseVersionError.
Proof.
  intros H. destruct (parse_version s) as [v|e] eqn:E; [eauto|]. right. apply parse_err in E as [[-> _]|[-> (t & T & L & <-)]]; auto.
  exfalso. now apply L, fixed_lower.
Qed.

Lemma parse_only s : (exists v, parse_version s = Ok v) \/ parse_version s = Err ParseVersionError \/ parse_version s = Err ValueError.
Proof.
  destruct (parse_version s) as [v|e] eqn:E; [eauto|]. right. apply parse_err in E as [[-> _]|[-> _]]; auto.
Qed.

Lemma parse_variants t u : tree t -> tree u -> lower_case t -> lower_case u ->
  exists v w, parse_version (text t) = Ok v /\ parse_version (text u) = Ok w /\ (v = w <-> same_spelling t u).
Proof.
  intros T U LT LU. exists (reading t), (reading u). split; [apply parse_ok; eauto|]. split; [apply parse_ok; eauto|]. now apply reading_same.
Qed.

Lemma parse_long_exact v : wf v -> parse_version (to_string v) =
  match v_pre v with Some t => if str_eqb (phase t) (lit "candidate") then Err ParseVersionError else Ok v | None => Ok v end.
Proof.
  intros W. pose proof (parse_long v W) as A. pose proof (parse_candidate v W) as B. unfold candidate in *. destruct (v_pre v) as [t|]; auto.
  destruct (str_eqb (phase t) (lit "candidate")); auto.
Qed.
