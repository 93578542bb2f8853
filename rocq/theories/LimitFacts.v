(** Facts about the digit limit (Limits.v). *)

From Coq Require Import List ZArith NArith String Bool Arith Lia.
From Verif Require Import Py Segments Version VersionSets Operators SetStrings Specifiers Regex Patterns Parsers Spec Orders Grammar Clauses
  RegexFacts Unambiguous VersionRegex ParseFacts ParseTheorems SpecifierFacts PepSpec PepFacts Limits LimitSpec.
Import ListNotations.
Open Scope Z_scope.

(** ** Parsing versions *)

Lemma mapM_if {A B} (f : A -> result B) (p : A -> bool) (g : A -> B) e xs : (forall x, In x xs -> f x = if p x then Ok (g x) else Err e) ->
  mapM f xs = if forallb p xs then Ok (map g xs) else Err e.
Proof.
  induction xs as [|x xs IH]; intros H; [reflexivity|]. cbn [mapM forallb map]. rewrite H by (cbn; auto).
  destruct (p x); [|reflexivity]. cbn [bind andb]. rewrite IH by (intros; apply H; cbn; auto). now destruct (forallb p xs).
Qed.

Section Trees.
Variable k : option nat.

Lemma int_digits_within d : digits d -> int_within k d = if within k d then Ok (number d) else Err ValueError.
Proof. intros D. unfold int_within. now rewrite py_int_digits by exact D. Qed.

Lemma release_tree_within first more : digits first -> Forall digits more ->
  release_within k (release_text first more) = if forallb (within k) (first :: more) then Ok (map number (first :: more)) else Err ValueError.
Proof.
  intros F M. unfold release_within, release_text.
  assert (X : forall d, digits d -> Forall (fun c => (c =? 46)%N = false) d).
  { intros d [_ H]. eapply Forall_impl; [|exact H]. intros c Hc. unfold digit in Hc. apply N.eqb_neq. lia. }
  rewrite split_on_cons; [|now apply X|eapply Forall_impl; [apply X|exact M]].
  assert (Y : mapM (int_within k) (first :: more) = if forallb (within k) (first :: more) then Ok (map number (first :: more)) else Err ValueError).
  { apply (mapM_if (int_within k) (within k) number ValueError). intros x [<-|H]; apply int_digits_within; auto. rewrite Forall_forall in M. auto. }
  etransitivity; [apply (f_equal (fun m => bind m release_new) Y)|]. destruct (forallb (within k) (first :: more)); reflexivity.
Qed.

Definition numeric : pstr -> bool := forallb (fun c => (48 <=? c) && (c <=? 57))%N.
Definition part_fits (w : pstr) : bool := negb (numeric w) || within k w.

Lemma part_within w : alphanumeric w -> local_part_within k w = if part_fits w then Ok (part_reading w) else Err ValueError.
Proof.
  intros [N F]. unfold local_part_within, part_reading, part_fits, check_int. fold numeric. change (forallb is_digit w) with (numeric w).
  replace (match w with [] => false | _ => numeric w end) with (numeric w) by (destruct w; [congruence|reflexivity]).
  destruct (numeric w) eqn:B; [|reflexivity]. rewrite int_digits_within.
  - cbn [negb orb]. now destruct (within k w).
  - split; [exact N|]. unfold numeric in B. rewrite forallb_forall in B. apply Forall_forall. intros c H. now apply digit_iff, B.
Qed.

Lemma split_local l : local_tree l -> split_separators (local_text l) = fst l :: map snd (snd l).
Proof.
  destruct l as [w xs]. unfold local_tree. cbn [fst snd]. intros [W F]. unfold split_separators, local_text. cbn [fst snd].
  set (g := fun c => if (c =? 45)%N || (c =? 95)%N then 46%N else c).
  assert (A : forall w, alphanumeric w -> map g w = w /\ Forall (fun c => (c =? 46)%N = false) w).
  { intros u [_ H]. assert (Z : forall c, digit c \/ Grammar.letter c -> is_sep c = false).
    { intros c [Hc|Hc]; [apply digit_iff, digit_char in Hc as [Hc _]; auto|].
      apply letter_iff, alpha_not in Hc. tauto. }
    clear - H Z. induction H as [|c u Hc H [IH1 IH2]]; cbn [map]; [split; auto|].
    apply Z in Hc. unfold is_sep in Hc. rewrite !orb_false_iff in Hc. destruct Hc as [[H1 H2] H3].
    split; [|constructor; auto]. rewrite IH1. unfold g. now rewrite H2, H3. }
  rewrite map_app, concat_map, map_map. destruct (A w W) as [A1 A2]. rewrite A1.
  assert (M : map (fun x : N * pstr => map g (fst x :: snd x)) xs = map (cons 46%N) (map snd xs)).
  { rewrite map_map. apply map_ext_in. intros [c u] H. rewrite Forall_forall in F. destruct (F _ H) as [S U]. cbn [map fst snd] in *.
    destruct (A u U) as [-> _]. f_equal. unfold separator in S. unfold g. destruct S as [-> | [-> | ->]]; reflexivity. }
  cbn beta. match goal with |- context[List.concat ?a] => replace a with (map (cons 46%N) (map snd xs)) by (symmetry; exact M) end. rewrite split_on_cons; auto.
  apply Forall_map. eapply Forall_impl; [|exact F]. intros [c u] [_ U]. now apply A.
Qed.

Lemma local_tree_within l : local_tree l ->
  local_within k (local_text l) = if forallb part_fits (fst l :: map snd (snd l)) then Ok (map part_reading (fst l :: map snd (snd l))) else Err ValueError.
Proof.
  intros L. unfold local_within. rewrite split_local by exact L. 
  assert (Y : mapM (local_part_within k) (fst l :: map snd (snd l)) = if forallb part_fits (fst l :: map snd (snd l)) then Ok (map part_reading (fst l :: map snd (snd l))) else Err ValueError).
  2:{ etransitivity; [apply (f_equal (fun m => bind m local_new) Y)|]. destruct (forallb part_fits (fst l :: map snd (snd l))); reflexivity. }
  apply (mapM_if (local_part_within k) part_fits part_reading ValueError).
  - destruct L as [W F]. intros x [<-|H]; apply part_within; auto.
    apply in_map_iff in H as (y & <- & H). rewrite Forall_forall in F. now apply F.
Qed.

Lemma filter_fits ws : forallb part_fits ws = forallb (within k) (filter numeric ws).
Proof.
  induction ws as [|w ws IH]; [reflexivity|]. cbn [forallb filter]. unfold part_fits at 1. destruct (numeric w); cbn [negb orb forallb]; now rewrite IH.
Qed.

Lemma tag_tree_within c t : tag_tree (class_words c) t ->
  parse_tag_within k c (tag_word t) =
    if str_in (g_word t) (class_words c) && forallb (within k) (tag_digits (Some t)) then Ok (tag_reading t) else Err ValueError.
Proof.
  intros T. pose proof (parse_tag_tree c t T) as E. destruct T as (_ & (p & Hp & S) & V). destruct t as [o w x]. cbn [g_word g_value] in *.
  assert (U : letters w) by (apply (spells_letters w p); auto; now apply class_all in Hp).
  unfold tag_word in *. cbn [g_word g_value] in *. fold (value_text x) in *.
  rewrite parse_tag_eq in E by auto. unfold parse_tag_within. rewrite fullmatch_TAG by auto.
  destruct x as [[s d]|]; cbn [get_group app group_index N.eqb Pos.eqb snd tag_digits forallb].
  - rewrite int_digits_within by apply V. destruct (within k d); cbn [bind andb]; [rewrite andb_true_r; exact E|now rewrite andb_false_r].
  - rewrite andb_true_r. exact E.
Qed.

Lemma tag_optional_within c o : opt (tag_tree (class_words c)) o ->
  mapO (parse_tag_within k c) (option_map tag_word o) =
    if match o with None => true | Some u => str_in (g_word u) (class_words c) end && forallb (within k) (tag_digits o)
    then Ok (option_map tag_reading o) else Err ValueError.
Proof.
  destruct o as [t|]; intros T; [|reflexivity]. cbn [opt] in T. cbn [option_map mapO].
  rewrite tag_tree_within by exact T. now destruct (str_in (g_word t) (class_words c) && forallb (within k) (tag_digits (Some t))).
Qed.

Theorem tree_within t : tree t ->
  parse_version_within k (text t) = if lower_caseb t && forallb (within k) (tree_numbers t) then Ok (reading t) else Err ValueError.
Proof.
  intros T. unfold parse_version_within. rewrite fullmatch_version by exact T.
  rewrite get_epoch, get_release, get_pre, get_implicit, get_post, get_dev, get_local.
  destruct T as (_ & E & F & M & P & Q & G & L & _).
  rewrite release_tree_within by auto. rewrite (tag_optional_within PreTag), (tag_optional_within DevTag) by auto.
  assert (X1 : match g_epoch t with None => Ok 0 | Some x => int_within k x end
             = if forallb (within k) (listed (g_epoch t)) then Ok match g_epoch t with None => 0 | Some d => number d end else Err ValueError).
  { destruct (g_epoch t) as [d|]; [|reflexivity]. cbn [listed forallb]. rewrite andb_true_r. now apply int_digits_within. }
  assert (X2 : mapO (local_within k) (option_map local_text (g_local t))
             = if forallb (within k) match g_local t with None => [] | Some l => filter numeric (fst l :: map snd (snd l)) end
               then Ok (option_map (fun l => map part_reading (fst l :: map snd (snd l))) (g_local t)) else Err ValueError).
  { destruct (g_local t) as [l|]; [|reflexivity]. cbn [option_map mapO]. rewrite local_tree_within by exact L. rewrite <- filter_fits.
    now destruct (forallb part_fits (fst l :: map snd (snd l))). }
  assert (X3 : bind (mapO (fun x => let* v := int_within k x in default_phase_with_value PostTag v) match g_post t with Some (Implicit d) => Some d | _ => None end)
      (fun imp => match imp with Some u => Ok (Some u) | None => mapO (parse_tag_within k PostTag) match g_post t with Some (Explicit u) => Some (tag_word u) | _ => None end end)
    = if match g_post t with Some (Explicit u) => str_in (g_word u) post_words | _ => true end && forallb (within k) (post_digits (g_post t))
      then Ok (option_map post_reading (g_post t)) else Err ValueError).
  { destruct (g_post t) as [[d|u]|]; cbn [opt post_tree] in Q.
    - cbn [mapO post_digits forallb andb]. rewrite int_digits_within by exact Q. destruct (within k d); reflexivity.
    - cbn [mapO bind]. exact (tag_optional_within PostTag (Some u) Q).
    - reflexivity. }
  assert (X4 : forallb (within k) (tree_numbers t) = forallb (within k) (listed (g_epoch t)) && (forallb (within k) (g_first t :: g_more t)
    && (forallb (within k) (tag_digits (g_pre t)) && (forallb (within k) (post_digits (g_post t)) && (forallb (within k) (tag_digits (g_dev t))
    && forallb (within k) match g_local t with None => [] | Some l => filter numeric (fst l :: map snd (snd l)) end))))).
  { unfold tree_numbers. rewrite forallb_app. f_equal. cbn [forallb]. rewrite <- andb_assoc. f_equal. rewrite !forallb_app. reflexivity. }
  rewrite X1, X2, X4.
  unfold lower_caseb, reading. cbn [class_words] in *.
  set (b1 := forallb (within k) (listed (g_epoch t))). set (b2 := forallb (within k) (g_first t :: g_more t)).
  set (b3 := match g_pre t with None => true | Some u => str_in (g_word u) pre_words end). set (b4 := forallb (within k) (tag_digits (g_pre t))).
  set (b5 := match g_post t with Some (Explicit u) => str_in (g_word u) post_words | _ => true end) in *. set (b6 := forallb (within k) (post_digits (g_post t))) in *.
  set (b7 := match g_dev t with None => true | Some u => str_in (g_word u) dev_words end). set (b8 := forallb (within k) (tag_digits (g_dev t))).
  set (b9 := forallb (within k) match g_local t with None => [] | Some l => filter numeric (fst l :: map snd (snd l)) end).
  set (y1 := match g_epoch t with None => 0 | Some d => number d end).
  destruct b1; cbn [bind andb]; [|now rewrite andb_false_r].
  destruct b2; cbn [bind andb]; [|now rewrite andb_false_r].
  destruct b3; cbn [bind andb]; [|reflexivity].
  destruct b4; cbn [bind andb]; [|now rewrite andb_false_r].
  match goal with |- bind ?m _ = _ => destruct m as [[i|]|e] end; cbn [bind] in *.
  - destruct b5, b6; cbn [andb] in *; try discriminate X3. injection X3 as <-.
    destruct b7, b8, b9; reflexivity.
  - rewrite X3. destruct b5, b6; cbn [andb bind]; try reflexivity; [destruct b7, b8, b9; reflexivity|now rewrite andb_false_r].
  - destruct b5, b6; cbn [andb] in *; try discriminate X3; injection X3 as ->; rewrite ?andb_false_r; reflexivity.
Qed.

Theorem no_tree_within s : (~ exists t, tree t /\ text t = s) -> parse_version_within k s = Err ParseVersionError.
Proof. intros H. apply fullmatch_version_none in H. unfold parse_version_within. now rewrite H. Qed.

End Trees.

Lemma forallb_within k t : forallb (within (Some k)) (tree_numbers t) = true <-> short k t.
Proof.
  unfold short. rewrite forallb_forall, Forall_forall. split; intros H d I; specialize (H d I); cbn [within] in *; now apply Nat.leb_le.
Qed.

Lemma forallb_unlimited l : forallb (within None) l = true.
Proof. now apply forallb_forall. Qed.

Lemma parse_unlimited s : parse_version_within None s = parse_version s.
Proof.
  unfold parse_version_within. destruct (fullmatch VERSION s) as [m|] eqn:E.
  - pose proof E as E'. apply fullmatch_version_sound in E as (t & T & <- & _). rewrite parse_tree by exact T.
    pose proof (tree_within None t T) as X. unfold parse_version_within in X. rewrite E' in X. rewrite X, forallb_unlimited, andb_true_r. reflexivity.
  - unfold parse_version. now rewrite E.
Qed.

Lemma parse_within_iff k s v : parse_version_within (Some k) s = Ok v <-> exists t, tree t /\ lower_case t /\ short k t /\ text t = s /\ reading t = v.
Proof.
  split.
  - intros H. destruct (fullmatch VERSION s) as [m|] eqn:E.
    + apply fullmatch_version_sound in E as (t & T & <- & _). rewrite tree_within in H by exact T. exists t. split; [exact T|].
      rewrite <- lower_case_iff, <- forallb_within. destruct (lower_caseb t), (forallb (within (Some k)) (tree_numbers t)); try discriminate H.
      injection H as ->. auto.
    + unfold parse_version_within in H. rewrite E in H. discriminate.
  - intros (t & T & L & S & <- & <-). rewrite tree_within by exact T. apply lower_case_iff in L. apply forallb_within in S. now rewrite L, S.
Qed.

Lemma parse_within_err k s e : parse_version_within (Some k) s = Err e <->
  (e = ParseVersionError /\ ~ exists t, tree t /\ text t = s) \/ (e = ValueError /\ exists t, tree t /\ text t = s /\ ~ (lower_case t /\ short k t)).
Proof.
  destruct (fullmatch VERSION s) as [m|] eqn:E.
  - apply fullmatch_version_sound in E as (t & T & <- & _). rewrite tree_within by exact T. split.
    + intros H. right. assert (X : ~ (lower_case t /\ short k t)).
      { intros [L S]. apply lower_case_iff in L. apply forallb_within in S. rewrite L, S in H. discriminate. }
      split; [|eauto]. destruct (lower_caseb t && forallb (within (Some k)) (tree_numbers t)); congruence.
    + intros [(_ & N)|(-> & u & U & EQ & N)]; [exfalso; eauto|]. pose proof (tree_within (Some k) u U) as X. rewrite EQ, tree_within in X by exact T.
      rewrite X. destruct (lower_caseb u && forallb (within (Some k)) (tree_numbers u)) eqn:B; [|reflexivity].
      exfalso. apply N. apply andb_true_iff in B as [B1 B2]. split; [now apply lower_case_iff|now apply forallb_within].
  - assert (P : parse_version_within (Some k) s = Err ParseVersionError) by (unfold parse_version_within; now rewrite E).
    assert (N : ~ exists t, tree t /\ text t = s) by (intros (t & T & <-); rewrite fullmatch_version in E by exact T; discriminate).
    rewrite P. split; [intros [= <-]; auto|]. intros [(-> & _)|(_ & t & T & X & _)]; [reflexivity|]. exfalso. eauto.
Qed.

Lemma parse_within_cases k s : parse_version_within k s = parse_version s \/ parse_version_within k s = Err ValueError.
Proof.
  destruct (fullmatch VERSION s) as [m|] eqn:E.
  - apply fullmatch_version_sound in E as (t & T & <- & _). rewrite tree_within, parse_tree by exact T.
    destruct (lower_caseb t), (forallb (within k) (tree_numbers t)); auto.
  - left. unfold parse_version_within, parse_version. now rewrite E.
Qed.

(** ** Runs of digits *)

Lemma run_app k a s b : no_long_run k (a ++ s ++ b) -> no_long_run k s.
Proof. intros H x d y -> D. apply (H (a ++ x) d (y ++ b)); [|exact D]. now rewrite <- !app_assoc. Qed.
Lemma run_left k s b : no_long_run k (s ++ b) -> no_long_run k s.
Proof. exact (run_app k [] s b). Qed.
Lemma run_right k a s : no_long_run k (a ++ s) -> no_long_run k s.
Proof. intros H. apply (run_app k a s []). now rewrite app_nil_r. Qed.
Lemma run_self k d : Forall digit d -> no_long_run k d -> (List.length d <= k)%nat.
Proof. intros D H. apply (H [] d []); [now rewrite app_nil_r|exact D]. Qed.

Lemma run_concat {A} k (f : A -> pstr) xs x : In x xs -> no_long_run k (List.concat (map f xs)) -> no_long_run k (f x).
Proof.
  induction xs as [|y xs IH]; [easy|]. cbn [map List.concat]. intros [<-|I] H; [now apply run_left in H|]. apply run_right in H. auto.
Qed.

Lemma run_tag k ws t : tag_tree ws t -> no_long_run k (tag_text t) -> Forall (fun d => (List.length d <= k)%nat) (tag_digits (Some t)).
Proof.
  intros (_ & _ & V) R. destruct t as [o w [[s d]|]]; cbn [tag_digits]; [|constructor]. constructor; [|constructor].
  cbn [g_value opt fst snd] in V. unfold tag_text, tag_word in R. cbn [g_sep g_word g_value spell fst snd] in R.
  apply run_right, run_right, run_right in R. apply run_self; [apply V|exact R].
Qed.

Lemma numeric_digits w : numeric w = true -> Forall digit w.
Proof. unfold numeric. rewrite forallb_forall. intros H. apply Forall_forall. intros c I. now apply digit_iff, H. Qed.

Theorem run_short k t : tree t -> no_long_run k (text t) -> short k t.
Proof.
  intros (_ & E & F & M & P & Q & G & L & _) R. unfold short, tree_numbers. unfold text in R. apply run_left in R as R1. apply run_right in R as R2. clear R.
  unfold public_text in R1. apply run_right in R1.
  apply Forall_app. split. { apply run_left in R1. destruct (g_epoch t) as [d|]; cbn [listed]; constructor; [|constructor]. cbn [spell] in R1. apply run_left in R1. apply run_self; [apply E|exact R1]. }
  apply run_right in R1. unfold release_text in R1.
  constructor. { do 2 apply run_left in R1. apply run_self; [apply F|exact R1]. }
  apply Forall_app. split.
  { apply run_left, run_right in R1. rewrite Forall_forall in *. intros d I. apply run_self; [apply (M d I)|].
    apply (run_right k [46%N]). exact (run_concat k (cons 46%N) (g_more t) d I R1). }
  apply run_right in R1. apply Forall_app. split.
  { apply run_left in R1. destruct (g_pre t) as [u|]; [|constructor]. exact (run_tag k pre_words u P R1). }
  apply run_right in R1. apply Forall_app. split.
  { apply run_left in R1. destruct (g_post t) as [[d|u]|]; [|exact (run_tag k post_words u Q R1)|constructor].
    cbn [post_digits]. constructor; [|constructor]. cbn [spell post_text] in R1. apply (run_right k [45%N]) in R1. apply run_self; [apply Q|exact R1]. }
  apply run_right in R1. apply Forall_app. split.
  { destruct (g_dev t) as [u|]; [|constructor]. exact (run_tag k dev_words u G R1). }
  destruct (g_local t) as [l|]; [|constructor]. cbn [spell] in R2. apply (run_right k [43%N]) in R2. unfold local_text in R2.
  apply Forall_forall. intros w I. apply filter_In in I as [I N]. apply numeric_digits in N. apply run_self; [exact N|].
  destruct I as [<-|I]; [now apply run_left in R2|]. apply run_right in R2. apply in_map_iff in I as (x & <- & I).
  apply (run_right k [fst x]). exact (run_concat k (fun x => fst x :: snd x) (snd l) x I R2).
Qed.

Theorem run_unaffected k s : no_long_run k s -> parse_version_within (Some k) s = parse_version s.
Proof.
  intros R. destruct (fullmatch VERSION s) as [m|] eqn:E.
  - apply fullmatch_version_sound in E as (t & T & <- & _). rewrite tree_within, parse_tree by exact T.
    apply (run_short k t T), forallb_within in R. now rewrite R, andb_true_r.
  - unfold parse_version_within, parse_version. now rewrite E.
Qed.

(** ** Numbers *)

Lemma number_from d n : fold_left (fun n c => 10 * n + (Z.of_N c - 48)) d n = n * 10 ^ Z.of_nat (List.length d) + number d.
Proof.
  unfold number. revert n. induction d as [|c d IH]; intros n; cbn [fold_left List.length]; [cbn; lia|].
  rewrite IH, (IH (10 * 0 + (Z.of_N c - 48))). rewrite Nat2Z.inj_succ, Z.pow_succ_r by lia. ring.
Qed.
Lemma number_cons c d : number (c :: d) = (Z.of_N c - 48) * 10 ^ Z.of_nat (List.length d) + number d.
Proof. unfold number at 1. cbn [fold_left]. rewrite number_from. ring. Qed.

Lemma number_bound d : Forall digit d -> number d < 10 ^ Z.of_nat (List.length d).
Proof.
  induction 1 as [|c d D _ IH]; [reflexivity|]. rewrite number_cons. cbn [List.length]. rewrite Nat2Z.inj_succ, Z.pow_succ_r by lia.
  unfold digit in D. nia.
Qed.

Lemma length_int k z : 0 <= z -> (1 <= k)%nat -> (List.length (str_int z) <= k)%nat <-> z < 10 ^ Z.of_nat k.
Proof.
  intros Z0 K. destruct (str_int_digits z Z0) as [[N D] E]. split.
  - intros L. rewrite <- E at 1. eapply Z.lt_le_trans; [now apply number_bound|]. apply Z.pow_le_mono_r; lia.
  - intros L. destruct (numeral_int z Z0) as [X|(c & t & X & C & F)]; rewrite X in *; [exact K|]. cbn [List.length].
    rewrite number_cons in E. pose proof (number_nonneg t F).
    destruct (Nat.le_gt_cases (S (List.length t)) k) as [H'|H']; [exact H'|exfalso].
    assert (10 ^ Z.of_nat k <= 10 ^ Z.of_nat (List.length t)) by (apply Z.pow_le_mono_r; lia). nia.
Qed.

(** ** Rendering *)

Section Render.
Variable k : option nat.

Definition int_fits (z : Z) : bool := within k (str_int (Z.abs z)).

Lemma str_fits z : str_within k z = if int_fits z then Ok (str_int z) else Err ValueError.
Proof. reflexivity. Qed.

Lemma tag_string_fits t : tag_string_within k t = if int_fits (value t) then Ok (tag_to_string t) else Err ValueError.
Proof. unfold tag_string_within. rewrite str_fits. now destruct (int_fits (value t)). Qed.
Lemma tag_short_fits t : tag_short_string_within k t = if int_fits (value t) then Ok (tag_to_short_string t) else Err ValueError.
Proof. unfold tag_short_string_within. rewrite str_fits. now destruct (int_fits (value t)). Qed.

Lemma release_string_fits r : release_string_within k r = if forallb int_fits r then Ok (rel_to_string r) else Err ValueError.
Proof.
  unfold release_string_within. rewrite (mapM_if (str_within k) int_fits str_int ValueError) by (intros; apply str_fits).
  now destruct (forallb int_fits r).
Qed.

Definition local_ints (l : list local_part) : list Z := flat_map (fun p => match p with LInt z => [z] | LStr _ => [] end) l.

Lemma local_string_fits l : local_string_within k l = if forallb int_fits (local_ints l) then Ok (local_to_string l) else Err ValueError.
Proof.
  unfold local_string_within. rewrite (mapM_if _ (fun p => match p with LInt z => int_fits z | LStr _ => true end) local_part_str ValueError) by (intros [z|s] _; reflexivity).
  replace (forallb int_fits (local_ints l)) with (forallb (fun p => match p with LInt z => int_fits z | LStr _ => true end) l).
  - now destruct (forallb (fun p => match p with LInt z => int_fits z | LStr _ => true end) l).
  - induction l as [|[z|s] l IH]; cbn [forallb local_ints flat_map app]; [reflexivity|now rewrite IH|exact IH].
Qed.

Lemma prefixed_fits p f g o : (forall t, f t = if int_fits (value t) then Ok (g t) else Err ValueError) ->
  prefixed p f o = if forallb int_fits (map value (listed o)) then Ok match o with None => [] | Some t => p ++ g t end else Err ValueError.
Proof.
  intros H. destruct o as [t|]; [|reflexivity]. cbn [prefixed listed map forallb]. rewrite H, andb_true_r. now destruct (int_fits (value t)).
Qed.

Hypothesis zero : int_fits 0 = true.

Lemma render_fits f g s1 s2 v : (forall t, f t = if int_fits (value t) then Ok (g t) else Err ValueError) ->
  render_within k f s1 s2 v = if forallb int_fits (version_numbers v)
    then Ok ((if v_epoch v =? 0 then [] else str_int (v_epoch v) ++ lit "!") ++ rel_to_string (v_release v)
      ++ match v_pre v with None => [] | Some t => s1 ++ g t end ++ match v_post v with None => [] | Some t => s2 ++ g t end
      ++ match v_dev v with None => [] | Some t => s2 ++ g t end
      ++ match v_local v with None => [] | Some l => lit "+" ++ local_to_string l end)
    else Err ValueError.
Proof.
  intros H. unfold render_within. rewrite release_string_fits, !(prefixed_fits _ f g) by exact H.
  assert (X1 : (if v_epoch v =? 0 then Ok [] else let* n := str_within k (v_epoch v) in Ok (n ++ lit "!"))
    = if int_fits (v_epoch v) then Ok (if v_epoch v =? 0 then [] else str_int (v_epoch v) ++ lit "!") else Err ValueError).
  { destruct (Z.eqb_spec (v_epoch v) 0) as [->|N]; [now rewrite zero|]. rewrite str_fits. now destruct (int_fits (v_epoch v)). }
  assert (X2 : prefixed (lit "+") (local_string_within k) (v_local v)
    = if forallb int_fits match v_local v with None => [] | Some l => local_ints l end
      then Ok match v_local v with None => [] | Some l => lit "+" ++ local_to_string l end else Err ValueError).
  { destruct (v_local v) as [l|]; [|reflexivity]. cbn [prefixed]. rewrite local_string_fits. now destruct (forallb int_fits (local_ints l)). }
  assert (X3 : forallb int_fits (version_numbers v) = int_fits (v_epoch v) && (forallb int_fits (v_release v) && (forallb int_fits (map value (listed (v_pre v)))
    && (forallb int_fits (map value (listed (v_post v))) && (forallb int_fits (map value (listed (v_dev v)))
    && forallb int_fits match v_local v with None => [] | Some l => local_ints l end))))).
  { unfold version_numbers. cbn [forallb]. f_equal. rewrite !map_app, !forallb_app, <- !andb_assoc. reflexivity. }
  rewrite X1, X2, X3. clear X1 X2 X3.
  destruct (int_fits (v_epoch v)); cbn [bind andb]; [|reflexivity].
  destruct (forallb int_fits (v_release v)); cbn [bind andb]; [|reflexivity].
  destruct (forallb int_fits (map value (listed (v_pre v)))); cbn [bind andb]; [|reflexivity].
  destruct (forallb int_fits (map value (listed (v_post v)))); cbn [bind andb]; [|reflexivity].
  destruct (forallb int_fits (map value (listed (v_dev v)))); cbn [bind andb]; [|reflexivity].
  destruct (forallb int_fits _); reflexivity.
Qed.

Lemma string_fits v : to_string_within k v = if forallb int_fits (version_numbers v) then Ok (to_string v) else Err ValueError.
Proof using zero. unfold to_string_within. rewrite (render_fits _ tag_to_string) by apply tag_string_fits. reflexivity. Qed.
Lemma short_string_fits v : to_short_string_within k v = if forallb int_fits (version_numbers v) then Ok (to_short_string v) else Err ValueError.
Proof using zero. unfold to_short_string_within. rewrite (render_fits _ tag_to_short_string) by apply tag_short_fits. reflexivity. Qed.

Lemma op_string_fits t v : op_string_within k t v = if forallb int_fits (version_numbers v) then Ok (op_to_string t v) else Err ValueError.
Proof using zero. unfold op_string_within. rewrite string_fits. now destruct (forallb int_fits (version_numbers v)). Qed.

End Render.

Lemma fits_none z : int_fits None z = true.
Proof. reflexivity. Qed.
Lemma fits_zero k : (1 <= k)%nat -> int_fits (Some k) 0 = true.
Proof. intros H. now apply Nat.leb_le. Qed.

Lemma wf_numbers v : wf v -> Forall (fun z => 0 <= z) (version_numbers v).
Proof.
  intros (E & _ & R & P & Q & D & L). unfold version_numbers. constructor; [exact E|]. apply Forall_app. split; [exact R|]. apply Forall_app. split.
  - rewrite !map_app. repeat (apply Forall_app; split).
    + destruct (v_pre v) as [t|]; [|constructor]. constructor; [apply P|constructor].
    + destruct (v_post v) as [t|]; [|constructor]. constructor; [apply Q|constructor].
    + destruct (v_dev v) as [t|]; [|constructor]. constructor; [apply D|constructor].
  - destruct (v_local v) as [l|]; [|constructor]. destruct L as [_ L]. induction L as [|[z|s] l H _ IH]; cbn [flat_map app]; [constructor|constructor; auto|exact IH].
Qed.

Lemma int_fits_iff k z : (1 <= k)%nat -> 0 <= z -> int_fits (Some k) z = true <-> z < 10 ^ Z.of_nat k.
Proof. intros K H. unfold int_fits. rewrite Z.abs_eq by exact H. cbn [within]. rewrite Nat.leb_le. now apply length_int. Qed.

Lemma fits_iff k v : (1 <= k)%nat -> wf v -> forallb (int_fits (Some k)) (version_numbers v) = true <-> fits k v.
Proof.
  intros K W. apply wf_numbers in W. unfold fits. rewrite forallb_forall, Forall_forall in *. split; intros H z I; apply (int_fits_iff k z K); auto.
Qed.

Theorem strings_within k v : (1 <= k)%nat -> wf v ->
  (fits k v -> to_string_within (Some k) v = Ok (to_string v) /\ to_short_string_within (Some k) v = Ok (to_short_string v))
  /\ (~ fits k v -> to_string_within (Some k) v = Err ValueError /\ to_short_string_within (Some k) v = Err ValueError).
Proof.
  intros K W. rewrite string_fits, short_string_fits by now apply fits_zero. pose proof (fits_iff k v K W) as F.
  destruct (forallb (int_fits (Some k)) (version_numbers v)); split; intros H; auto; exfalso; intuition discriminate.
Qed.

Theorem strings_unlimited v : to_string_within None v = Ok (to_string v) /\ to_short_string_within None v = Ok (to_short_string v).
Proof.
  rewrite string_fits, short_string_fits by reflexivity. replace (forallb (int_fits None) (version_numbers v)) with true; [auto|].
  symmetry. now apply forallb_forall.
Qed.

(** ** Round trip *)

Lemma tree_fits k t : tree t -> short k t -> (1 <= k)%nat /\ fits k (reading t).
Proof.
  intros T S. pose proof T as (_ & E & F & M & P & Q & G & L & _). unfold short, tree_numbers in S.
  apply Forall_app in S as [S1 S]. inversion S as [|? ? S2 S']; subst. apply Forall_app in S' as [S3 S4]. apply Forall_app in S4 as [S4 S5].
  apply Forall_app in S5 as [S5 S6]. apply Forall_app in S6 as [S6 S7].
  assert (K : (1 <= k)%nat) by (destruct F as [N _]; destruct (g_first t); [congruence|cbn in S2; lia]). split; [exact K|].
  assert (B : forall d, Forall digit d -> (List.length d <= k)%nat -> number d < 10 ^ Z.of_nat k).
  { intros d D H. eapply Z.lt_le_trans; [now apply number_bound|]. apply Z.pow_le_mono_r; lia. }
  assert (Z0 : 0 < 10 ^ Z.of_nat k) by (apply Z.pow_pos_nonneg; lia).
  assert (TG : forall ws o, opt (tag_tree ws) o -> Forall (fun d => (List.length d <= k)%nat) (tag_digits o) -> Forall (fun z => z < 10 ^ Z.of_nat k) (map value (listed (option_map tag_reading o)))).
  { intros ws [[o w [[s d]|]]|] X Y; cbn [option_map listed map]; constructor; try constructor; cbn [tag_reading value g_value].
    - apply B; [apply X|]. cbn [tag_digits] in Y. now inversion Y.
    - exact Z0. }
  unfold fits, version_numbers, reading. cbn [v_epoch v_release v_pre v_post v_dev v_local]. constructor.
  { destruct (g_epoch t) as [d|]; [|exact Z0]. apply B; [apply E|]. now inversion S1. }
  apply Forall_app. split.
  { cbn [map]. constructor; [apply B; [apply F|exact S2]|]. apply Forall_map. rewrite Forall_forall in *. intros d I. apply B; [apply (M d I)|auto]. }
  apply Forall_app. split.
  { rewrite !map_app. apply Forall_app. split; [now apply (TG pre_words)|]. apply Forall_app. split; [|now apply (TG dev_words)].
    destruct (g_post t) as [[d|u]|]; cbn [option_map post_reading listed map].
    - constructor; [|constructor]. cbn [value]. apply B; [apply Q|]. now inversion S5.
    - exact (TG post_words (Some u) Q S5).
    - constructor. }
  destruct (g_local t) as [l|]; cbn [option_map]; [|constructor]. destruct L as [L1 L2].
  assert (X : forall ws, Forall (fun d => (List.length d <= k)%nat) (filter numeric ws) ->
    Forall (fun z => z < 10 ^ Z.of_nat k) (flat_map (fun p => match p with LInt z => [z] | LStr _ => [] end) (map part_reading ws))).
  { induction ws as [|w ws IH]; intros H; cbn [map flat_map]; [constructor|]. cbn [filter] in H. unfold part_reading at 1. fold numeric. change (forallb (fun c => (48 <=? c) && (c <=? 57))%N w) with (numeric w).
    destruct (numeric w) eqn:N; cbn [app].
    - inversion H; subst. constructor; [apply B; [now apply numeric_digits|assumption]|]. now apply IH.
    - now apply IH. }
  exact (X (fst l :: map snd (snd l)) S7).
Qed.

Lemma short_tree_short k v : (1 <= k)%nat -> wf v -> fits k v -> short k (short_tree v).
Proof.
  intros K W F. pose proof (wf_numbers v W) as P. pose proof W as (_ & R & _ & _ & _ & _ & L).
  assert (B : forall z, In z (version_numbers v) -> (List.length (str_int z) <= k)%nat).
  { intros z I. unfold fits in F. rewrite Forall_forall in *. apply length_int; auto. }
  clear P. unfold version_numbers in B. unfold short, short_tree, vtree, tree_numbers. cbn [g_epoch g_first g_more g_pre g_post g_dev g_local].
  apply Forall_app. split. { unfold v_int. destruct (v_epoch v =? 0); constructor; [|constructor]. apply B. now left. }
  constructor. { apply B. right. apply in_or_app. left. destruct (v_release v); [congruence|now left]. }
  apply Forall_app. split. { apply Forall_map. apply Forall_forall. intros z I. apply B. right. apply in_or_app. left. destruct (v_release v); [congruence|now right]. }
  assert (TG : forall o c, incl (map value (listed o)) (map value (listed (v_pre v) ++ listed (v_post v) ++ listed (v_dev v))) ->
     Forall (fun d => (List.length d <= k)%nat) (tag_digits (option_map (short_tag c) o))).
  { intros [t|] c I; cbn [option_map tag_digits short_tag]; constructor; [|constructor]. apply B. right. apply in_or_app. right. apply in_or_app. left. apply I. now left. }
  rewrite !map_app in TG.
  apply Forall_app. split. { apply TG. intros x. rewrite !in_app_iff. auto. }
  apply Forall_app. split.
  { specialize (TG (v_post v) (Some 46%N)). destruct (v_post v) as [t|]; [|constructor]. apply TG. intros x. rewrite !in_app_iff. auto. }
  apply Forall_app. split. { apply TG. intros x. rewrite !in_app_iff. auto. }
  destruct (v_local v) as [[|p l]|]; [constructor| |constructor]. cbn [fst snd]. rewrite map_map. cbn [snd].
  assert (X : forall l, Forall wf_part l -> (forall z, In z (local_ints l) -> (List.length (str_int z) <= k)%nat) ->
    Forall (fun d => (List.length d <= k)%nat) (filter numeric (map part_text l))).
  { induction 1 as [|q m Hq _ IH]; intros H; cbn [map filter]; [constructor|]. destruct q as [z|s]; cbn [part_text local_part_str].
    - assert (Forall (fun d => (List.length d <= k)%nat) (filter numeric (map part_text m))) by (apply IH; intros y I; apply H; now right).
      destruct (numeric (str_int z)); [constructor; [apply H; now left|assumption]|assumption].
    - destruct (numeric s) eqn:N; [|now apply IH]. exfalso. destruct Hq as [_ A]. apply existsb_exists in A as (c & I & A).
      unfold numeric in N. rewrite forallb_forall in N. specialize (N c I). apply alpha_not in A as [A _]. unfold is_digit in A. congruence. }
  apply (X (p :: l)); [apply L|]. intros z I. apply B. right. apply in_or_app. right. apply in_or_app. right. exact I.
Qed.

Theorem trip_within k s v : parse_version_within (Some k) s = Ok v -> exists u,
  to_short_string_within (Some k) v = Ok u /\ parse_version_within (Some k) u = Ok v.
Proof.
  intros H. apply parse_within_iff in H as (t & T & Lc & S & <- & <-). destruct (tree_fits k t T S) as [K F].
  assert (W : wf (reading t)) by now apply reading_wf. destruct (strings_within k _ K W) as [X _]. destruct (X F) as [_ E].
  exists (to_short_string (reading t)). split; [exact E|]. apply parse_within_iff. destruct (short_tree_ok _ W) as (T' & L' & E1 & E2).
  exists (short_tree (reading t)). split; [exact T'|]. split; [exact L'|]. split; [now apply short_tree_short|]. auto.
Qed.

(** ** Specifiers *)

Lemma specifier_fits k s : int_fits k 0 = true -> each_op (fun _ v => forallb (int_fits k) (version_numbers v) = true) s ->
  spec_string_within k s = Ok (spec_to_string s).
Proof.
  intros Z. induction s as [| |t v|ss H|ss H] using spec_members; cbn [each_op spec_string_within spec_to_string]; auto.
  - intros F. now rewrite op_string_fits, F.
  - intros F. match goal with |- bind (?f ss) _ = _ => assert (X : f ss = Ok (map spec_to_string ss)) end; [|now rewrite X].
    induction H as [|s ss Hs _ IH]; [reflexivity|]. destruct F as [F1 F2]. rewrite (Hs F1). cbn [bind]. now rewrite (IH F2).
  - intros F. match goal with |- bind (?f ss) _ = _ => assert (X : f ss = Ok (map spec_to_string ss)) end; [|now rewrite X].
    induction H as [|s ss Hs _ IH]; [reflexivity|]. destruct F as [F1 F2]. rewrite (Hs F1). cbn [bind]. now rewrite (IH F2).
Qed.
