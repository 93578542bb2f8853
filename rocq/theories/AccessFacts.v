(** Accessors, constructors, [weaken] and the strings of segments. *)

From Coq Require Import List ZArith NArith String Bool Lia.
From Verif Require Import Py Segments Version Orders Spec Grammar SegmentSpec Regex Patterns Parsers OrderFacts BumpFacts
  RegexFacts VersionRegex Unambiguous ParseFacts ParseTheorems.
Import ListNotations.
Open Scope Z_scope.

(** ** Reading and writing parts *)

Lemma py_get_front r k : (k < List.length r)%nat -> py_get r (Z.of_nat k) = Ok (part r k).
Proof.
  intros H. unfold py_get, norm_index, part. destruct (Z.ltb_spec (Z.of_nat k) 0); [lia|].
  destruct (Z.ltb_spec (Z.of_nat k) 0); [lia|]. rewrite Nat2Z.id, (nth_error_nth' r 0) by lia. reflexivity.
Qed.

Lemma py_get_back r k : (k < List.length r)%nat -> py_get r (Z.of_nat k - len r) = Ok (part r k).
Proof.
  intros H. unfold py_get, norm_index, part, len. destruct (Z.ltb_spec (Z.of_nat k - Z.of_nat (List.length r)) 0); [|lia].
  replace (Z.of_nat k - Z.of_nat (List.length r) + Z.of_nat (List.length r)) with (Z.of_nat k) by lia.
  destruct (Z.ltb_spec (Z.of_nat k) 0); [lia|]. rewrite Nat2Z.id, (nth_error_nth' r 0) by lia. reflexivity.
Qed.

Lemma py_get_out (r : list Z) i : i < - len r \/ len r <= i -> py_get r i = Err IndexError.
Proof.
  unfold py_get, norm_index, len. intros H.
  destruct (Z.ltb_spec i 0).
  - destruct (Z.ltb_spec (i + Z.of_nat (List.length r)) 0); [reflexivity|lia].
  - destruct (Z.ltb_spec i 0); [lia|]. replace (nth_error r (Z.to_nat i)) with (@None Z); auto.
    symmetry. apply nth_error_None. lia.
Qed.

Lemma get_unchecked v :
  (forall k, (k < List.length (v_release v))%nat ->
     get_at_unchecked v (Z.of_nat k) = Ok (part (v_release v) k)
     /\ get_at_unchecked v (Z.of_nat k - len (v_release v)) = Ok (part (v_release v) k))
  /\ (forall i, i < - len (v_release v) \/ len (v_release v) <= i -> get_at_unchecked v i = Err IndexError).
Proof.
  split.
  - intros k H. split; [now apply py_get_front|now apply py_get_back].
  - intros i H. now apply py_get_out.
Qed.

Lemma py_set_front (r : list Z) k x : (k < List.length r)%nat -> py_set r (Z.of_nat k) x = Ok (update r k x).
Proof.
  intros H. unfold py_set, norm_index, len. destruct (Z.ltb_spec (Z.of_nat k) 0); [lia|].
  destruct (Z.ltb_spec (Z.of_nat k) 0); [lia|]. destruct (Z.leb_spec (Z.of_nat (List.length r)) (Z.of_nat k)); [lia|].
  cbn. now rewrite Nat2Z.id.
Qed.
Lemma py_set_back (r : list Z) k x : (k < List.length r)%nat -> py_set r (Z.of_nat k - len r) x = Ok (update r k x).
Proof.
  intros H. unfold py_set, norm_index, len. destruct (Z.ltb_spec (Z.of_nat k - Z.of_nat (List.length r)) 0); [|lia].
  replace (Z.of_nat k - Z.of_nat (List.length r) + Z.of_nat (List.length r)) with (Z.of_nat k) by lia.
  destruct (Z.ltb_spec (Z.of_nat k) 0); [lia|]. destruct (Z.leb_spec (Z.of_nat (List.length r)) (Z.of_nat k)); [lia|].
  cbn. now rewrite Nat2Z.id.
Qed.
Lemma py_set_out (r : list Z) i x : i < - len r \/ len r <= i -> py_set r i x = Err IndexError.
Proof.
  unfold py_set, norm_index, len. intros H.
  destruct (Z.ltb_spec i 0).
  - destruct (Z.ltb_spec (i + Z.of_nat (List.length r)) 0); [reflexivity|lia].
  - destruct (Z.leb_spec (Z.of_nat (List.length r)) i); [now rewrite orb_true_r|lia].
Qed.

Lemma set_unchecked v x : v_release v <> [] ->
  (forall k, (k < List.length (v_release v))%nat -> exists r,
     set_at_unchecked v (Z.of_nat k) x = Ok (set_release v r)
     /\ set_at_unchecked v (Z.of_nat k - len (v_release v)) x = Ok (set_release v r)
     /\ List.length r = List.length (v_release v)
     /\ forall n, part r n = if (n =? k)%nat then x else part (v_release v) n)
  /\ (forall i, i < - len (v_release v) \/ len (v_release v) <= i -> set_at_unchecked v i x = Err IndexError).
Proof.
  intros N. split.
  - intros k H. exists (update (v_release v) k x). unfold set_at_unchecked, rel_set_at_unchecked.
    rewrite py_set_front, py_set_back by assumption. cbn [bind].
    assert (M : update (v_release v) k x <> []).
    { intros E. apply (f_equal (@List.length Z)) in E. rewrite length_update in E. now destruct (v_release v). }
    rewrite release_new_ok by assumption. cbn [bind]. repeat split; [apply length_update|].
    intros n. now apply part_update.
  - intros i H. unfold set_at_unchecked, rel_set_at_unchecked. now rewrite py_set_out.
Qed.

Lemma negative_index v i x : v_release v <> [] -> i < 0 ->
  get_at v i x = get_at_unchecked v i /\ set_at v i x = set_at_unchecked v i x.
Proof.
  intros N H. unfold get_at, rel_get_at, rel_has_at, rel_precision, set_at, rel_set_at, rel_pad_to_index, rel_pad_to, len.
  assert (L : 0 < Z.of_nat (List.length (v_release v))) by (destruct (v_release v); [congruence|cbn [List.length]; lia]).
  split.
  - destruct (Z.ltb_spec i (Z.of_nat (List.length (v_release v)))); [reflexivity|lia].
  - destruct (Z.ltb_spec (rel_precision (v_release v)) (i + 1)) as [B|B]; [unfold rel_precision, len in B; lia|]. reflexivity.
Qed.

Lemma micro_part v : micro v = Ok (part (v_release v) 2).
Proof. unfold micro, rel_micro. now rewrite get_at_part by (cbv; congruence). Qed.

Lemma extra_parts v : exists head, v_release v = head ++ extra v
  /\ List.length head = Nat.min 3 (List.length (v_release v)).
Proof.
  exists (firstn 3 (v_release v)). split; [|apply firstn_length].
  unfold extra, rel_extra, py_from, norm_index. cbn [Z.ltb TOTAL Z.compare]. change (Z.to_nat TOTAL) with 3%nat.
  symmetry. apply firstn_skipn.
Qed.

Lemma has_parts v i :
  (has_at v i = true <-> i < Z.of_nat (List.length (v_release v)))
  /\ (has_major v = true <-> (0 < List.length (v_release v))%nat)
  /\ (has_minor v = true <-> (1 < List.length (v_release v))%nat)
  /\ (has_micro v = true <-> (2 < List.length (v_release v))%nat)
  /\ (has_extra v = true <-> (3 < List.length (v_release v))%nat)
  /\ (has_extra v = true <-> extra v <> []).
Proof.
  unfold has_at, has_major, has_minor, has_micro, has_extra, rel_has_major, rel_has_minor, rel_has_micro, rel_has_extra,
    rel_has_at, rel_precision, len, MAJOR, MINOR, MICRO, TOTAL.
  rewrite !Z.ltb_lt. repeat split; try lia.
  - intros H E. destruct (extra_parts v) as (head & A & B). rewrite E, app_nil_r in A. rewrite A in H at 1. lia.
  - intros H. destruct (extra_parts v) as (head & A & B). destruct (extra v) as [|x e]; [congruence|].
    apply (f_equal (@List.length Z)) in A. rewrite app_length in A. cbn [List.length] in A. lia.
Qed.

Lemma reading_parts v : v_release v <> [] ->
  major v = Ok (part (v_release v) 0) /\ minor v = Ok (part (v_release v) 1) /\ micro v = Ok (part (v_release v) 2)
  /\ precision v = Z.of_nat (List.length (v_release v)) /\ last_index v = precision v - 1
  /\ get_at v (last_index v) 0 = get_at v (-1) 0.
Proof.
  intros N. repeat split; [apply major_part|apply minor_part|apply micro_part|].
  assert (L : (0 < List.length (v_release v))%nat) by (destruct (v_release v); [congruence|cbn; lia]).
  destruct (negative_index v (-1) 0 N) as [-> _]; [lia|].
  unfold last_index, rel_last_index, rel_precision, get_at_unchecked, rel_get_at_unchecked, get_at.
  rewrite get_at_part by (unfold len; lia).
  replace (-1) with (Z.of_nat (List.length (v_release v) - 1) - len (v_release v)) by (unfold len; lia).
  rewrite py_get_back by lia. f_equal. f_equal. unfold len. lia.
Qed.

(** The parts determine the release up to trailing zeros, with the precision exactly. *)
Lemma parts_determine v w : (forall i, 0 <= i -> get_at v i 0 = get_at w i 0) <-> rel_same (v_release v) (v_release w).
Proof.
  unfold get_at, rel_same. split; intros H.
  - intros n. specialize (H (Z.of_nat n) ltac:(lia)). rewrite !get_at_part, !Nat2Z.id in H by lia. congruence.
  - intros i I. rewrite !get_at_part by lia. now rewrite H.
Qed.

Lemma slice_parts v :
  (forall k, (0 < k)%nat -> v_release v <> [] -> slice v (Z.of_nat k) = Ok (set_release v (firstn k (v_release v))))
  /\ (forall k, (0 < k < List.length (v_release v))%nat ->
        slice v (Z.of_nat k - len (v_release v)) = Ok (set_release v (firstn k (v_release v))))
  /\ (forall i, i = 0 \/ i <= - len (v_release v) -> slice v i = Err ValueError).
Proof.
  unfold slice, rel_slice, rel_slice_parts, py_upto, norm_index. split; [|split].
  - intros k K N. destruct (Z.ltb_spec (Z.of_nat k) 0); [lia|]. rewrite Nat2Z.id, release_new_ok; auto.
    destruct k; [lia|]. destruct (v_release v); [congruence|discriminate].
  - intros k K. unfold len. destruct (Z.ltb_spec (Z.of_nat k - Z.of_nat (List.length (v_release v))) 0); [|lia].
    replace (Z.to_nat _) with k by lia. rewrite release_new_ok; auto.
    destruct k; [lia|]. destruct (v_release v); [cbn in K; lia|discriminate].
  - intros i H. unfold len in *. destruct (Z.ltb_spec i 0).
    + replace (Z.to_nat (i + Z.of_nat (List.length (v_release v)))) with 0%nat by lia. reflexivity.
    + replace (Z.to_nat i) with 0%nat by lia. reflexivity.
Qed.

(** ** weaken *)

Lemma weaken_shape v w : weaken v w =
  Version (v_epoch w) (v_release w) (v_pre w)
    (match v_post v with None => None | Some _ => v_post w end) (v_dev w)
    (match v_local v with None => None | Some _ => v_local w end).
Proof.
  unfold weaken, is_local, is_post_release. destruct w as [e r p q d l].
  destruct (v_local v), (v_post v), l, q; reflexivity.
Qed.

Lemma drop_local w : v_cmp (without_local w) w <> Gt.
Proof.
  unfold v_cmp, key_cmp, key. cbn -[rel_compare_parts].
  rewrite (cmp_refl lawful_Z), (cmp_refl (lawful_lex _ lawful_Z)), !(cmp_refl (lawful_ext _ lawful_tag)). cbn [then_cmp].
  destruct (v_local w); discriminate.
Qed.
Lemma drop_post w : v_cmp (without_post w) w <> Gt.
Proof.
  unfold v_cmp, key_cmp, key. cbn -[rel_compare_parts].
  rewrite (cmp_refl lawful_Z), (cmp_refl (lawful_lex _ lawful_Z)). cbn [then_cmp].
  destruct (v_pre w) as [t|].
  - rewrite (cmp_refl (lawful_ext _ lawful_tag)). cbn [then_cmp].
    destruct (v_post w) as [u|]; cbn [ext_cmp then_cmp]; [discriminate|].
    rewrite (cmp_refl (lawful_ext _ lawful_tag)), (cmp_refl (lawful_ext _ (lawful_lex _ lawful_local_part_key))). discriminate.
  - destruct (v_post w) as [u|], (v_dev w) as [x|]; cbn [ext_cmp then_cmp]; try discriminate;
      rewrite ?(cmp_refl lawful_tag); cbn [then_cmp];
      rewrite ?(cmp_refl (lawful_ext _ (lawful_lex _ lawful_local_part_key))); discriminate.
Qed.

Lemma le_cmp v w : v_le v w = true <-> v_cmp v w <> Gt.
Proof. unfold v_le. destruct (v_cmp v w); cbn; split; congruence. Qed.

Lemma le_trans u v w : v_le u v = true -> v_le v w = true -> v_le u w = true.
Proof.
  rewrite !le_cmp. unfold v_cmp. intros H1 H2 H3.
  destruct (key_cmp (key u) (key v)) eqn:E1; [| |congruence].
  - apply (cmp_eq lawful_key) in E1. rewrite E1 in H3. congruence.
  - destruct (key_cmp (key v) (key w)) eqn:E2; [| |congruence].
    + apply (cmp_eq lawful_key) in E2. rewrite <- E2 in H3. congruence.
    + rewrite (law_trans lawful_key _ _ _ E1 E2) in H3. congruence.
Qed.

Lemma weaken_le v w : v_le (weaken v w) w = true /\ (v_eq (weaken v w) w = true <-> weaken v w = w).
Proof.
  split.
  - unfold weaken.
    assert (A : v_le (if negb (is_local v) && is_local w then without_local w else w) w = true).
    { destruct (negb (is_local v) && is_local w); apply le_cmp; [apply drop_local|]. rewrite v_cmp_refl. discriminate. }
    set (x := if negb (is_local v) && is_local w then without_local w else w) in *.
    destruct (negb (is_post_release v) && is_post_release x); [|exact A].
    eapply le_trans; [|exact A]. apply le_cmp, drop_post.
  - rewrite v_eq_key, key_fields, weaken_shape. destruct w as [e r p q d l].
    cbn [v_epoch v_release v_pre v_post v_dev v_local]. split.
    + intros (_ & _ & _ & H1 & _ & H2). now rewrite H1, H2.
    + intros H. injection H as H1 H2. rewrite H1, H2. auto 10.
Qed.

Lemma weaken_laws v w x :
  weaken v (weaken v w) = weaken v w
  /\ weaken v (weaken x w) = weaken x (weaken v w)
  /\ weaken v v = v
  /\ (v_post v <> None -> v_local v <> None -> weaken v w = w).
Proof.
  rewrite !weaken_shape. destruct v as [e r p q d l], x as [e' r' p' q' d' l'], w as [e'' r'' p'' q'' d'' l''].
  cbn [v_epoch v_release v_pre v_post v_dev v_local].
  destruct q, l, q', l'; repeat split; auto; congruence.
Qed.

(** ** Constructors *)

Lemma tag_new_exact c w x : tag_new c w x = if str_in w (tag_words c) then Ok (Tag (long_form w) x) else Err ValueError.
Proof.
  destruct (str_in w (tag_words c)) eqn:E.
  - apply str_in_iff in E. destruct c; cbn in E; repeat (destruct E as [<-|E]; [reflexivity|]); destruct E.
  - unfold tag_new. assert (X : forall q, In q (map snd PHASE_TO_SHORT) -> In (match dict_get SHORT_TO_PHASE q with Some a => a | None => q end) (phase_set c) -> In q (tag_words c)).
    { intros q Q. destruct c; cbn in Q; repeat (destruct Q as [<-|Q]; [cbn; intuition discriminate|]); destruct Q. }
    destruct (str_in (convert_phase w) (phase_set c)) eqn:F; auto. exfalso. apply str_in_iff in F.
    enough (In w (tag_words c)) by (apply str_in_iff in H; congruence).
    destruct (str_in w (map snd PHASE_TO_SHORT)) eqn:G.
    + apply str_in_iff in G. now apply X.
    + unfold convert_phase in F. replace (dict_get SHORT_TO_PHASE w) with (@None pstr) in F.
      * clear - F. destruct c; cbn in F; repeat (destruct F as [<-|F]; [cbn; tauto|]); destruct F.
      * symmetry. clear - G. unfold str_in in G. cbn [map snd PHASE_TO_SHORT existsb SHORT_TO_PHASE dict_get fst] in *.
        rewrite !orb_false_iff in G.
        assert (Y : forall a b, str_eqb a b = false -> str_eqb b a = false).
        { intros a b H. destruct (str_eqb b a) eqn:Z; auto. apply str_eqb_eq in Z. subst. now rewrite str_eqb_refl in H. }
        repeat match goal with H : _ /\ _ |- _ => destruct H end.
        repeat (rewrite Y by assumption). reflexivity.
Qed.

Lemma tag_create_exact c o x :
  tag_create c o x =
    match o with
    | None => Ok (Tag (match c with AnyTag | PreTag => lit "alpha" | PostTag => lit "post" | DevTag => lit "dev" end) x)
    | Some w => if str_in w (tag_words c) then Ok (Tag (long_form w) x) else Err ValueError
    end.
Proof. destruct o as [w|]; [apply tag_new_exact|]. now destruct c. Qed.

Lemma tag_created_valid c o x t : tag_create c o x = Ok t -> valid_tag c t = true /\ value t = x.
Proof.
  rewrite tag_create_exact. destruct o as [w|].
  - destruct (str_in w (tag_words c)) eqn:E; [|discriminate]. intros [= <-]. apply str_in_iff in E. split; [|reflexivity].
    destruct c; cbn in E; repeat (destruct E as [<-|E]; [reflexivity|]); destruct E.
  - intros [= <-]. destruct c; auto.
Qed.

Lemma tag_updates c t : valid_tag c t = true ->
  (forall x, tag_set_value c t x = Ok (Tag (phase t) x))
  /\ (forall w, tag_set_phase c t w = if str_in w (tag_words c) then Ok (Tag (long_form w) (value t)) else Err ValueError)
  /\ tag_next c t = Ok (Tag (phase t) (value t + 1)).
Proof.
  intros V. split; [|split].
  - intros x. now apply tag_new_valid.
  - intros w. apply tag_new_exact.
  - now apply tag_next_valid.
Qed.

Lemma created e r p q d l :
  create e r p q d l = Version (match e with None => 0 | Some e => e end) (match r with None => [0; 0; 0] | Some r => r end) p q d l
  /\ from_parts [] e p q d l = Err ValueError
  /\ (forall x xs, from_parts (x :: xs) e p q d l = Ok (create e (Some (x :: xs)) p q d l)).
Proof. repeat split. Qed.

(** Every version is created from its segments. *)
Lemma recreated v : v_release v <> [] ->
  from_parts (v_release v) (Some (v_epoch v)) (v_pre v) (v_post v) (v_dev v) (v_local v) = Ok v
  /\ create (Some (v_epoch v)) (Some (v_release v)) (v_pre v) (v_post v) (v_dev v) (v_local v) = v.
Proof. intros N. destruct v as [e [|x r] p q d l]; [now destruct N|]. split; reflexivity. Qed.

Lemma created_valid e r p q d l : r <> Some [] -> l <> Some [] ->
  valid_otag PreTag p = true -> valid_otag PostTag q = true -> valid_otag DevTag d = true ->
  valid_version (create e r p q d l) = true.
Proof.
  intros R L P Q D. unfold valid_version, create. cbn [v_release v_pre v_post v_dev v_local]. rewrite P, Q, D.
  destruct r as [[|x r]|], l as [[|y l]|]; try congruence; reflexivity.
Qed.

(** ** Strings of segments *)

Lemma letters_iff w : letters w <-> w <> [] /\ Forall letter w.
Proof.
  unfold letters. split; intros [N F]; split; auto; eapply Forall_impl; [|exact F| |exact F]; intros c H; now apply letter_iff.
Qed.

Lemma spelled_iff s w n : spelled_tag s w n <-> exists x, letters w /\ value_tree x /\ s = w ++ value_text x /\ n = value_reading x.
Proof.
  unfold spelled_tag. split.
  - intros (N & F & [[-> ->]|(o & d & O & D & -> & ->)]).
    + exists None. repeat split; auto; [now apply letters_iff|]. cbn. now rewrite app_nil_r.
    + exists (Some (o, d)). split; [now apply letters_iff|]. repeat split; auto; apply D.
  - intros (x & L & X & -> & ->). apply letters_iff in L as [N F]. split; auto. split; auto.
    destruct x as [[o d]|]; [right; exists o, d; cbn in X; tauto|left; cbn; now rewrite app_nil_r].
Qed.

Lemma parse_tag_exact c s :
  (forall w n, spelled_tag s w n ->
     parse_tag c s = if str_in w (tag_words c) then Ok (Tag (long_form w) n) else Err ValueError)
  /\ ((forall w n, ~ spelled_tag s w n) -> parse_tag c s = Err ParseTagError).
Proof.
  split.
  - intros w n H. apply spelled_iff in H as (x & L & X & -> & ->). rewrite parse_tag_eq by assumption. apply tag_new_exact.
  - intros H. apply parse_tag_none. intros u x U X E. apply (H u (value_reading x)). apply spelled_iff. eauto.
Qed.

Lemma valid_word c t : valid_tag c t = true ->
  In (phase t) (tag_words c) /\ long_form (phase t) = phase t /\ letters (phase t)
  /\ In (tag_short t) (tag_words c) /\ long_form (tag_short t) = phase t /\ letters (tag_short t).
Proof.
  intros V. unfold valid_tag in V. apply andb_true_iff in V as [V1 V2]. apply str_in_iff in V1.
  assert (A : forall w, w <> [] -> forallb is_alpha w = true -> letters w).
  { intros w N H. split; auto. apply Forall_forall. now apply forallb_forall. }
  destruct t as [p n]. unfold tag_short. cbn [phase] in *.
  destruct c; cbn in V1; repeat (destruct V1 as [<-|V1];
    [try discriminate V2; (split; [cbn; tauto|]; split; [reflexivity|]; split; [apply A; [discriminate|reflexivity]|];
      split; [cbn; tauto|]; split; [reflexivity|apply A; [discriminate|reflexivity]])|]); destruct V1.
Qed.

Lemma tag_strings c t : wf_tag c t -> parse_tag c (tag_to_string t) = Ok t /\ parse_tag c (tag_to_short_string t) = Ok t.
Proof.
  intros [V P]. destruct (valid_word c t V) as (A1 & A2 & A3 & B1 & B2 & B3). destruct (str_int_digits _ P) as [D E]. split.
  - change (tag_to_string t) with (phase t ++ value_text (Some (Some 46%N, str_int (value t)))).
    rewrite parse_tag_eq, tag_new_exact; auto; [|split; [now left|exact D]]. apply str_in_iff in A1. rewrite A1, A2. cbn [value_reading].
    rewrite E. now destruct t.
  - change (tag_to_short_string t) with (tag_short t ++ value_text (Some (None, str_int (value t)))).
    rewrite parse_tag_eq, tag_new_exact; auto; [|split; [exact I|exact D]]. apply str_in_iff in B1. rewrite B1, B2. cbn [value_reading].
    rewrite E. now destruct t.
Qed.

Lemma release_strings r : r <> [] -> Forall (fun x => 0 <= x) r -> rel_from_string (rel_to_string r) = Ok r.
Proof.
  intros N F. destruct r as [|x r]; [congruence|].
  assert (A : forall xs, Forall (fun x => 0 <= x) xs -> Forall digits (map str_int xs) /\ map number (map str_int xs) = xs).
  { intros xs H. induction H as [|y ys H _ [IH1 IH2]]; [split; constructor|]. destruct (str_int_digits y H) as [S1 S2].
    cbn [map]. split; [constructor; auto|]. now rewrite S2, IH2. }
  destruct (A _ F) as [A1 A2]. cbn [map] in A1. unfold rel_to_string. cbn [map]. change (lit ".") with [46%N]. rewrite join_concat.
  fold (release_text (str_int x) (map str_int r)). rewrite release_reading; [now rewrite <- A2|now inversion A1|now inversion A1].
Qed.

Lemma local_strings l : l <> [] -> Forall wf_part l -> local_from_string (local_to_string l) = Ok l.
Proof.
  intros N F. destruct l as [|p l]; [congruence|].
  inversion F as [|? ? F1 F2]; subst. unfold local_to_string. cbn [map]. change (lit ".") with [46%N]. rewrite join_concat.
  replace (local_part_str p ++ List.concat (map (cons 46%N) (map local_part_str l)))
    with (local_text (part_text p, map (fun p => (46%N, part_text p)) l)) by (unfold local_text; cbn [fst snd]; now rewrite !map_map).
  rewrite local_reading.
  - cbn [fst snd map]. rewrite !map_map. cbn [snd]. f_equal. f_equal; [now apply part_text_ok|].
    clear - F2. induction F2 as [|y l H _ IH]; auto. cbn [map]. now rewrite IH, (proj2 (part_text_ok y H)).
  - split; cbn [fst snd]; [now apply part_text_ok|]. apply Forall_map. eapply Forall_impl; [|exact F2]. cbn. intros q Hq. split; [now left|now apply part_text_ok].
Qed.

Lemma epoch_string e : 0 <= e -> py_int (str_int e) = Ok e.
Proof. intros H. destruct (str_int_digits e H) as [D E]. now rewrite py_int_digits, E. Qed.
