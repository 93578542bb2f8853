(** Proofs about PEP 440. *)

From Coq Require Import List ZArith NArith String Bool Lia.
From Coq Require DecimalFacts DecimalN DecimalPos.
From Verif Require Import Py Segments Version Operators Specifiers Parsers Patterns Spec OrderFacts Grammar ParseFacts ParseTheorems MetaFacts PepSpec.
Import ListNotations.
Open Scope Z_scope.

(** ** Numbers *)

Lemma unorm_shape d : match Decimal.unorm d with Decimal.Nil => False | Decimal.D0 d' => d' = Decimal.Nil | _ => True end.
Proof. induction d; try exact I; [reflexivity|]. now rewrite DecimalFacts.unorm_D0. Qed.

Lemma numeral_int z : 0 <= z -> numeral (str_int z).
Proof.
  intros H. assert (E : str_int z = uint_str (N.to_uint (Z.to_N z))) by (destruct z; [reflexivity..|lia]).
  rewrite E. set (n := Z.to_N z). pose proof (DecimalN.Unsigned.to_of (N.to_uint n)) as T. rewrite DecimalN.Unsigned.of_to in T.
  pose proof (unorm_shape (N.to_uint n)) as U. rewrite <- T in U.
  pose proof (uint_str_digits (N.to_uint n)) as F. unfold numeral.
  destruct (N.to_uint n) as [|d|d|d|d|d|d|d|d|d|d]; [destruct U|subst d; now left|right..]; cbn [uint_str] in *; apply Forall_inv_tail in F;
    eexists; eexists; (split; [reflexivity|split; [lia|exact F]]).
Qed.

Lemma digits_uint s : Forall digit s -> exists d, s = uint_str d.
Proof.
  induction 1 as [|c s Hc Hs [d ->]]; [now exists Decimal.Nil|]. apply digit_cases in Hc. cbn [In] in Hc.
  repeat destruct Hc as [<-|Hc]; [exists (Decimal.D0 d)|exists (Decimal.D1 d)|exists (Decimal.D2 d)|exists (Decimal.D3 d)|exists (Decimal.D4 d)
    |exists (Decimal.D5 d)|exists (Decimal.D6 d)|exists (Decimal.D7 d)|exists (Decimal.D8 d)|exists (Decimal.D9 d)|destruct Hc]; reflexivity.
Qed.

Lemma int_numeral n : numeral n -> exists z, 0 <= z /\ str_int z = n.
Proof.
  intros [->|(c & t & -> & C & F)]; [exists 0; split; [lia|reflexivity]|].
  assert (G : Forall digit (c :: t)) by (constructor; [unfold digit; lia|exact F]).
  destruct (digits_uint (c :: t) G) as [d E]. exists (Z.of_N (N.of_uint d)). split; [lia|].
  assert (X : str_int (Z.of_N (N.of_uint d)) = uint_str (N.to_uint (N.of_uint d))) by (destruct (N.of_uint d); reflexivity).
  rewrite X, DecimalN.Unsigned.to_of, E. f_equal.
  destruct d; cbn [uint_str] in E; try reflexivity; [discriminate|]. inversion E. lia.
Qed.

Lemma numerals_ints ns : Forall numeral ns -> exists zs, Forall (fun z => 0 <= z) zs /\ map str_int zs = ns.
Proof.
  induction 1 as [|n ns H _ (zs & F & E)]; [exists []; split; [constructor|reflexivity]|].
  destruct (int_numeral n H) as (z & Z & <-). exists (z :: zs). split; [now constructor|]. cbn [map]. now rewrite E.
Qed.

Lemma join_dotted x xs : join (lit ".") (x :: xs) = dotted x xs.
Proof.
  unfold dotted. revert x. induction xs as [|y xs IH]; intros x; [cbn; now rewrite app_nil_r|].
  change (join (lit ".") (x :: y :: xs)) with (x ++ lit "." ++ join (lit ".") (y :: xs)). rewrite IH. reflexivity.
Qed.

(** ** Words *)

Lemma small_alpha c : small c -> is_alpha c = true.
Proof.
  unfold small. intros H.
  assert (X : In c (map N.of_nat (seq 97 26))).
  { replace c with (N.of_nat (N.to_nat c)) by lia. apply in_map, in_seq. lia. }
  cbn in X. repeat (destruct X as [<-|X]; [reflexivity|]). destruct X.
Qed.

Lemma digit_is c : (48 <= c <= 57)%N -> is_digit c = true.
Proof. intros H. unfold is_digit. apply andb_true_iff. split; apply N.leb_le; lia. Qed.

Lemma alnum_small c : small c \/ (48 <= c <= 57)%N -> is_alnum c = true.
Proof. unfold is_alnum. intros [H|H]; [rewrite small_alpha; auto|rewrite (digit_is c H); apply orb_true_r]. Qed.

Lemma alpha_small c : is_alpha c = true -> small c \/ (48 <= c <= 57)%N -> small c.
Proof.
  intros A [H|H]; auto. exfalso. assert (X : In c (map N.of_nat (seq 48 10))).
  { replace c with (N.of_nat (N.to_nat c)) by lia. apply in_map, in_seq. lia. }
  cbn in X. repeat (destruct X as [<-|X]; [discriminate A|]). destruct X.
Qed.

Lemma word_part p : wf_part p -> small_part p -> word (local_part_str p).
Proof.
  destruct p as [z|s]; intros W S; cbn [local_part_str].
  - left. now apply numeral_int.
  - right. split; [exact S|]. destruct W as [_ W]. apply existsb_exists in W as (c & I & A). apply Exists_exists. exists c. split; auto.
    cbn [small_part] in S. rewrite Forall_forall in S. apply alpha_small; auto.
Qed.

Lemma part_word w : word w -> exists p, wf_part p /\ small_part p /\ local_part_str p = w.
Proof.
  intros [H|[H E]].
  - destruct (int_numeral w H) as (z & Z & <-). exists (LInt z). split; [exact Z|]. split; [exact I|reflexivity].
  - exists (LStr w). split; [|split; [exact H|reflexivity]]. split.
    + apply forallb_forall. rewrite Forall_forall in H. intros c C. apply alnum_small; auto.
    + apply existsb_exists. apply Exists_exists in E as (c & C & S). exists c. split; auto. now apply small_alpha.
Qed.

Lemma words_parts ws : Forall word ws -> exists l, Forall wf_part l /\ Forall small_part l /\ map local_part_str l = ws.
Proof.
  induction 1 as [|w ws H _ (l & F & S & E)]; [exists []; repeat split; constructor|].
  destruct (part_word w H) as (p & P & Q & <-). exists (p :: l). split; [now constructor|]. split; [now constructor|]. cbn [map]. now rewrite E.
Qed.

(** ** Strings *)

Lemma usual_normal v : wf v -> usual v <-> normal_version v = v.
Proof.
  intros (_ & _ & _ & P & Q & D & _). destruct v as [e r pre post dev l]. unfold usual, normal_version. cbn [v_epoch v_release v_pre v_post v_dev v_local] in *.
  assert (A : (forall t, pre = Some t -> In (phase t) (map lit ["alpha"; "beta"; "rc"]%string)) <-> option_map normal_tag pre = pre).
  { destruct pre as [t|]; [|split; [reflexivity|discriminate]]. cbn [wf_otag option_map] in *. pose proof (wf_phase PreTag t P ltac:(discriminate)) as X.
    destruct t as [p n]. cbn [phase] in X. cbn in X.
    repeat (destruct X as [<-|X]; [split; [first [reflexivity | intros H; specialize (H _ eq_refl); cbn in H; intuition discriminate] | intros H t T; inversion T; subst t; cbn; first [tauto | discriminate H]]|]). destruct X. }
  assert (B : (forall t, post = Some t -> phase t = lit "post") <-> option_map normal_tag post = post).
  { destruct post as [t|]; [|split; [reflexivity|discriminate]]. cbn [wf_otag option_map] in *. pose proof (wf_phase PostTag t Q ltac:(discriminate)) as X.
    destruct t as [p n]. cbn [phase] in X. cbn in X.
    repeat (destruct X as [<-|X]; [split; [first [reflexivity | intros H; specialize (H _ eq_refl); discriminate H] | intros H t T; inversion T; subst t; first [reflexivity | discriminate H]]|]). destruct X. }
  assert (C : option_map normal_tag dev = dev).
  { destruct dev as [t|]; auto. cbn [wf_otag option_map] in *. pose proof (wf_phase DevTag t D ltac:(discriminate)) as X.
    destruct t as [p n]. cbn [phase] in X. cbn in X. repeat (destruct X as [<-|X]; [reflexivity|]). destruct X. }
  rewrite A, B. split.
  - intros [-> ->]. now rewrite C.
  - intros H. injection H as H1 H2 _. auto.
Qed.

Lemma phase_dev t : wf_tag DevTag t -> phase t = lit "dev".
Proof. intros W. pose proof (wf_phase DevTag t W ltac:(discriminate)) as X. cbn in X. destruct X as [X|[]]. symmetry. exact X. Qed.

Lemma dotted_ints r : r <> [] -> Forall (fun z => 0 <= z) r -> exists n ns, numeral n /\ Forall numeral ns /\ rel_to_string r = dotted n ns.
Proof.
  destruct r as [|z r]; [congruence|]. intros _ F. exists (str_int z), (map str_int r). apply Forall_cons_iff in F as [Z F].
  split; [now apply numeral_int|]. split; [apply Forall_map; eapply Forall_impl; [|exact F]; intros x; apply numeral_int|]. unfold rel_to_string. cbn [map]. apply join_dotted.
Qed.

Lemma pep_string v : wf v -> usual v -> small_local v -> pep440 (to_short_string v).
Proof.
  intros (E & R & N & P & Q & D & L) [U1 U2] S. unfold to_short_string.
  do 6 eexists. split; [reflexivity|]. split; [|split; [|split; [|split; [|split]]]].
  - destruct (v_epoch v =? 0) eqn:Z; [now left|]. right. exists (str_int (v_epoch v)). split; [now apply numeral_int|]. split; [|reflexivity].
    intros X. apply Z.eqb_neq in Z. apply Z. destruct (str_int_digits _ E) as [_ Y]. rewrite X in Y. symmetry. exact Y.
  - now apply dotted_ints.
  - destruct (v_pre v) as [t|]; [right|now left]. specialize (U1 t eq_refl). destruct P as [_ P]. destruct t as [p n]. cbn [phase value] in *.
    unfold tag_to_short_string. cbn [value]. exists (tag_short (Tag p n)), (str_int n). split; [|split; [now apply numeral_int|reflexivity]].
    cbn in U1. repeat (destruct U1 as [<-|U1]; [cbn; tauto|]). destruct U1.
  - destruct (v_post v) as [t|]; [right|now left]. specialize (U2 t eq_refl). destruct Q as [_ Q]. destruct t as [p n]. cbn [phase value] in *. subst p.
    exists (lit ".post"), (str_int n). split; [now left|]. split; [now apply numeral_int|reflexivity].
  - destruct (v_dev v) as [t|]; [right|now left]. apply phase_dev in D as X. destruct D as [_ D]. destruct t as [p n]. cbn [phase value] in *. subst p.
    exists (lit ".dev"), (str_int n). split; [now left|]. split; [now apply numeral_int|reflexivity].
  - unfold small_local in S. destruct (v_local v) as [l|]; [right|now left]. destruct L as [L1 L2]. destruct l as [|p l]; [congruence|].
    exists (local_part_str p), (map local_part_str l). apply Forall_cons_iff in L2 as [L2 L3], S as [S1 S2]. split; [now apply word_part|]. split.
    + apply Forall_map, Forall_forall. intros x X. rewrite Forall_forall in L3, S2. apply word_part; auto.
    + unfold local_to_string. cbn [map]. now rewrite join_dotted.
Qed.

Lemma string_pep s : pep440 s -> exists v, wf v /\ usual v /\ small_local v /\ to_short_string v = s.
Proof.
  intros (e & r & p & q & d & l & -> & E & R & P & Q & D & L).
  assert (E' : exists z, 0 <= z /\ (if z =? 0 then [] else str_int z ++ lit "!") = e).
  { destruct E as [->|(n & N & X & ->)]; [exists 0; split; [lia|reflexivity]|]. destruct (int_numeral n N) as (z & Z & <-). exists z. split; auto.
    destruct (Z.eqb_spec z 0) as [->|Y]; [|reflexivity]. exfalso. now apply X. }
  assert (R' : exists zs, zs <> [] /\ Forall (fun z => 0 <= z) zs /\ rel_to_string zs = r).
  { destruct R as (n & ns & N & NS & ->). destruct (int_numeral n N) as (z & Z & <-), (numerals_ints ns NS) as (zs & ZS & <-). exists (z :: zs).
    split; [discriminate|]. split; [now constructor|]. unfold rel_to_string. cbn [map]. apply join_dotted. }
  assert (P' : exists t, wf_otag PreTag t /\ (forall u, t = Some u -> In (phase u) (map lit ["alpha"; "beta"; "rc"]%string))
    /\ match t with None => [] | Some t => tag_to_short_string t end = p).
  { destruct P as [->|(w & n & W & N & ->)]; [exists None; split; [exact I|split; [discriminate|reflexivity]]|].
    destruct (int_numeral n N) as (z & Z & <-).
    destruct W as [<-|[<-|[<-|[]]]]; [exists (Some (Tag (lit "alpha") z))|exists (Some (Tag (lit "beta") z))|exists (Some (Tag (lit "rc") z))];
      (split; [split; [reflexivity|exact Z]|split; [intros u H; inversion H; subst u; cbn; tauto|reflexivity]]). }
  assert (Q' : exists t, wf_otag PostTag t /\ (forall u, t = Some u -> phase u = lit "post")
    /\ match t with None => [] | Some t => lit "." ++ tag_to_short_string t end = q).
  { destruct Q as [->|(w & n & W & N & ->)]; [exists None; split; [exact I|split; [discriminate|reflexivity]]|].
    destruct (int_numeral n N) as (z & Z & <-). destruct W as [<-|[]]. exists (Some (Tag (lit "post") z)).
    split; [split; [reflexivity|exact Z]|split; [intros u H; inversion H; subst u; reflexivity|reflexivity]]. }
  assert (D' : exists t, wf_otag DevTag t /\ match t with None => [] | Some t => lit "." ++ tag_to_short_string t end = d).
  { destruct D as [->|(w & n & W & N & ->)]; [exists None; split; [exact I|reflexivity]|].
    destruct (int_numeral n N) as (z & Z & <-). destruct W as [<-|[]]. exists (Some (Tag (lit "dev") z)).
    split; [split; [reflexivity|exact Z]|reflexivity]. }
  assert (L' : exists t, wf_local t /\ match t with None => True | Some l => Forall small_part l end
    /\ match t with None => [] | Some l => lit "+" ++ local_to_string l end = l).
  { destruct L as [->|(w & ws & W & WS & ->)]; [exists None; repeat split; exact I|].
    destruct (part_word w W) as (x & X1 & X2 & <-), (words_parts ws WS) as (xs & Y1 & Y2 & <-). exists (Some (x :: xs)).
    split; [split; [discriminate|now constructor]|]. split; [now constructor|]. unfold local_to_string. cbn [map]. now rewrite join_dotted. }
  destruct E' as (z & Z & <-), R' as (zs & ZN & ZS & <-), P' as (t & T1 & T2 & <-), Q' as (u & U1 & U2 & <-), D' as (w & W1 & <-), L' as (m & M1 & M2 & <-).
  exists (Version z zs t u w m). split; [unfold wf; cbn [v_epoch v_release v_pre v_post v_dev v_local]; auto 10|]. split; [split; assumption|]. split; [exact M2|reflexivity].
Qed.

Lemma short_inj v w : wf v -> wf w -> to_short_string v = to_short_string w -> v = w.
Proof. intros V W E. pose proof (parse_short v V) as A. pose proof (parse_short w W) as B. congruence. Qed.

Theorem pep_strings v : wf v -> exists s, to_pep440_string v = Ok s /\ (pep440 s <-> small_local v).
Proof.
  intros W. destruct (normalize_eq v W) as (E & W' & I). unfold to_pep440_string. rewrite E. cbn [bind]. eexists. split; [reflexivity|].
  assert (U : usual (normal_version v)) by now apply usual_normal. split.
  - intros P. destruct (string_pep _ P) as (u & Wu & _ & S & X). apply short_inj in X; auto. subst u. exact S.
  - intros S. now apply pep_string.
Qed.

Theorem strings_pep s : pep440 s <-> exists v, wf v /\ small_local v /\ parse_version s = Ok v /\ normalize v = Ok v /\ to_pep440_string v = Ok s.
Proof.
  split.
  - intros P. destruct (string_pep s P) as (v & W & U & S & <-). exists v. destruct (normalize_eq v W) as (E & _ & _).
    apply usual_normal in U; auto. rewrite U in E. split; auto. split; auto. split; [now apply parse_short|]. split; [exact E|].
    unfold to_pep440_string. rewrite E. reflexivity.
  - intros (v & W & S & _ & _ & X). destruct (pep_strings v W) as (s' & Y & H). assert (s' = s) as -> by congruence. now apply H.
Qed.

(** ** Order *)

Lemma pre_letter t u : In (phase t) (map lit ["alpha"; "beta"; "rc"]%string) -> In (phase u) (map lit ["alpha"; "beta"; "rc"]%string) ->
  (tag_before PHASE_ORDER t u <-> letter t < letter u \/ letter t = letter u /\ value t < value u)
  /\ (t = u <-> letter t = letter u /\ value t = value u).
Proof.
  destruct t as [p n], u as [q m]. unfold tag_before, letter. cbn [phase value]. intros P Q. cbn in P, Q.
  assert (X : forall p n q m, Tag p n = Tag q m <-> p = q /\ n = m) by (intros; split; [intros H; inversion H; auto|intros [-> ->]; auto]).
  rewrite X. clear X.
  destruct P as [<-|[<-|[<-|[]]]], Q as [<-|[<-|[<-|[]]]]; cbn;
    (split; split; [intros [H|[H H']]; try discriminate; try lia|intros [H|[H H']]; try lia; try (left; lia); try (right; split; [reflexivity|lia])|intros [H H']; try discriminate; try lia|intros [H H']; try lia; try (split; [reflexivity|lia])]).
Qed.

Lemma letter_range t : 1 <= letter t <= 3.
Proof. unfold letter. destruct (list_eq_dec _ _ _); [lia|]. destruct (list_eq_dec _ _ _); lia. Qed.

Lemma one_phase ph order t u : phase t = ph -> phase u = ph -> (tag_before order t u <-> value t < value u) /\ (t = u <-> value t = value u).
Proof.
  destruct t as [p n], u as [q m]. unfold tag_before. cbn [phase value]. intros -> ->. split.
  - split; [intros [H|[_ H]]; lia|auto].
  - split; [intros H; now inversion H|now intros ->].
Qed.

Lemma rank_tags v w : wf v -> wf w -> usual v -> usual w ->
  (first_less (rank v) (rank w) <->
    stage v < stage w \/ stage v = stage w /\ (
    none_first (tag_before PHASE_ORDER) (v_pre v) (v_pre w) \/ v_pre v = v_pre w /\ (
    none_first (tag_before POST_ORDER) (v_post v) (v_post w) \/ v_post v = v_post w /\
    none_last (tag_before []) (v_dev v) (v_dev w))))
  /\ (rank v = rank w <-> v_pre v = v_pre w /\ v_post v = v_post w /\ v_dev v = v_dev w).
Proof.
  intros (_ & _ & _ & P & Q & D & _) (_ & _ & _ & P' & Q' & D' & _) [U1 U2] [U1' U2'].
  destruct v as [e r p q d l], w as [e' r' p' q' d' l']. unfold rank, stage. cbn [v_pre v_post v_dev] in *.
  destruct p as [p|], p' as [p'|]; (try pose proof (pre_letter p p' (U1 _ eq_refl) (U1' _ eq_refl)) as [A1 A2]); (try pose proof (letter_range p)); (try pose proof (letter_range p'));
  destruct q as [q|], q' as [q'|]; (try pose proof (one_phase _ POST_ORDER q q' (U2 _ eq_refl) (U2' _ eq_refl)) as [B1 B2]);
  destruct d as [d|], d' as [d'|]; (try pose proof (one_phase _ [] d d' (phase_dev _ D) (phase_dev _ D')) as [C1 C2]);
  cbn [wf_otag none_first none_last first_less app] in *; unfold wf_tag in *;
  (assert (INJ : forall (A : Type) (a b : A), Some a = Some b <-> a = b) by (intros A a b; split; [intros X; now inversion X|now intros ->]));
  rewrite ?INJ, ?A1, ?A2, ?B1, ?B2, ?C1, ?C2; clear INJ U1 U2 U1' U2';
  (split; [intuition (try discriminate; try lia)|split; [intros X; inversion X; intuition lia|intros X; repeat match goal with H : _ /\ _ |- _ => destruct H end; try discriminate; repeat (f_equal; try lia)]]).
Qed.

Lemma small_same v : small_local v -> small_words (v_local v) = v_local v.
Proof.
  unfold small_local, small_words. destruct (v_local v) as [l|]; auto. intros F. cbn [option_map]. f_equal.
  induction F as [|p l H _ IH]; auto. cbn [map]. rewrite IH. f_equal. destruct p as [z|s]; auto. f_equal. cbn [small_part] in H.
  induction H as [|c s C _ IHs]; auto. cbn [map]. rewrite IHs. f_equal. unfold to_small, small in *.
  destruct (N.leb_spec 65 c), (N.leb_spec c 90); cbn; auto. lia.
Qed.

Theorem pep_order v w : wf v -> wf w -> usual v -> usual w -> small_local v -> small_local w ->
  (v_lt v w = true <-> pep_before v w) /\ (v_eq v w = true <-> pep_same v w).
Proof.
  intros V W Uv Uw Sv Sw. destruct (rank_tags v w V W Uv Uw) as [A B].
  apply wf_ordinary in V as V', W as W'. rewrite (lt_before v w V' W'), (eq_same v w (proj1 V') (proj1 W')).
  unfold before, pep_before, same, pep_same. rewrite A, B, !small_same by assumption. split; [|tauto].
  assert (T : v_pre v = v_pre w -> v_post v = v_post w -> v_dev v = v_dev w -> stage v = stage w) by (unfold stage; intros -> -> ->; reflexivity).
  tauto.
Qed.

Lemma letter_normal t : wf_tag PreTag t -> letter (normal_tag t) = letter t.
Proof.
  intros W. pose proof (wf_phase PreTag t W ltac:(discriminate)) as X. destruct t as [p n]. cbn [phase] in X. cbn in X.
  repeat (destruct X as [<-|X]; [reflexivity|]). destruct X.
Qed.

Lemma rank_normal v : wf v -> rank (normal_version v) = rank v.
Proof.
  intros (_ & _ & _ & P & Q & D & _). unfold rank. cbn [normal_version v_pre v_post v_dev].
  destruct (v_pre v) as [p|], (v_post v) as [q|], (v_dev v) as [d|]; cbn [option_map]; rewrite ?letter_normal by exact P; reflexivity.
Qed.

Theorem pep_normal v w : wf v -> wf w -> small_local v -> small_local w -> exists n m, normalize v = Ok n /\ normalize w = Ok m
  /\ (v_lt n m = true <-> pep_before v w) /\ (v_eq n m = true <-> pep_same v w).
Proof.
  intros V W Sv Sw. destruct (normalize_eq v V) as (-> & Vn & Iv), (normalize_eq w W) as (-> & Wn & Iw).
  exists (normal_version v), (normal_version w). split; auto. split; auto.
  destruct (pep_order (normal_version v) (normal_version w)) as [A B]; auto; try (apply usual_normal; assumption).
  rewrite A, B. unfold pep_before, pep_same. rewrite !rank_normal by assumption. split; reflexivity.
Qed.
