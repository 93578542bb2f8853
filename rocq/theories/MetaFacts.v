(** Python's version, the command line and [repr]. *)

From Coq Require Import List ZArith NArith String Bool Lia.
From Verif Require Import Py Segments Version Orders Spec Grammar SegmentSpec Regex Patterns Parsers Meta OrderFacts BumpFacts
  RegexFacts VersionRegex Unambiguous ParseFacts ParseTheorems.
Import ListNotations.
Open Scope Z_scope.

(** ** Releases of the same length *)

Lemma rel_before_cons x y r s : rel_before (x :: r) (y :: s) <-> x < y \/ x = y /\ rel_before r s.
Proof.
  split.
  - intros ([|n] & E & L).
    + now left.
    + right. split; [exact (E 0%nat ltac:(lia))|]. exists n. split; [|exact L].
      intros m Hm. exact (E (S m) ltac:(lia)).
  - intros [H|[-> (n & E & L)]].
    + exists 0%nat. split; [lia|exact H].
    + exists (S n). split; [|exact L]. intros [|m] Hm; [reflexivity|]. exact (E m ltac:(lia)).
Qed.

Lemma rel_before_lex r : forall s, List.length r = List.length s -> rel_before r s <-> Py.lex Z.compare r s = Lt.
Proof.
  induction r as [|x r IH]; intros [|y s]; try discriminate; cbn [List.length Py.lex].
  - intros _. split; [|discriminate]. intros (n & _ & L). unfold part in L. destruct n; cbn in L; lia.
  - intros [= E]. rewrite rel_before_cons, (IH s E). destruct (Z.compare_spec x y); intuition (try lia; try congruence).
Qed.

Lemma rel_same_length r : forall s, List.length r = List.length s -> rel_same r s <-> r = s.
Proof.
  intros s E. split; [|now intros ->]. intros H. now apply part_ext.
Qed.

(** ** Python's version *)

Definition python_pre (ph : pstr) (x : Z) : option tag :=
  if str_eqb ph (lit "final") then None
  else Some (Tag (if str_eqb ph (lit "candidate") then lit "rc" else ph) x).

Lemma python_shape mj mn mc ph x : In ph LEVELS ->
  python_version_info mj mn mc ph x = Ok (Version 0 [mj; mn; mc] (python_pre ph x) None None None).
Proof. cbn. intros H. repeat (destruct H as [<-|H]; [reflexivity|]). destruct H. Qed.

Lemma python_wf mj mn mc ph x : python_tuple mj mn mc ph x ->
  wf (Version 0 [mj; mn; mc] (python_pre ph x) None None None)
  /\ candidate (Version 0 [mj; mn; mc] (python_pre ph x) None None None) = false
  /\ normal_version (Version 0 [mj; mn; mc] (python_pre ph x) None None None)
     = Version 0 [mj; mn; mc] (python_pre ph x) None None None.
Proof.
  intros (A & B & C & D & H & _). split.
  - unfold wf. cbn [v_epoch v_release v_pre v_post v_dev v_local wf_otag wf_local].
    split; [lia|]. split; [discriminate|]. split; [now repeat constructor|]. split; [|auto].
    cbn in H. repeat (destruct H as [<-|H]; [first [exact I | split; [reflexivity|exact D]]|]). destruct H.
  - cbn in H. repeat (destruct H as [<-|H]; [split; reflexivity|]). destruct H.
Qed.

Lemma lex_dict xs ys : Py.lex Z.compare xs ys = Lt <-> dict_before Z.lt xs ys.
Proof.
  rewrite (lex_before _ lawful_Z). apply (dict_before_iff (fun x y => Z.compare x y = Lt) Z.lt). intros. apply Z.compare_lt_iff.
Qed.

Lemma wf_ordinary v : wf v -> ordinary v.
Proof.
  intros (_ & R & N & P & Q & D & L). split; [|exact N]. unfold valid_version.
  assert (A : forall c o, wf_otag c o -> valid_otag c o = true) by (intros c [t|]; cbn; [intros [H _]; exact H|reflexivity]).
  rewrite (A PreTag), (A PostTag), (A DevTag) by assumption.
  destruct (v_release v); [congruence|]. destruct (v_local v) as [[|y ys]|]; [now destruct L| |]; reflexivity.
Qed.

Lemma lex_app (xs ys zs ws : list Z) : List.length xs = List.length ys ->
  Py.lex Z.compare (xs ++ zs) (ys ++ ws) = then_cmp (Py.lex Z.compare xs ys) (Py.lex Z.compare zs ws).
Proof.
  revert ys. induction xs as [|x xs IH]; intros [|y ys]; try discriminate; auto. intros [= E]. cbn [app Py.lex].
  destruct (x ?= y); auto.
Qed.

Lemma python_order mj mn mc ph x mj' mn' mc' ph' x' :
  python_tuple mj mn mc ph x -> python_tuple mj' mn' mc' ph' x' ->
  exists v w, python_version_info mj mn mc ph x = Ok v /\ python_version_info mj' mn' mc' ph' x' = Ok w
    /\ (v_lt v w = true <-> dict_before Z.lt (numbered mj mn mc ph x) (numbered mj' mn' mc' ph' x'))
    /\ (v_eq v w = true <-> (mj, mn, mc, ph, x) = (mj', mn', mc', ph', x')).
Proof.
  intros H H'. pose proof H as (_ & _ & _ & _ & I & F). pose proof H' as (_ & _ & _ & _ & I' & F').
  do 2 eexists. split; [now apply python_shape|]. split; [now apply python_shape|].
  destruct (python_wf _ _ _ _ _ H) as [W _], (python_wf _ _ _ _ _ H') as [W' _].
  apply wf_ordinary in W, W'. rewrite (lt_before _ _ W W'), (eq_same _ _ (proj1 W) (proj1 W')).
  assert (E : rel_same [mj; mn; mc] [mj'; mn'; mc'] <-> [mj; mn; mc] = [mj'; mn'; mc']) by now apply rel_same_length.
  assert (L : rel_before [mj; mn; mc] [mj'; mn'; mc'] <-> Py.lex Z.compare [mj; mn; mc] [mj'; mn'; mc'] = Lt) by now apply rel_before_lex.
  unfold before, same. cbn [v_epoch v_release v_pre v_post v_dev v_local]. rewrite E, L. split.
  - rewrite <- lex_dict. unfold numbered.
    assert (T : Py.lex Z.compare [mj; mn; mc; position ph LEVELS; x] [mj'; mn'; mc'; position ph' LEVELS; x'] = Lt <->
      Py.lex Z.compare [mj; mn; mc] [mj'; mn'; mc'] = Lt \/ [mj; mn; mc] = [mj'; mn'; mc']
        /\ Py.lex Z.compare [position ph LEVELS; x] [position ph' LEVELS; x'] = Lt).
    { change [mj; mn; mc; position ph LEVELS; x] with ([mj; mn; mc] ++ [position ph LEVELS; x]).
      change [mj'; mn'; mc'; position ph' LEVELS; x'] with ([mj'; mn'; mc'] ++ [position ph' LEVELS; x']).
      rewrite lex_app by reflexivity. rewrite then_lt, (law_eq (lawful_lex _ lawful_Z)). reflexivity. }
    rewrite T. clear T L E W W' H H'.
    assert (S : (stage (Version 0 [mj; mn; mc] (python_pre ph x) None None None)
                 < stage (Version 0 [mj'; mn'; mc'] (python_pre ph' x') None None None)
      \/ stage (Version 0 [mj; mn; mc] (python_pre ph x) None None None)
         = stage (Version 0 [mj'; mn'; mc'] (python_pre ph' x') None None None)
         /\ none_first (tag_before PHASE_ORDER) (python_pre ph x) (python_pre ph' x'))
      <-> Py.lex Z.compare [position ph LEVELS; x] [position ph' LEVELS; x'] = Lt).
    { cbn in I, I'.
      assert (K : forall p q, tag_before PHASE_ORDER (Tag p x) (Tag q x') <->
        position p PHASE_ORDER < position q PHASE_ORDER \/ p = q /\ x < x') by (intros; reflexivity).
      destruct I as [<-|[<-|[<-|[<-|[]]]]], I' as [<-|[<-|[<-|[<-|[]]]]];
        cbn [python_pre]; unfold python_pre;
        repeat match goal with |- context[str_eqb ?a ?b] => let r := eval vm_compute in (str_eqb a b) in change (str_eqb a b) with r end;
        cbv iota; unfold stage; cbn [v_pre v_post v_dev none_first];
        rewrite ?K;
        repeat match goal with |- context[position ?a ?b] => let r := eval vm_compute in (position a b) in change (position a b) with r end;
        cbn [Py.lex Z.compare Pos.compare Pos.compare_cont];
        try (rewrite (F eq_refl), (F' eq_refl)); cbn;
        (destruct (Z.compare_spec x x'); intuition (try lia; try congruence)). }
    rewrite <- S. cbn [none_last local_before none_first]. intuition (try lia; try congruence).
  - split.
    + intros (_ & Q & P & _). injection Q as -> -> ->.
      assert (R : ph = ph' /\ x = x'); [|destruct R; congruence].
      clear - I I' F F' P. cbn in I, I'.
      destruct I as [<-|[<-|[<-|[<-|[]]]]], I' as [<-|[<-|[<-|[<-|[]]]]]; try discriminate P;
        try (injection P as P; auto); split; auto. now rewrite (F eq_refl), (F' eq_refl).
    + intros [= -> -> -> -> ->]. auto 10.
Qed.

(** ** The command line *)

Lemma main_prints mj mn mc ph x : python_tuple mj mn mc ph x ->
  exists info py, version_info = Ok info /\ python_version_info mj mn mc ph x = Ok py
    /\ forall python normal, exists s,
      main info py true python normal = Ok s
      /\ parse_version s = Ok (if python then py else info)
      /\ main info py false python normal = Ok ((if python then lit "python" else lit "versions") ++ lit " " ++ s).
Proof.
  intros H. exists (bare 0 [2; 1; 2]). eexists. split; [now vm_compute|]. pose proof H as (_ & _ & _ & _ & I & _).
  split; [now apply python_shape|].
  assert (B : wf (bare 0 [2; 1; 2])).
  { unfold wf. cbn. split; [lia|]. split; [discriminate|]. split; [repeat constructor; lia|auto]. }
  destruct (python_wf _ _ _ _ _ H) as (W & C & N).
  assert (A : forall v, wf v -> candidate v = false -> normal_version v = v -> forall normal : bool,
     exists s, (if normal then to_pep440_string v else Ok (to_string v)) = Ok s /\ parse_version s = Ok v).
  { intros v V1 V2 V3 []; [|exists (to_string v); split; auto; now apply parse_long].
    destruct (pep440_parse v V1) as (s & S1 & S2). exists s. now rewrite V3 in S2. }
  intros [] normal; unfold main.
  - destruct (A _ W C N normal) as (s & S1 & S2). exists s. rewrite S1. auto.
  - destruct (A _ B eq_refl eq_refl normal) as (s & S1 & S2). exists s. rewrite S1. auto.
Qed.

(** ** repr *)

Lemma split_first (c : N) (a b x y : pstr) : ~ In c a -> ~ In c b -> a ++ c :: x = b ++ c :: y -> a = b /\ x = y.
Proof.
  revert b. induction a as [|d a IH]; intros [|e b] A B E; cbn in E.
  - injection E as E. auto.
  - injection E as -> _. exfalso. apply B. now left.
  - injection E as -> _. exfalso. apply A. now left.
  - injection E as -> E. destruct (IH b) as [-> ->]; auto; intros X; [apply A|apply B]; now right.
Qed.

Lemma represent_inj (wrap : pstr -> bool) n m s t : ~ In 32%N n -> ~ In 32%N m ->
  represent (wrap n) n s = represent (wrap m) m t -> n = m /\ s = t.
Proof.
  intros A B E. unfold represent in E. cbn [lit app] in E. injection E as E.
  apply split_first in E as [-> E]; auto. split; auto.
  apply app_inv_tail in E. destruct (wrap m); auto. injection E as E. now apply app_inv_tail in E.
Qed.

(** *** The long string determines the version *)

Definition head_text (v : version) : pstr :=
  (if v_epoch v =? 0 then [] else str_int (v_epoch v) ++ lit "!") ++ rel_to_string (v_release v).

Lemma join_chars s ws c : In c (join s ws) -> In c s \/ exists w, In w ws /\ In c w.
Proof.
  induction ws as [|w ws IH]; cbn; [tauto|]. destruct ws as [|u ws].
  - intros H. right. exists w. auto.
  - rewrite !in_app_iff. intros [H|[H|H]]; eauto. destruct (IH H) as [|(z & Z1 & Z2)]; eauto.
Qed.

Lemma head_chars v : wf v -> ~ In 45%N (head_text v).
Proof.
  intros (E & _ & N & _). unfold head_text.
  assert (D : forall z, 0 <= z -> ~ In 45%N (str_int z)).
  { intros z Z H. destruct (str_int_digits z Z) as [[_ F] _]. rewrite Forall_forall in F. apply F in H. unfold digit in H. lia. }
  rewrite in_app_iff. intros [H|H].
  - destruct (v_epoch v =? 0); [destruct H|]. apply in_app_iff in H as [H|[H|[]]]; [now apply D in H|discriminate].
  - apply join_chars in H as [[H|[]]|(w & Hw & H)]; [discriminate|].
    apply in_map_iff in Hw as (z & <- & Hz). unfold nonneg_release in N. rewrite Forall_forall in N. now apply (D z (N z Hz)).
Qed.

Definition tail_text (v : version) : pstr :=
  match v_post v with None => [] | Some t => lit "-" ++ tag_to_string t end
  ++ match v_dev v with None => [] | Some t => lit "-" ++ tag_to_string t end
  ++ match v_local v with None => [] | Some l => lit "+" ++ local_to_string l end.

Lemma to_string_parts v t : v_pre v = Some t ->
  to_string v = head_text v ++ 45%N :: (phase t ++ 46%N :: (str_int (value t) ++ tail_text v)).
Proof.
  intros E. unfold to_string, head_text, tail_text, tag_to_string. rewrite E. change (lit "-") with [45%N]. change (lit ".") with [46%N].
  cbn [join app]. rewrite <- !app_assoc. reflexivity.
Qed.

Lemma to_string_inj v w : wf v -> wf w -> to_string v = to_string w -> v = w.
Proof.
  intros V W E.
  assert (P : parse_version (to_string v) = parse_version (to_string w)) by congruence.
  destruct (candidate v) eqn:C, (candidate w) eqn:D.
  - apply candidate_iff in C as (t & T1 & T2), D as (u & U1 & U2).
    rewrite (to_string_parts v t T1), (to_string_parts w u U1), T2, U2 in E.
    apply split_first in E as [E1 E2]; [|now apply head_chars..]. apply app_inv_head in E2. injection E2 as E2.
    set (swap := fun (v : version) (t : tag) => set_pre v (Some (Tag (lit "rc") (value t)))).
    assert (S : forall v t, v_pre v = Some t -> wf v -> wf (swap v t) /\ candidate (swap v t) = false
      /\ to_string (swap v t) = head_text v ++ 45%N :: (lit "rc" ++ 46%N :: (str_int (value t) ++ tail_text v))).
    { clear. intros v t T X. split; [|split].
      - destruct X as (A1 & A2 & A3 & A4 & A5). rewrite T in A4. destruct A4 as [_ A4]. split; [exact A1|]. split; [exact A2|]. split; [exact A3|].
        split; [split; [reflexivity|exact A4]|exact A5].
      - reflexivity.
      - apply (to_string_parts (swap v t) (Tag (lit "rc") (value t))). reflexivity. }
    destruct (S v t T1 V) as (V1 & V2 & V3), (S w u U1 W) as (W1 & W2 & W3).
    assert (X : swap v t = swap w u).
    { pose proof (parse_long _ V1 V2) as X1. pose proof (parse_long _ W1 W2) as X2. rewrite V3 in X1. rewrite W3, <- E1, <- E2 in X2. congruence. }
    destruct v as [e r p q d l], w as [e' r' p' q' d' l']. unfold swap, set_pre in X. cbn [v_epoch v_release v_pre v_post v_dev v_local] in *.
    injection X as -> -> E3 -> -> ->. subst p p'. f_equal. f_equal. destruct t, u. cbn in *. congruence.
  - rewrite (parse_candidate v V C), (parse_long w W D) in P. discriminate.
  - rewrite (parse_long v V C), (parse_candidate w W D) in P. discriminate.
  - rewrite (parse_long v V C), (parse_long w W D) in P. congruence.
Qed.

Lemma version_repr_inj v w : wf v -> wf w -> version_repr v = version_repr w <-> v = w.
Proof.
  intros V W. split; [|now intros ->]. intros E. apply (represent_inj (fun _ => true)) in E as [_ E].
  - now apply to_string_inj.
  - cbn. intuition discriminate.
  - cbn. intuition discriminate.
Qed.
