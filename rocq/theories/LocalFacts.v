(** Local versions and specifiers that name none. *)

From Coq Require Import List ZArith NArith String Bool Arith Lia.
From Verif Require Import Py Segments Version VersionSets Operators Specifiers Parsers Spec Orders OrderFacts BumpFacts OperatorFacts SpecifierFacts SpecMeaning
  SetVersions Density Provenance CacheFacts SpecStrings ShapeFacts NestFacts DecideFacts Normal ProbeSpec ProbeFacts LocalSpec.
Import ListNotations.
Local Open Scope nat_scope.
Local Opaque key depth.

Section Local.
  Context (v : version) (L : v_local v <> None).
  Let p := without_local v.

  Lemma p_below : v_lt p v = true.
  Proof.
    destruct (v_local v) as [l|] eqn:E; [|congruence]. rewrite <- (set_local_self v). rewrite E.
    change p with (set_local v None). apply local_compare. exact I.
  Qed.
  Lemma p_lt b : v_local b = None -> v_lt v b = v_lt p b.
  Proof.
    intros B. destruct total_order as (T & _ & _ & _ & _ & _ & R & _). pose proof p_below as P.
    destruct (v_lt v b) eqn:X; [symmetry; now apply R with v|]. destruct (v_lt p b) eqn:Y; [|reflexivity]. rewrite <- X.
    destruct (v_local v) as [l|] eqn:E; [|congruence]. rewrite <- (set_local_self v), E. change (set_local v (Some l)) with (set_local p (Some l)).
    apply local_adjacent; [reflexivity|exact Y|]. replace (without_local b) with b by (rewrite <- (set_local_self b) at 1; now rewrite B).
    destruct (T p b) as [(_ & ? & _)|[(? & _)|(? & _)]]; congruence.
  Qed.
  Lemma lt_flip x y : v_le x y = negb (v_lt y x).
  Proof. unfold v_le, v_lt. assert (A : v_cmp y x = CompOpp (v_cmp x y)) by apply (law_anti lawful_key). rewrite A. now destruct (v_cmp x y). Qed.
  Lemma p_le b : v_local b = None -> v_le b v = v_le b p.
  Proof. intros B. now rewrite !lt_flip, p_lt. Qed.
  Lemma p_gt b : v_local b = None -> v_lt b v = v_le b p.
  Proof.
    intros B. destruct total_order as (T & LE & _ & _ & G & _ & R & _ & _ & _ & E). rewrite <- p_le by exact B. rewrite LE.
    destruct (v_eq b v) eqn:X; [|now rewrite orb_false_r]. pose proof p_below as P. rewrite <- (proj2 (E _ _ p X)), <- p_lt in P by exact B.
    destruct (T b v) as [(_ & ? & _)|[(_ & _ & Y)|(_ & ? & _)]]; congruence.
  Qed.
  Lemma p_eq b : v_local b = None -> v_eq v b = false.
  Proof.
    intros B. destruct total_order as (T & _ & _ & _ & G & _). destruct (T v b) as [(_ & ? & _)|[(X & Y & Z)|(_ & ? & _)]]; auto.
    rewrite G, p_gt, lt_flip, <- p_lt, X in Z by exact B. discriminate.
  Qed.

  Lemma p_from_to (upper : version -> version -> Prop) w : v_local w = None -> (forall u, upper w u -> v_local u = None) -> from_to upper w v <-> from_to upper w p.
  Proof.
    intros W U. unfold from_to. rewrite p_le by exact W. split; intros (A & u & B & C); (split; [exact A|]); exists u; (split; [exact B|]); [rewrite <- p_lt|rewrite p_lt]; auto.
  Qed.
  Lemma bare_upper w u : (exists r, u = bare (v_epoch w) r) -> v_local u = None.
  Proof. intros (r & ->). reflexivity. Qed.

  Lemma sat_other t w : v_local w = None -> ~ names_public t -> op_sat t w v <-> op_sat t w p.
  Proof.
    intros W N. unfold names_public in N.
    assert (K1 := p_from_to caret_upper w W (fun u U => match U with ex_intro _ r (conj E _) => bare_upper w u (ex_intro _ r E) end)).
    assert (K2 := p_from_to tilde_upper w W (fun u U => match U with ex_intro _ r (conj E _) => bare_upper w u (ex_intro _ r E) end)).
    assert (K3 := p_from_to tilde_equal_upper w W (fun u U => match U with ex_intro _ r (conj E _) => bare_upper w u (ex_intro _ r E) end)).
    assert (K4 := p_from_to wildcard_upper w W (fun u U => match U with ex_intro _ r (conj E _) => bare_upper w u (ex_intro _ r E) end)).
    destruct t; cbn [op_sat]; try (exfalso; apply N; cbn; tauto); rewrite ?K1, ?K2, ?K3, ?K4, ?p_lt, ?p_le by exact W; reflexivity.
  Qed.

  Theorem local_operator t w : op_made t w -> v_local w = None ->
    op_matches t v w = op_matches t p w <-> ~ (v_eq p w = true /\ names_public t).
  Proof.
    intros M W. destruct (op_matches_sat t w v M) as (a & -> & A), (op_matches_sat t w p M) as (b & -> & B).
    destruct total_order as (T & LE & _ & _ & G & _). destruct (T p w) as [(X & Y & Z)|[(X & Y & Z)|(X & Y & Z)]]; rewrite G in Z; rewrite Y.
    - split; [intros _ [? _]; discriminate|]. intros _. f_equal. enough (K : op_sat t w v <-> op_sat t w p) by (rewrite <- A, <- B in K; destruct a, b; intuition congruence).
      assert (D : names_public t \/ ~ names_public t) by (unfold names_public; destruct t; cbn; intuition congruence).
      destruct D as [D|D]; [|now apply sat_other]. destruct D as [<-|[<-|[<-|[<-|[<-|[]]]]]]; cbn [op_sat]; rewrite ?p_eq, ?p_gt, ?LE, ?p_eq, ?p_lt, ?Y, ?X by exact W; try reflexivity.
      rewrite Z. destruct total_order as (_ & _ & _ & _ & _ & _ & _ & _ & S & _). rewrite S, Y. reflexivity.
    - split.
      + intros E [_ D]. assert (K : op_sat t w v <-> op_sat t w p) by (rewrite <- A, <- B; now injection E as ->).
        destruct D as [<-|[<-|[<-|[<-|[<-|[]]]]]]; cbn [op_sat] in K; rewrite ?p_eq, ?p_gt, ?LE, ?p_eq, ?p_lt, ?Y, ?X, ?Z in K by exact W; cbn in K; try (now destruct K as [K1 K2]; (discriminate (K1 eq_refl) || discriminate (K2 eq_refl))).
        destruct total_order as (_ & _ & _ & _ & _ & _ & _ & _ & S & _). rewrite S, Y in K. destruct K as [K1 K2]. discriminate (K1 eq_refl).
      + intros N. f_equal. assert (D : ~ names_public t) by (intros D; apply N; auto). pose proof (sat_other t w W D) as K. rewrite <- A, <- B in K. destruct a, b; intuition congruence.
    - split; [intros _ [? _]; discriminate|]. intros _. f_equal. enough (K : op_sat t w v <-> op_sat t w p) by (rewrite <- A, <- B in K; destruct a, b; intuition congruence).
      assert (D : names_public t \/ ~ names_public t) by (unfold names_public; destruct t; cbn; intuition congruence).
      destruct D as [D|D]; [|now apply sat_other]. destruct D as [<-|[<-|[<-|[<-|[<-|[]]]]]]; cbn [op_sat]; rewrite ?p_eq, ?p_gt, ?LE, ?p_eq, ?p_lt, ?Y, ?X, ?Z by exact W; reflexivity.
  Qed.
End Local.

(** ** Specifiers *)

Lemma accepts_leaves s u v : (forall t w, leaf t w s -> op_matches t u w = op_matches t v w) -> accepts s u = accepts s v.
Proof.
  induction s as [| |t w|ss IH|ss IH] using spec_members; cbn [accepts]; intros H; [reflexivity..|apply H; constructor| |].
  - assert (K : forall s, In s ss -> accepts s u = accepts s v) by (rewrite Forall_forall in IH; intros s I; apply IH; [exact I|]; intros t w J; apply H; now apply (leaf_any _ _ s)).
    clear H IH. induction ss as [|s ss IH]; [reflexivity|]. cbn [any_r]. rewrite (K s (or_introl eq_refl)), IH; [reflexivity|]. intros x I. apply K. now right.
  - assert (K : forall s, In s ss -> accepts s u = accepts s v) by (rewrite Forall_forall in IH; intros s I; apply IH; [exact I|]; intros t w J; apply H; now apply (leaf_all _ _ s)).
    clear H IH. induction ss as [|s ss IH]; [reflexivity|]. cbn [all_r]. rewrite (K s (or_introl eq_refl)), IH; [reflexivity|]. intros x I. apply K. now right.
Qed.

Theorem local_away x s v : parse_specifier x = Ok s -> no_locals s -> (forall t w, leaf t w s -> names_public t -> v_eq (without_local v) w = false) ->
  accepts s v = accepts s (without_local v).
Proof.
  intros X N H. destruct (parsed_made x s X) as [M _]. destruct (v_local v) as [l|] eqn:E.
  - apply accepts_leaves. intros t w J. apply local_operator; [now rewrite E|exact (proj1 (each_leaf _ s) (made_ops s M) t w J)|now apply (N t)|].
    intros [Q D]. rewrite (H t w J D) in Q. discriminate.
  - replace (without_local v) with v; [reflexivity|]. rewrite <- (set_local_self v) at 1. now rewrite E.
Qed.

Theorem local_alike x s u v : parse_specifier x = Ok s -> no_locals s -> v_local u <> None -> v_local v <> None ->
  v_eq (without_local u) (without_local v) = true -> accepts s u = accepts s v.
Proof.
  intros X N U V E. apply (parsed_local x s u v X). intros t w b J B.
  assert (K : v_local b = None).
  { destruct B as [-> | B]; [now apply (N t)|]. destruct t; try contradiction; destruct B as (r & -> & _); reflexivity. }
  destruct total_order as (_ & _ & _ & _ & _ & _ & _ & _ & _ & _ & Q). destruct (Q _ _ b E) as [Q1 Q2].
  split; [rewrite (p_lt u U b K), (p_lt v V b K); exact Q1|]. rewrite (p_gt u U b K), (p_gt v V b K), !lt_flip. now rewrite Q1.
Qed.

Theorem local_plain x s v : parse_specifier x = Ok s -> no_locals s -> (forall t w, leaf t w s -> ~ names_public t) -> accepts s v = accepts s (without_local v).
Proof. intros X N H. apply (local_away x s v X N). intros t w J D. destruct (H t w J D). Qed.
