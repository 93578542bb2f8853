(** Acceptance depends only on where a version lies among the bounds, so
    finitely many versions tell two specifiers apart. *)

From Coq Require Import List ZArith NArith String Bool Arith Lia.
From Verif Require Import Py Segments Version VersionSets Operators SetStrings Specifiers Parsers Spec
  Orders Cuts SetItems SetChains SetMerge SetOps OrderFacts SetVersions Density SetAlgebra SetTheorems BumpFacts OperatorFacts SpecifierFacts Provenance
  CacheFacts Grammar Clauses ParseFacts ParseTheorems ClauseFacts SpecText SpecParse SpecStrings SpecMeaning SizeSpec SizeFacts EdgeFacts Normal NeedSpec NeedFacts
  ShapeSpec ShapeFacts RelationFacts DenseSpec DenseFacts ProbeSpec.
Import ListNotations.
Local Open Scope nat_scope.
Local Opaque key depth.

Section Probes.
  Variables (A : Type) (lt : A -> A -> bool) (P : A -> Prop).
  Variable start : A.
  Hypothesis start_P : P start.
  Hypothesis irr : forall x, lt x x = false.
  Hypothesis trans : forall x y z, lt x y = true -> lt y z = true -> lt x z = true.
  Hypothesis weak : forall x y z, lt x z = true -> lt x y = true \/ lt y z = true.
  Hypothesis dense : forall x y, P x -> P y -> lt x y = true -> exists z, P z /\ lt x z = true /\ lt z y = true.
  Hypothesis high : forall x, P x -> exists y, P y /\ lt x y = true.
  Hypothesis low : forall x, P x -> (exists y, P y /\ lt y x = true) \/ (forall y, P y -> lt y x = false).

  Let side b u v := lt u b = lt v b /\ lt b u = lt b v.
  Let sides bs u v := forall b, In b bs -> side b u v.

  Lemma sides_sym bs u v : sides bs u v -> sides bs v u.
  Proof. intros H b I. destruct (H b I). split; auto. Qed.
  Lemma sides_trans bs u v w : sides bs u v -> sides bs v w -> sides bs u w.
  Proof. intros H K b I. destruct (H b I), (K b I). split; congruence. Qed.
  Lemma sides_refl bs u : sides bs u u.
  Proof. intros b I. split; reflexivity. Qed.

  (** Versions between two on the same sides are on these sides. *)
  Lemma between_side b x y z : lt y x = false -> lt z y = false -> side b x z -> side b x y.
  Proof.
    intros L M [S T]. split.
    - destruct (lt x b) eqn:X, (lt y b) eqn:Y; auto.
      + destruct (weak z y b) as [K|K]; congruence.
      + destruct (weak y x b Y) as [K|K]; congruence.
    - destruct (lt b x) eqn:X, (lt b y) eqn:Y; auto.
      + destruct (weak b y x X) as [K|K]; congruence.
      + destruct (weak b z y Y) as [K|K]; congruence.
  Qed.
  Lemma between_sides bs x y z : lt y x = false -> lt z y = false -> sides bs x z -> sides bs x y.
  Proof. intros L M H b I. apply (between_side b x y z); auto. Qed.
  Lemma lt_asym x y : lt x y = true -> lt y x = false.
  Proof. intros L. destruct (lt y x) eqn:M; auto. pose proof (trans _ _ _ L M). rewrite irr in H. discriminate. Qed.
  Lemma level_side x y : lt x y = false -> lt y x = false -> forall b, side b x y.
  Proof.
    intros L M b. split.
    - destruct (lt x b) eqn:X, (lt y b) eqn:Y; auto; [destruct (weak _ y _ X)|destruct (weak _ x _ Y)]; congruence.
    - destruct (lt b x) eqn:X, (lt b y) eqn:Y; auto; [destruct (weak _ y _ X)|destruct (weak _ x _ Y)]; congruence.
  Qed.

  Lemma above bs : Forall P bs -> forall b, P b ->
    (exists b', In b' bs /\ lt b' b = false /\ lt b b' = false) \/ exists v, P v /\ lt b v = true /\ sides bs b v.
  Proof.
    induction 1 as [|c bs C _ IH]; intros b B.
    - right. destruct (high b B) as (v & V & L). exists v. split; [exact V|]. split; [exact L|]. intros ? [].
    - destruct (IH b B) as [(b' & I & H)|(v & V & L & S)]; [left; exists b'; split; [now right|exact H]|].
      destruct (lt c b) eqn:X.
      + right. exists v. split; [exact V|]. split; [exact L|]. intros d [<-|I]; [|now apply S].
        split; [rewrite (lt_asym c b X); symmetry; apply lt_asym; eapply trans; eassumption|]. rewrite X. symmetry. eapply trans; eassumption.
      + destruct (lt b c) eqn:Y; [|left; exists c; split; [now left|auto]]. right. destruct (lt v c) eqn:Z.
        * exists v. split; [exact V|]. split; [exact L|]. intros d [<-|I]; [|now apply S]. split; [congruence|]. rewrite X. symmetry. now apply lt_asym.
        * destruct (dense b c B C Y) as (w & W & Lw & Mw). exists w. split; [exact W|]. split; [exact Lw|]. intros d [<-|I].
          -- split; [congruence|]. rewrite X. symmetry. now apply lt_asym.
          -- apply (between_side d b w v); [now apply lt_asym| |now apply S]. destruct (lt v w) eqn:Q; auto. pose proof (trans _ _ _ Q Mw). congruence.
  Qed.

  Lemma below bs : Forall P bs -> forall b, P b ->
    (exists b', In b' bs /\ lt b' b = false /\ lt b b' = false) \/ (exists v, P v /\ lt v b = true /\ sides bs b v) \/ (forall v, P v -> lt v b = false).
  Proof.
    induction 1 as [|c bs C _ IH]; intros b B.
    - right. destruct (low b B) as [(v & V & L)|H]; [left|right; exact H]. exists v. split; [exact V|]. split; [exact L|]. intros ? [].
    - destruct (IH b B) as [(b' & I & H)|[(v & V & L & S)|N]]; [left; exists b'; split; [now right|exact H]| |right; right; exact N].
      destruct (lt b c) eqn:X.
      + right; left. exists v. split; [exact V|]. split; [exact L|]. intros d [<-|I]; [|now apply S].
        split; [rewrite X; symmetry; eapply trans; eassumption|]. rewrite (lt_asym b c X). symmetry. apply lt_asym. eapply trans; eassumption.
      + destruct (lt c b) eqn:Y; [|left; exists c; split; [now left|auto]]. right; left. destruct (lt c v) eqn:Z.
        * exists v. split; [exact V|]. split; [exact L|]. intros d [<-|I]; [|now apply S]. split; [|congruence]. rewrite X. symmetry. now apply lt_asym.
        * destruct (dense c b C B Y) as (w & W & Lw & Mw). exists w. split; [exact W|]. split; [exact Mw|]. intros d [<-|I].
          -- split; [|congruence]. rewrite X. symmetry. now apply lt_asym.
          -- assert (K : side d v w).
             { apply (between_side d v w b); [destruct (lt w v) eqn:Q; auto; pose proof (trans _ _ _ Lw Q); congruence|now apply lt_asym|]. destruct (S d I). split; auto. }
             destruct K, (S d I). split; congruence.
  Qed.

  (** Two elements for each bound, and one more, lie in all gaps and on all bounds. *)
  Theorem probes bs : Forall P bs -> exists ts, Forall P ts /\ List.length ts <= 2 * List.length bs + 1 /\ forall v, P v -> exists t, In t ts /\ sides bs v t.
  Proof.
    induction 1 as [|b bs B F (ts & T & L & C)].
    - exists [start]. split; [now repeat constructor|]. split; [cbn; lia|]. intros v _. exists start. split; [now left|]. intros ? [].
    - destruct (C b B) as (t & It & St).
      assert (K : forall x y, P x -> P y ->
        (forall v, P v -> sides bs v b -> exists z, In z [x; y; t] /\ sides (b :: bs) v z) ->
        exists ts, Forall P ts /\ List.length ts <= 2 * List.length (b :: bs) + 1 /\ forall v, P v -> exists t, In t ts /\ sides (b :: bs) v t).
      { intros x y X Y H. exists (x :: y :: ts). split; [now repeat constructor|]. split; [cbn [List.length]; lia|]. intros v V. destruct (C v V) as (s & Is & S).
        assert (D : side b v s \/ sides bs v b).
        { destruct (lt v b) eqn:Vb, (lt s b) eqn:Sb, (lt b v) eqn:bV, (lt b s) eqn:bS;
            try (left; unfold side; split; congruence); right;
            try (rewrite (lt_asym v b Vb) in bV; discriminate); try (rewrite (lt_asym s b Sb) in bS; discriminate);
            try (apply (between_sides bs v b s); now auto);
            apply sides_trans with s; auto; apply sides_sym in S;
            apply (between_sides bs s b v); now auto. }
        destruct D as [D|D].
        - exists s. split; [now do 2 right|]. intros c [<-|I]; [exact D|now apply S].
        - destruct (H v V D) as (z & [<-|[<-|[<-|[]]]] & Z); eexists; (split; [|exact Z]); [now left|right; now left|do 2 right; exact It]. }
      assert (J : forall v x, sides bs v b -> sides bs b x -> side b v x -> sides (b :: bs) v x).
      { intros v x V X D c [<-|I]; [exact D|]. now apply (sides_trans bs v b x). }
      destruct (above bs F b B) as [(b' & I & Q & R)|(h & Hh & Lh & Sh)].
      { (* the bound is there already *)
        exists ts. split; [exact T|]. split; [cbn [List.length]; lia|]. intros v V. destruct (C v V) as (s & Is & S). exists s. split; [exact Is|]. intros c [<-|J']; [|now apply S].
        destruct (S b' I) as [S1 S2], (level_side b' b Q R v) as [X1 X2], (level_side b' b Q R s) as [Y1 Y2]. split; congruence. }
      assert (Lo : exists l, P l /\ sides bs b l /\ forall v, P v -> lt v b = true -> lt l b = true).
      { destruct (below bs F b B) as [(b' & I & Q & R)|[(l & Pl & Ll & Sl)|N]].
        - exists b. split; [exact B|]. split; [apply sides_refl|]. intros v V Z.
          exfalso. (* cannot be: a bound at the level of b leaves no room above b *)
          destruct (Sh b' I) as [_ E]. destruct (weak b b' h Lh); congruence.
        - exists l. split; [exact Pl|]. split; [exact Sl|]. auto.
        - exists b. split; [exact B|]. split; [apply sides_refl|]. intros v V Z. rewrite (N v V) in Z. discriminate. }
      destruct Lo as (l & Pl & Sl & Ll).
      destruct (lt t b) eqn:Tb; [|destruct (lt b t) eqn:bT].
      + apply (K b h B Hh). intros v V S. destruct (lt v b) eqn:Vb; [|destruct (lt b v) eqn:bV].
        * exists t. split; [now do 2 right; left|]. apply J; auto. split; [congruence|]. now rewrite !lt_asym.
        * exists h. split; [right; now left|]. apply J; auto. split; [|congruence]. rewrite Vb. symmetry. now apply lt_asym.
        * exists b. split; [now left|]. apply J; auto using sides_refl. split; rewrite irr; auto.
      + apply (K b l B Pl). intros v V S. destruct (lt v b) eqn:Vb; [|destruct (lt b v) eqn:bV].
        * exists l. split; [right; now left|]. apply J; auto. pose proof (Ll v V Vb). split; [congruence|]. now rewrite !lt_asym.
        * exists t. split; [now do 2 right; left|]. apply J; auto. split; congruence.
        * exists b. split; [now left|]. apply J; auto using sides_refl. split; rewrite irr; auto.
      + apply (K h l Hh Pl). intros v V S. destruct (lt v b) eqn:Vb; [|destruct (lt b v) eqn:bV].
        * exists l. split; [right; now left|]. apply J; auto. pose proof (Ll v V Vb). split; [congruence|]. now rewrite !lt_asym.
        * exists h. split; [now left|]. apply J; auto. split; [|congruence]. rewrite Vb. symmetry. now apply lt_asym.
        * exists t. split; [now do 2 right; left|]. apply J; auto. split; congruence.
  Qed.
End Probes.

(** ** The order of versions *)

Lemma lt_weak x y z : v_lt x z = true -> v_lt x y = true \/ v_lt y z = true.
Proof.
  destruct total_order as (T & _ & _ & _ & G & I & R & _ & ES & _ & E). intros L. destruct (T x y) as [(A & _)|[(_ & A & _)|(_ & _ & A)]].
  - now left.
  - right. now rewrite <- (proj1 (E _ _ z A)).
  - right. rewrite G in A. now apply (R y x z).
Qed.

Lemma versions_probed bs : Forall wf bs -> exists ts, Forall wf ts /\ List.length ts <= 2 * List.length bs + 1
  /\ forall v, wf v -> exists t, In t ts /\ forall b, In b bs -> same_side b v t.
Proof.
  destruct total_order as (T & _ & _ & _ & G & I & R & _ & ES & _ & E).
  apply (probes version v_lt wf lowest); auto.
  - repeat split; try discriminate; repeat constructor; cbn; lia.
  - exact lt_weak.
  - intros x y X Y L. destruct (wf_between x y X Y L) as (u & U). eauto.
  - intros x X. destruct (next_epoch_wf x X) as (w & W). eauto.
  - intros x X. destruct (lowest_le x X) as [L|L].
    + left. exists lowest. split; [|exact L]. repeat split; try discriminate; repeat constructor; cbn; lia.
    + right. intros y Y. rewrite <- (proj2 (E _ _ y L)). destruct (T y lowest) as [(A & _)|[(A & _)|(A & _)]]; auto.
      destruct (lowest_le y Y) as [K|K]; [|rewrite ES in K; destruct (T y lowest) as [(_ & B & _)|[(B & _)|(B & _)]]; congruence].
      pose proof (R _ _ _ A K) as Z. now rewrite I in Z.
Qed.

(** ** Sides decide *)

Lemma same_cmp b u v : same_side b u v -> v_cmp u b = v_cmp v b /\ v_cmp b u = v_cmp b v.
Proof.
  assert (A : forall v w, v_cmp w v = CompOpp (v_cmp v w)) by (intros; apply (law_anti lawful_key)).
  intros [S T]. unfold v_lt in *. rewrite (A u b), (A v b). rewrite (A u b), (A v b) in T. destruct (v_cmp u b), (v_cmp v b); cbn in *; try discriminate; auto.
Qed.

Lemma item_local i u v : (forall b, In b (item_bounds i) -> same_side b u v) -> item_contains i u = item_contains i v.
Proof.
  intros H. destruct i as [w|m M a b]; cbn [item_contains].
  - unfold v_eq. now rewrite (proj2 (same_cmp w u v (H w (or_introl eq_refl)))).
  - assert (Hm : forall w, m = Some w -> same_side w u v) by (intros w ->; apply H; now left).
    assert (HM : forall w, M = Some w -> same_side w u v) by (intros w ->; apply H; cbn; rewrite in_app_iff; right; now left).
    unfold comparable_min, comparable_max. cbn [i_min i_max i_exclude_min i_exclude_max i_include_min i_include_max].
    destruct m as [m|], M as [M|]; cbn;
      try (destruct (same_cmp _ _ _ (Hm _ eq_refl)) as [E1 E2]); try (destruct (same_cmp _ _ _ (HM _ eq_refl)) as [E3 E4]);
      unfold b_cmp; cbn; fold (v_cmp u) (v_cmp v); try rewrite E1; try rewrite E3; reflexivity.
Qed.

Theorem set_sides a u v : (forall b, In b (bounds a) -> same_side b u v) -> contains a u = contains a v.
Proof.
  destruct a as [|i|items]; cbn [bounds contains]; intros H; [reflexivity|now apply item_local|].
  induction items as [|i items IH]; [reflexivity|]. cbn [existsb flat_map] in *. rewrite (item_local i u v), IH; auto; intros b I; apply H, in_app_iff; auto.
Qed.

Theorem spec_local s u v : spec_made s -> each_op plain_op s -> (forall t w b, leaf t w s -> op_bound t w b -> same_side b u v) -> accepts s u = accepts s v.
Proof.
  intros M N H. destruct (spec_drawn s M N) as (d & _ & D & B & _). destruct (accepts_sat s u M) as (x & -> & X), (accepts_sat s v M) as (y & -> & Y).
  rewrite <- D in X, Y. rewrite (set_sides d u v) in X; [destruct x, y, (contains d v); intuition congruence|].
  intros b I. rewrite Forall_forall in B. destruct (B b I) as (t & w & L & K). now apply (H t w).
Qed.

Theorem parsed_local x s u v : parse_specifier x = Ok s -> (forall t w b, leaf t w s -> op_bound t w b -> same_side b u v) -> accepts s u = accepts s v.
Proof. intros X. destruct (parsed_made x s X) as [M N]. now apply spec_local. Qed.

(** ** Finitely many versions *)

Lemma item_bounds_edges i : List.length (item_bounds i) <= List.length (edges [i]).
Proof. destruct i as [v|[m|] [M|] a b]; cbn; lia. Qed.
Lemma bounds_edges a : List.length (bounds a) <= edge_count a.
Proof.
  assert (K : forall xs, List.length (flat_map item_bounds xs) <= List.length (edges xs)).
  { induction xs as [|i xs IH]; [cbn; lia|]. cbn [flat_map]. rewrite app_length. pose proof (item_bounds_edges i) as L.
    unfold edges, ends in *. cbn [flat_map] in *. rewrite app_nil_r in L. rewrite filter_app, app_length. lia. }
  unfold edge_count. destruct a as [|i|xs]; cbn [bounds extract]; [cbn; lia|apply item_bounds_edges|apply K].
Qed.

Lemma parsed_drawn x s : parse_specifier x = Ok s ->
  exists d, List.length (bounds d) <= turns s /\ Forall wf (bounds d) /\ forall v, accepts s v = Ok (contains d v).
Proof.
  intros X. destruct (parsed_made x s X) as [M N]. pose proof (parsed_writable x s X) as W. destruct (spec_drawn s M N) as (d & _ & D & B & E). exists d.
  split; [pose proof (bounds_edges d); lia|]. split.
  - eapply Forall_impl; [|exact B]. intros b (t & w & L & K). destruct (proj1 (each_leaf writable s) W t w L) as (W1 & W2 & _). now apply (op_bound_wf t w).
  - intros v. destruct (accepts_sat s v M) as (y & -> & Y). rewrite <- D in Y. f_equal. destruct y, (contains d v); intuition congruence.
Qed.

Theorem parsed_probes x y s u : parse_specifier x = Ok s -> parse_specifier y = Ok u ->
  exists zs, List.length zs <= 2 * (turns s + turns u) + 1 /\ (forall z, In z zs -> exists v, parse_version z = Ok v)
    /\ ((forall z v, In z zs -> parse_version z = Ok v -> accepts s v = accepts u v) -> forall z v, parse_version z = Ok v -> accepts s v = accepts u v).
Proof.
  intros X Y. destruct (parsed_drawn x s X) as (d & Ld & Wd & D), (parsed_drawn y u Y) as (e & Le & We & E).
  destruct (versions_probed (bounds d ++ bounds e)) as (ts & T & L & C); [now apply Forall_app|]. rewrite app_length in L.
  exists (map to_short_string ts). split; [rewrite map_length; lia|]. rewrite Forall_forall in T. split.
  - intros z I. apply in_map_iff in I as (t & <- & I). exists t. now apply parse_short, T.
  - intros H z v V. apply parse_wf in V. destruct (C v V) as (t & I & S). specialize (H (to_short_string t) t (in_map _ _ _ I) (parse_short t (T t I))).
    rewrite D, E in *. rewrite (set_sides d v t), (set_sides e v t); auto; intros b K; apply S, in_app_iff; auto.
Qed.

(** No list of versions does for all specifiers. *)
Lemma above_all vs : Forall wf vs -> exists w, wf w /\ forall v, In v vs -> v_lt v w = true.
Proof.
  destruct total_order as (_ & _ & _ & _ & _ & _ & R & _). induction 1 as [|v vs V _ (w & W & H)].
  - destruct wf_exists as (w & W). exists w. split; [exact W|]. intros v [].
  - destruct (next_epoch_wf w W) as (x & X & L), (next_epoch_wf v V) as (y & Y & K). destruct (v_lt x y) eqn:Q.
    + exists y. split; [exact Y|]. intros z [<-|I]; [exact K|]. apply R with x; [apply R with w; auto|exact Q].
    + destruct (lt_weak v x y K) as [K'|K']; [|congruence]. exists x. split; [exact X|]. intros z [<-|I]; [exact K'|]. apply R with w; auto.
Qed.

Theorem no_probes zs : exists x y s u, parse_specifier x = Ok s /\ parse_specifier y = Ok u
  /\ (forall z v, In z zs -> parse_version z = Ok v -> accepts s v = accepts u v) /\ exists z v, parse_version z = Ok v /\ accepts s v <> accepts u v.
Proof.
  destruct total_order as (T & _ & _ & _ & _ & _ & R & RE & _).
  destruct (above_all (flat_map (fun z => match parse_version z with Ok v => [v] | Err _ => [] end) zs)) as (v & V & H).
  { apply Forall_forall. intros a I. apply in_flat_map in I as (z & _ & I). destruct (parse_version z) as [b|] eqn:Z; [|destruct I]. destruct I as [<-|[]]. now apply parse_wf in Z. }
  destruct (next_epoch_wf v V) as (w & W & L).
  assert (P : forall a, wf a -> exists x, parse_specifier x = Ok (One DOUBLE_EQUAL a)).
  { intros a A. apply parser_image. split; [left; left; now exists DOUBLE_EQUAL, a|]. cbn [each_op]. split; [exact A|].
    split; [intros _; right; now left|]. split; [discriminate|]. intros [?|[?|[?|[]]]]; discriminate. }
  assert (N : forall a b, v_lt a b = true -> v_eq a b = false) by (intros a b K; destruct (T a b) as [(_ & ? & _)|[(? & _)|(? & _)]]; congruence).
  destruct (P v V) as (x & X), (P w W) as (y & Y). exists x, y, (One DOUBLE_EQUAL v), (One DOUBLE_EQUAL w). split; [exact X|]. split; [exact Y|].
  cbn [accepts op_matches]. unfold matches_equal. split.
  - intros z a I A. assert (K : v_lt a v = true).
    { apply H. apply in_flat_map. exists z. split; [exact I|]. rewrite A. now left. }
    rewrite !N; eauto.
  - exists (to_short_string v), v. split; [now apply parse_short|]. rewrite RE, (N v w L). discriminate.
Qed.

(** ** Sets *)

Lemma worded_probed bs : Forall worded bs -> exists ts, Forall worded ts /\ List.length ts <= 2 * List.length bs + 1
  /\ forall v, worded v -> exists t, In t ts /\ forall b, In b bs -> same_side b v t.
Proof.
  destruct total_order as (T & _ & _ & _ & G & I & R & _ & ES & _ & E). destruct worded_exists as (o & O).
  apply (probes version v_lt worded o); auto.
  - exact lt_weak.
  - intros x y X Y L. destruct (worded_between x y X Y L) as (u & U). eauto.
  - intros x X. destruct (next_epoch_worded x X) as (w & W). eauto.
  - intros x X. left. exists (set_epoch x (v_epoch x - 1)). split; [exact X|]. apply epoch_lt. cbn. lia.
Qed.

Theorem set_probes a b : canonical a -> canonical b -> Forall worded (bounds a) -> Forall worded (bounds b) ->
  exists vs, List.length vs <= 2 * (List.length (bounds a) + List.length (bounds b)) + 1 /\ Forall worded vs
    /\ (set_eqb a b = true <-> forall v, In v vs -> contains a v = contains b v)
    /\ (includes a b = true <-> forall v, In v vs -> contains b v = true -> contains a v = true)
    /\ (intersects a b = true <-> exists v, In v vs /\ contains a v = true /\ contains b v = true).
Proof.
  intros Ca Cb Wa Wb. destruct (worded_probed (bounds a ++ bounds b)) as (ts & T & L & C); [now apply Forall_app|]. rewrite app_length in L.
  exists ts. split; [exact L|]. split; [exact T|]. rewrite Forall_forall in T.
  assert (K : forall v, worded v -> exists t, In t ts /\ contains a v = contains a t /\ contains b v = contains b t).
  { intros v V. destruct (C v V) as (t & I & S). exists t. split; [exact I|]. split; apply set_sides; intros c J; apply S, in_app_iff; auto. }
  rewrite equal_worded, includes_worded, intersects_worded by assumption. split; [|split].
  - split; intros H v V.
    + apply contains_eq_iff. now apply H, T.
    + destruct (K v V) as (t & I & A & B). apply contains_eq_iff. rewrite A, B. now apply H.
  - split; intros H v V.
    + rewrite !in_set_contains. now apply H, T.
    + destruct (K v V) as (t & I & A & B). rewrite <- !in_set_contains, A, B. now apply H.
  - split.
    + intros (v & V & A & B). destruct (K v V) as (t & I & Ea & Eb). rewrite <- in_set_contains in A, B. exists t. split; [exact I|]. split; congruence.
    + intros (v & I & A & B). exists v. rewrite <- !in_set_contains. auto.
Qed.
