(** What version sets made from specifiers say about them. *)

From Coq Require Import List ZArith NArith String Bool Lia.
From Verif Require Import Py Segments Version VersionSets Operators SetStrings Specifiers Parsers Spec
  Orders Cuts SetItems SetChains SetMerge SetOps OrderFacts SetVersions SetTheorems BumpFacts OperatorFacts SpecifierFacts Provenance
  CacheFacts Grammar Clauses ParseFacts ParseTheorems ClauseFacts SpecText SpecParse SpecStrings SpecMeaning Normal DecideSpec.
Import ListNotations.
Local Open Scope Z_scope.
Local Opaque key depth.

Lemma bumped_nonneg r i r' : Forall (fun x => 0 <= x) r -> bumped r i r' -> r' <> [] /\ Forall (fun x => 0 <= x) r'.
Proof.
  intros R [L P]. split; [intros ->; cbn [List.length] in L; lia|]. apply Forall_forall. intros x X. apply (In_nth _ _ 0) in X as (n & N & <-).
  specialize (P n). unfold part in P at 1. rewrite P.
  assert (K : forall m, 0 <= part r m).
  { intros m. unfold part. destruct (Nat.lt_ge_cases m (List.length r)) as [A|A]; [|rewrite nth_overflow by assumption; lia]. rewrite Forall_forall in R. apply R, nth_In, A. }
  pose proof (K n). pose proof (K i). destruct (n <? i)%nat, (n =? i)%nat; lia.
Qed.

Lemma bare_written e r : 0 <= e -> r <> [] -> Forall (fun x => 0 <= x) r -> written (bare e r).
Proof.
  intros E N R. assert (W : wf (bare e r)) by (repeat split; auto). split; auto.
  destruct (v_eq lowest (bare e r)) eqn:Q; auto. apply eq_same in Q; [|reflexivity|now apply wf_valid].
  destruct Q as (_ & _ & _ & _ & D & _). discriminate D.
Qed.

Lemma op_bound_written t w u : written w -> op_made t w -> op_bound t w u -> written u.
Proof.
  intros W [V L] [-> | H]; auto. destruct W as [(E & N & R & _) _]. unfold nonneg_release in R.
  assert (B : forall i r, bumped (v_release w) i r -> written (bare (v_epoch w) r)) by (intros i r K; destruct (bumped_nonneg _ _ _ R K); now apply bare_written).
  assert (B0 : written (bare (v_epoch w) (v_release w))) by now apply bare_written.
  assert (D : final w \/ ~ final w) by (destruct (is_stable w) eqn:S; [left; now apply stable_final|right; now apply unstable_final]).
  assert (Q : wildcard_upper w u -> written u).
  { intros (r & -> & H1 & H2 & H3). destruct D as [F|F]; [|now rewrite (H3 F)].
    destruct (v_post w) eqn:X; [now apply (B _ _ (H2 F ltac:(discriminate)))|now apply (B _ _ (H1 F eq_refl))]. }
  destruct t; try contradiction; auto; destruct H as (r & -> & H).
  - now apply (B _ _ H).
  - destruct H as (H1 & H2 & H3). destruct D as [F|F]; [now apply (B _ _ (H1 F))|]. destruct (Z.eq_dec (part (v_release w) 0) 0) as [Z|Z]; [now rewrite (H2 F Z)|now apply (B _ _ (H3 F Z))].
  - destruct H as (H1 & H2). destruct D as [F|F]; [now apply (B _ _ (H1 F))|now rewrite (H2 F)].
Qed.

Lemma made_ops s : spec_made s -> each_op op_made s.
Proof.
  intros M. induction s as [| |t w|ss IH|ss IH] using spec_members; try exact I; [exact M| |].
  - apply each_op_any. apply made_any in M as [_ M]. rewrite Forall_forall in *. auto.
  - apply each_op_all. apply made_all in M as [_ M]. rewrite Forall_forall in *. auto.
Qed.

Lemma convert_written s a : spec_made s -> each_op (fun _ w => written w) s -> specifier_to_version_set s = Ok a -> Forall written (bounds a).
Proof.
  intros M W E. apply Forall_forall. intros u U. destruct (convert_bounds s a u M E U) as (t & w & L & B).
  apply (op_bound_written t w u); auto; [exact (proj1 (each_leaf _ s) W t w L)|exact (proj1 (each_leaf _ s) (made_ops s M) t w L)].
Qed.

(** ** Questions about two specifiers *)

Lemma ok_true (x : bool) : Ok x = Ok true <-> x = true.
Proof. split; [now intros [=]|now intros ->]. Qed.
Lemma ok_false (x : bool) : Ok x = Ok false <-> x <> true.
Proof. destruct x; split; easy. Qed.
Lemma ok_same (x y : bool) : @Ok bool x = Ok y <-> (x = true <-> y = true).
Proof. destruct x, y; split; try easy; intros H; exfalso; intuition discriminate. Qed.

Lemma decided_of (P : version -> Prop) s u a b :
  (forall v, accepts s v = Ok (contains a v)) -> (forall v, accepts u v = Ok (contains b v)) ->
  (includes b a = true <-> forall v, P v -> in_set a v -> in_set b v) ->
  (intersects a b = true <-> exists v, P v /\ in_set a v /\ in_set b v) ->
  (set_eqb a b = true <-> forall v, P v -> (in_set a v <-> in_set b v)) ->
  (is_empty a = true <-> forall v, P v -> ~ in_set a v) ->
  (is_universal a = true <-> forall v, P v -> in_set a v) -> decided P s u a b.
Proof.
  intros A B I X E M U. split; [|split; [|split; [|split]]].
  - rewrite I. split; intros H v K; specialize (H v K); rewrite A, B, !ok_true in *; now rewrite <- !in_set_contains in *.
  - rewrite X. split; intros (v & H); exists v; rewrite A, B, !ok_true in *; now rewrite <- !in_set_contains in *.
  - rewrite E. split; intros H v K; specialize (H v K); rewrite A, B, ok_same in *; now rewrite <- !in_set_contains in *.
  - rewrite M. split; intros H v K; specialize (H v K); rewrite A, ok_false in *; now rewrite <- !in_set_contains in *.
  - rewrite U. split; intros H v K; specialize (H v K); rewrite A, ok_true in *; now rewrite <- !in_set_contains in *.
Qed.

Theorem decide_worded s u a b : spec_made s -> each_op plain_op s -> each_op (fun _ w => worded w) s ->
  spec_made u -> each_op plain_op u -> each_op (fun _ w => worded w) u ->
  specifier_to_version_set s = Ok a -> specifier_to_version_set u = Ok b -> decided worded s u a b.
Proof.
  intros Ms Ns Ws Mu Nu Wu A B. destruct (convert_accepts s a Ms Ns A) as [Ca Aa], (convert_accepts u b Mu Nu B) as [Cb Ab].
  pose proof (convert_worded s a Ms Ws A). pose proof (convert_worded u b Mu Wu B).
  apply decided_of; auto; [now apply includes_worded|now apply intersects_worded|now apply equal_worded|now apply empty_worded|now apply universal_worded].
Qed.

Theorem decide_written s u a b : spec_made s -> each_op plain_op s -> each_op (fun _ w => written w) s ->
  spec_made u -> each_op plain_op u -> each_op (fun _ w => written w) u ->
  specifier_to_version_set s = Ok a -> specifier_to_version_set u = Ok b -> decided wf s u a b.
Proof.
  intros Ms Ns Ws Mu Nu Wu A B. destruct (convert_accepts s a Ms Ns A) as [Ca Aa], (convert_accepts u b Mu Nu B) as [Cb Ab].
  pose proof (convert_written s a Ms Ws A). pose proof (convert_written u b Mu Wu B).
  apply decided_of; auto; [now apply includes_written|now apply intersects_written|now apply equal_written|now apply empty_written|now apply universal_written].
Qed.

Theorem decide_parsed x y s u a b : parse_specifier x = Ok s -> parse_specifier y = Ok u ->
  parse_version_set x = Ok a -> parse_version_set y = Ok b -> decided worded s u a b.
Proof.
  intros X Y A B. unfold parse_version_set in A, B. rewrite X in A. rewrite Y in B. cbn [bind] in A, B.
  destruct (parsed_made x s X) as [Ms Ns], (parsed_made y u Y) as [Mu Nu].
  assert (K : forall z p, parse_specifier z = Ok p -> each_op (fun _ w => worded w) p).
  { intros z p Z. apply (each_op_impl writable); [|now apply (parsed_writable z)]. intros t w [W _]. now apply wf_worded. }
  apply decide_worded; eauto.
Qed.

Theorem decide_texts x y s u a b : parse_specifier x = Ok s -> parse_specifier y = Ok u ->
  (forall t w, leaf t w s \/ leaf t w u -> v_eq lowest w = false) ->
  parse_version_set x = Ok a -> parse_version_set y = Ok b -> decided (fun v => exists z, parse_version z = Ok v) s u a b.
Proof.
  intros X Y L A B. unfold parse_version_set in A, B. rewrite X in A. rewrite Y in B. cbn [bind] in A, B.
  destruct (parsed_made x s X) as [Ms Ns], (parsed_made y u Y) as [Mu Nu].
  assert (K : forall z p, parse_specifier z = Ok p -> (forall t w, leaf t w p -> v_eq lowest w = false) -> each_op (fun _ w => written w) p).
  { intros z p Z H. apply each_leaf. intros t w T. split; [|now apply (H t)]. now apply (parsed_leaves z p t w Z). }
  assert (D : decided wf s u a b) by (apply decide_written; eauto).
  assert (Q : forall v, wf v <-> exists z, parse_version z = Ok v).
  { intros v. split; [intros W; exists (to_short_string v); now apply parse_short|intros (z & Z); now apply (parse_wf z)]. }
  destruct D as (D1 & D2 & D3 & D4 & D5). split; [|split; [|split; [|split]]].
  - rewrite D1. split; intros H v P; apply H; now apply Q.
  - rewrite D2. split; intros (v & P & H); exists v; (split; [now apply Q|exact H]).
  - rewrite D3. split; intros H v P; apply H; now apply Q.
  - rewrite D4. split; intros H v P; apply H; now apply Q.
  - rewrite D5. split; intros H v P; apply H; now apply Q.
Qed.

Lemma below_lowest : exists s a, parse_specifier (lit "<0.dev0") = Ok s /\ parse_version_set (lit "<0.dev0") = Ok a
  /\ is_empty a = false /\ forall z v, parse_version z = Ok v -> accepts s v = Ok false.
Proof.
  exists (One LESS lowest), (Item (Range None (Some lowest) false false)). split; [vm_compute; reflexivity|]. split; [vm_compute; reflexivity|]. split; [reflexivity|].
  intros z v Z. apply parse_wf in Z. change (Ok (v_lt v lowest) = Ok false). f_equal.
  destruct total_order as (T & _ & _ & _ & G & _ & _ & _ & S & _). specialize (T v lowest). rewrite G, (S v lowest) in T. destruct (lowest_le v Z) as [K|K]; rewrite K in T; intuition congruence.
Qed.
