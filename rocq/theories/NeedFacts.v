(** What every specifier with a given meaning has to mention. *)

From Coq Require Import List ZArith NArith String Bool Arith Lia.
From Verif Require Import Py Segments Version VersionSets Operators SetStrings Specifiers Parsers Spec
  Orders Cuts SetItems SetChains SetMerge SetOps OrderFacts SetVersions SetTheorems BumpFacts OperatorFacts SpecifierFacts Provenance
  CacheFacts Grammar Clauses ParseFacts ParseTheorems ClauseFacts SpecText SpecParse SpecStrings SpecMeaning SizeSpec SizeFacts EdgeFacts Normal NeedSpec.
Import ListNotations.
Local Open Scope nat_scope.
Local Opaque key depth.

(** A set of the versions for which [f] holds, with bounds in [P] and at most [n] edges. *)
Definition drawn (P : version -> Prop) (n : nat) (f : version -> Prop) (b : vset) : Prop :=
  canonical b /\ (forall v, contains b v = true <-> f v) /\ Forall P (bounds b) /\ edge_count b <= n.

Lemma drawn_empty P : drawn P 0 (fun _ => False) Empty.
Proof. repeat split; try constructor; try discriminate; contradiction. Qed.
Lemma drawn_all P : drawn P 0 (fun _ => True) UNIVERSAL_SET.
Proof. repeat split; try constructor; try discriminate; auto; cbn; intros; discriminate. Qed.

Lemma drawn_le (P Q : version -> Prop) n k (f g : version -> Prop) b : drawn P n f b -> (forall u, P u -> Q u) -> n <= k -> (forall v, f v <-> g v) -> drawn Q k g b.
Proof.
  intros (C & M & B & E) H L F. split; [exact C|]. split; [|split; [eapply Forall_impl; eassumption|lia]]. intros v. rewrite M. apply F.
Qed.

Lemma drawn_not P n f b : drawn P n f b -> exists c, drawn P n (fun v => ~ f v) c.
Proof.
  intros (C & M & B & E). destruct (complement_versions b C) as (r & R & Cr & Mr & _). exists r. split; [exact Cr|]. split; [|split].
  - intros v. now rewrite Mr, <- in_set_contains, M.
  - pose proof (complement_P P b) as K. rewrite R in K. apply sP_bounds, K, sP_bounds, B.
  - pose proof (complement_edges b r C R). lia.
Qed.

Lemma drawn_and P n k f g a b : drawn P n f a -> drawn P k g b -> exists c, drawn P (n + k) (fun v => f v /\ g v) c.
Proof.
  intros (Ca & Ma & Ba & Ea) (Cb & Mb & Bb & Eb). destruct (intersection_versions a b Ca Cb) as (r & R & Cr & Mr). exists r. split; [exact Cr|]. split; [|split].
  - intros v. now rewrite Mr, <- !in_set_contains, Ma, Mb.
  - pose proof (intersection_P P a b) as K. rewrite R in K. apply sP_bounds, K; now apply sP_bounds.
  - pose proof (intersection_edges a b r Ca Cb R). lia.
Qed.

Lemma drawn_dec P n f b v : drawn P n f b -> f v \/ ~ f v.
Proof. intros (_ & M & _). rewrite <- M. destruct (contains b v); [now left|now right]. Qed.

Lemma drawn_or P n k f g a b : drawn P n f a -> drawn P k g b -> exists c, drawn P (n + k) (fun v => f v \/ g v) c.
Proof.
  intros A B. destruct (drawn_not _ _ _ _ A) as (a' & A'), (drawn_not _ _ _ _ B) as (b' & B'). destruct (drawn_and _ _ _ _ _ _ _ A' B') as (c & C).
  destruct (drawn_not _ _ _ _ C) as (d & D). exists d. apply (drawn_le _ _ _ _ _ _ _ D); auto. intros v.
  destruct (drawn_dec _ _ _ _ v A), (drawn_dec _ _ _ _ v B); tauto.
Qed.

Lemma leaf_drawn t w : ordinary w -> op_made t w -> exists b, drawn (op_bound t w) (turns (One t w)) (op_sat t w) b.
Proof.
  intros O M. destruct (op_stuck_dec t w) as [S|S].
  - pose proof (fun v => op_stuck_sat t w v (proj1 O) S) as K.
    assert (T : t = WILDCARD_NOT_EQUAL \/ t <> WILDCARD_NOT_EQUAL) by (destruct t; (left; reflexivity) || (right; discriminate)). destruct T as [T|T].
    + exists UNIVERSAL_SET. apply (drawn_le (op_bound t w) _ 0 _ (fun _ => True)); [apply drawn_all|auto|lia|]. intros v. rewrite K. split; auto.
    + exists Empty. apply (drawn_le (op_bound t w) _ 0 _ (fun _ => False)); [apply drawn_empty|auto|lia|]. intros v. rewrite K. split; [contradiction|auto].
  - destruct (op_translate_sat t w O M S) as (a & E & C & H). exists a. repeat split; try assumption; try apply H.
    + pose proof (op_translate_P (op_bound t w) t w M (fun u U => U)) as K. rewrite E in K. now apply sP_bounds.
    + pose proof (translate_edges t w a O M E) as L. destruct t; cbn [turns]; try exact L; cbn [op_translate] in E; injection E as <-; cbn; lia.
Qed.

Lemma members_drawn (P : version -> Prop) ss : (forall t w u, leaf t w (AnyOf ss) -> op_bound t w u -> P u) ->
  Forall (fun s => exists b, drawn (fun u => exists t w, leaf t w s /\ op_bound t w u) (turns s) (sat s) b) ss ->
  (exists b, drawn P (turns (AnyOf ss)) (fun v => Exists (fun s => sat s v) ss) b) /\ (exists b, drawn P (turns (AllOf ss)) (fun v => Forall (fun s => sat s v) ss) b).
Proof.
  intros H F. induction F as [|s ss (b & B) F IH].
  - split.
    + exists Empty. apply (drawn_le P _ 0 _ (fun _ => False)); [apply drawn_empty|auto|auto|]. intros v. now rewrite Exists_nil.
    + exists UNIVERSAL_SET. apply (drawn_le P _ 0 _ (fun _ => True)); [apply drawn_all|auto|auto|]. intros v. split; auto.
  - destruct IH as [(x & X) (y & Y)].
    { intros t w u L. apply H. inversion L; subst. eapply leaf_any; [right|]; eassumption. }
    assert (B' : drawn P (turns s) (sat s) b).
    { apply (drawn_le _ _ _ _ _ _ _ B); auto; [|tauto]. intros u (t & w & L & U). apply (H t w u); [|exact U]. apply (leaf_any _ _ s); [now left|exact L]. }
    destruct (drawn_or _ _ _ _ _ _ _ B' X) as (c & C), (drawn_and _ _ _ _ _ _ _ B' Y) as (d & D). split.
    + exists c. apply (drawn_le _ _ _ _ _ _ _ C); auto. intros v. now rewrite Exists_cons.
    + exists d. apply (drawn_le _ _ _ _ _ _ _ D); auto. intros v. now rewrite Forall_cons_iff.
Qed.

Lemma spec_drawn s : spec_made s -> each_op plain_op s -> exists b, drawn (fun u => exists t w, leaf t w s /\ op_bound t w u) (turns s) (sat s) b.
Proof.
  induction s as [| |t w|ss IH|ss IH] using spec_members.
  - intros _ _. exists Empty. apply drawn_empty.
  - intros _ _. exists UNIVERSAL_SET. apply drawn_all.
  - intros M N. destruct (leaf_drawn t w) as (b & B); [split; [apply M|exact N]|exact M|]. exists b. apply (drawn_le _ _ _ _ _ _ _ B); auto; [|reflexivity].
    intros u U. exists t, w. split; [constructor|exact U].
  - rewrite made_any, each_op_any. intros [_ M] N. destruct (members_drawn (fun u => exists t w, leaf t w (AnyOf ss) /\ op_bound t w u) ss) as [(b & B) _]; [eauto| |].
    + rewrite Forall_forall in *. auto.
    + exists b. apply (drawn_le _ _ _ _ _ _ _ B); auto. intros v. now rewrite sat_any.
  - rewrite made_all, each_op_all. intros [_ M] N. destruct (members_drawn (fun u => exists t w, leaf t w (AllOf ss) /\ op_bound t w u) ss) as [_ (b & B)].
    + intros t w u L U. exists t, w. split; [|exact U]. inversion L; subst. eapply leaf_all; eassumption.
    + rewrite Forall_forall in *. auto.
    + exists b. apply (drawn_le _ _ _ _ _ _ _ B); auto. intros v. now rewrite sat_all.
Qed.

(** ** Equal sets have equal bounds and edges *)

Lemma item_eqb_bounds i j u : item_eqb i j = true -> In u (item_bounds i) -> exists u', In u' (item_bounds j) /\ v_eq u u' = true.
Proof.
  unfold item_eqb. rewrite !andb_true_iff. intros [[[A B] _] _].
  assert (K : forall i u, In u (item_bounds i) <-> i_min i = Some u \/ i_max i = Some u).
  { intros k x. destruct k as [v|m M b c]; [|destruct m, M]; cbn; intuition congruence. }
  rewrite K. intros [U|U]; rewrite U in *.
  - destruct (i_min j) as [x|] eqn:E; [|discriminate]. exists x. rewrite K. auto.
  - destruct (i_max j) as [x|] eqn:E; [|discriminate]. exists x. rewrite K. auto.
Qed.

Lemma items_eqb_pairs xs : forall ys, items_eqb xs ys = true -> Forall2 (fun x y => item_eqb x y = true) xs ys.
Proof.
  induction xs as [|x xs IH]; intros [|y ys] H; try discriminate; constructor; cbn [items_eqb] in H; apply andb_true_iff in H as [H K]; auto.
Qed.
Lemma set_eqb_pairs a b : set_eqb a b = true -> Forall2 (fun x y => item_eqb x y = true) (extract a) (extract b).
Proof. destruct a, b; try discriminate; cbn [set_eqb extract]; intros H; [constructor|repeat constructor; exact H|now apply items_eqb_pairs]. Qed.

Lemma set_eqb_bounds a b u : set_eqb a b = true -> In u (bounds a) -> exists u', In u' (bounds b) /\ v_eq u u' = true.
Proof.
  intros H. apply set_eqb_pairs in H. rewrite !bounds_extract. induction H as [|x y xs ys E _ IH]; [intros []|]. cbn [flat_map]. rewrite in_app_iff. intros [I|I].
  - destruct (item_eqb_bounds x y u E I) as (u' & J & V). exists u'. split; [apply in_or_app; now left|exact V].
  - destruct (IH I) as (u' & J & V). exists u'. split; [apply in_or_app; now right|exact V].
Qed.

Lemma set_eqb_edges a b : canonical a -> canonical b -> set_eqb a b = true -> edge_count a = edge_count b.
Proof.
  rewrite !canonical_canon. intros Ca Cb H. apply set_eqb_pairs in H. apply canon_chain, chain_proper in Ca, Cb. unfold edge_count.
  induction H as [|x y xs ys E _ IH]; [reflexivity|]. inversion Ca; subst. inversion Cb; subst. rewrite !edges_cons, !edge_count_item.
  rewrite item_eqb_cut in E by now apply proper_valid. apply andb_true_iff in E as [E F]. rewrite IH by assumption.
  assert (K : forall c d, is_eq (ccmp c d) = true -> c = d).
  { intros c d L. destruct (clt_total c d) as [X|[X|X]]; [|exact X|]; exfalso; unfold clt in X; [rewrite X in L; discriminate|].
    rewrite (law_anti lawful_cut), X in L. discriminate. }
  now rewrite (K _ _ E), (K _ _ F).
Qed.

(** ** What is needed *)

Lemma made_worded s : each_op (fun _ w => worded w) s -> spec_made s -> forall t w u, leaf t w s -> op_bound t w u -> worded u.
Proof.
  intros W M t w u L. apply op_bound_worded; [exact (proj1 (each_leaf _ s) W t w L)|].
  assert (K : each_op op_made s).
  { clear - M. induction s as [| |t w|ss IH|ss IH] using spec_members; try exact I; [exact M| |].
    - apply each_op_any. apply made_any in M as [_ M]. rewrite Forall_forall in *. auto.
    - apply each_op_all. apply made_all in M as [_ M]. rewrite Forall_forall in *. auto. }
  exact (proj1 (each_leaf _ s) K t w L).
Qed.

Lemma same_drawn a s : canonical a -> Forall worded (bounds a) -> spec_made s -> each_op plain_op s -> each_op (fun _ w => worded w) s ->
  (forall v, worded v -> accepts s v = Ok (contains a v)) ->
  exists b, canonical b /\ set_eqb a b = true /\ (forall u, In u (bounds b) -> exists t w, leaf t w s /\ op_bound t w u) /\ edge_count b <= turns s.
Proof.
  intros C Wa M N W H. destruct (spec_drawn s M N) as (b & Cb & Mb & Bb & Eb). exists b. rewrite Forall_forall in Bb. repeat split; auto.
  apply equal_worded; auto.
  - apply Forall_forall. intros u U. destruct (Bb u U) as (t & w & L & B). exact (made_worded s W M t w u L B).
  - intros v V. rewrite <- !in_set_contains, Mb. destruct (accepts_sat s v M) as (x & A & X). rewrite H in A by exact V. injection A as ->. exact X.
Qed.

Theorem needed a s : canonical a -> Forall worded (bounds a) -> spec_made s -> each_op plain_op s -> each_op (fun _ w => worded w) s ->
  (forall v, worded v -> accepts s v = Ok (contains a v)) ->
  forall u, In u (bounds a) -> exists t w x, leaf t w s /\ op_bound t w x /\ v_eq u x = true.
Proof.
  intros C Wa M N W H u U. destruct (same_drawn a s C Wa M N W H) as (b & Cb & E & B & _). destruct (set_eqb_bounds a b u E U) as (x & X & V).
  destruct (B x X) as (t & w & L & K). eauto 6.
Qed.

Theorem needed_clauses a s u : canonical a -> Forall worded (bounds a) -> spec_made s -> each_op plain_op s -> each_op (fun _ w => worded w) s ->
  (forall v, worded v -> accepts s v = Ok (contains a v)) -> version_set_to_specifier a = Ok u -> clauses u <= turns s.
Proof.
  intros C Wa M N W H E. destruct (same_drawn a s C Wa M N W H) as (b & Cb & Q & _ & L). pose proof (set_clauses a u C E). pose proof (set_eqb_edges a b C Cb Q). lia.
Qed.

Theorem simplify_needed s s' u : spec_made s -> each_op plain_op s -> each_op (fun _ w => worded w) s -> spec_made u -> each_op plain_op u -> each_op (fun _ w => worded w) u ->
  simplify s = Ok s' -> (forall v, worded v -> accepts s v = accepts u v) ->
  clauses s' <= turns u /\ forall t w, leaf t w s' -> exists t' w' x, leaf t' w' u /\ op_bound t' w' x /\ v_eq w x = true.
Proof.
  intros Ms Ns Ws Mu Nu Wu E H. unfold simplify in E. destruct (specifier_to_version_set s) as [a|] eqn:A; [|discriminate]. cbn [bind] in E.
  destruct (convert_accepts s a Ms Ns A) as [Ca Ka]. assert (Wa : Forall worded (bounds a)) by now apply (convert_worded s).
  assert (K : forall v, worded v -> accepts u v = Ok (contains a v)) by (intros v V; now rewrite <- H).
  split; [now apply (needed_clauses a)|]. intros t w L. destruct (to_specifier_leaves a s' t w E L) as [_ B]. now apply (needed a).
Qed.

Theorem parsed_needed x y s s' u : parse_specifier x = Ok s -> parse_specifier y = Ok u -> simplify s = Ok s' -> (forall v, worded v -> accepts s v = accepts u v) ->
  clauses s' <= turns u /\ forall t w, leaf t w s' -> exists t' w' z, leaf t' w' u /\ op_bound t' w' z /\ v_eq w z = true.
Proof.
  intros X Y. destruct (parsed_made x s X) as [Ms Ns], (parsed_made y u Y) as [Mu Nu]. apply simplify_needed; auto.
  - apply (each_op_impl writable); [|now apply (parsed_writable x)]. intros t w [W _]. now apply wf_worded.
  - apply (each_op_impl writable); [|now apply (parsed_writable y)]. intros t w [W _]. now apply wf_worded.
Qed.

(** Specifiers that only bound on one side have as many turns as clauses. *)
Lemma turns_bounding u : (forall t w, leaf t w u -> In t [LESS; LESS_OR_EQUAL; GREATER; GREATER_OR_EQUAL]) -> turns u = clauses u.
Proof.
  assert (K : forall ss, Forall (fun s => (forall t w, leaf t w s -> In t [LESS; LESS_OR_EQUAL; GREATER; GREATER_OR_EQUAL]) -> turns s = clauses s) ss ->
    (forall s t w, In s ss -> leaf t w s -> In t [LESS; LESS_OR_EQUAL; GREATER; GREATER_OR_EQUAL]) ->
    fold_right (fun s n => turns s + n) 0 ss = fold_right (fun s n => clauses s + n) 0 ss).
  { induction 1 as [|s ss E _ IH]; intros L; [reflexivity|]. cbn [fold_right]. rewrite E, IH; [reflexivity| |].
    - intros x t w I. apply (L x t w). now right.
    - intros t w. apply (L s t w). now left. }
  induction u as [| |t w|ss IH|ss IH] using spec_members; intros H; [reflexivity|reflexivity| | |].
  - destruct (H t w (leaf_one t w)) as [<-|[<-|[<-|[<-|[]]]]]; reflexivity.
  - cbn [turns clauses]. apply K; [exact IH|]. intros s t w I L. apply (H t w). now apply (leaf_any _ _ s).
  - cbn [turns clauses]. apply K; [exact IH|]. intros s t w I L. apply (H t w). now apply (leaf_all _ _ s).
Qed.

(** Specifiers without shorthand name the versions themselves. *)
Lemma compares_bound t w x : compares t -> op_bound t w x -> x = w.
Proof. destruct t; cbn; intros []; intros [H|[]]; exact H. Qed.

Theorem parsed_shortest x y s s' u : parse_specifier x = Ok s -> parse_specifier y = Ok u -> simplify s = Ok s' -> (forall v, worded v -> accepts s v = accepts u v) ->
  ((forall t w, leaf t w u -> In t [LESS; LESS_OR_EQUAL; GREATER; GREATER_OR_EQUAL]) -> clauses s' <= clauses u)
  /\ ((forall t w, leaf t w u -> compares t) -> forall t w, leaf t w s' -> exists t' w', leaf t' w' u /\ v_eq w w' = true).
Proof.
  intros X Y E H. destruct (parsed_needed x y s s' u X Y E H) as [C L]. split.
  - intros B. now rewrite <- (turns_bounding u B).
  - intros B t w I. destruct (L t w I) as (t' & w' & z & I' & Z & V). apply compares_bound in Z; [|now apply (B t' w')]. subst z. eauto.
Qed.
