(** Edges of sets: where membership changes.  Canonical sets have no other
    bounds, so results have no more edges than their arguments together. *)

From Coq Require Import List ZArith NArith Bool Arith Lia.
From Coq Require ListDec.
From Verif Require Import Py Segments Version VersionSets Operators Specifiers Parsers Spec SpecMeaning Orders Cuts SetItems SetChains SetMerge SetOps
  SetVersions Density SetAlgebra SetTheorems OrderFacts OperatorFacts SpecifierFacts SizeSpec SizeFacts.
Import ListNotations.
Local Open Scope nat_scope.
Local Opaque key.

Definition finite (c : cut) : bool := match c with Fin _ => true | _ => false end.
Definition ends (xs : list item) : list cut := flat_map (fun x => [lo x; hi x]) xs.
Definition edges (xs : list item) : list cut := filter finite (ends xs).

Lemma ends_in xs c : In c (ends xs) <-> exists x, In x xs /\ (c = lo x \/ c = hi x).
Proof.
  unfold ends. rewrite in_flat_map. split; intros (x & I & H); exists x; (split; [exact I|]); cbn in *; intuition congruence.
Qed.

Lemma chain_ends xs : forall c, chain_from c xs -> (forall d, In d (ends xs) -> clt c d) /\ NoDup (ends xs).
Proof.
  induction xs as [|x xs IH]; intros c; [intros _; split; [intros d []|constructor]|].
  intros (P & L & C). destruct (IH _ C) as [B N]. pose proof (proper_lt _ P) as Q. cbn [ends flat_map app]. fold (ends xs). split.
  - intros d [<-|[<-|I]]; [exact L|corder|]. pose proof (B d I). corder.
  - constructor; [|constructor; [|exact N]].
    + intros [E|I]; [rewrite E in Q; exact (clt_irrefl _ Q)|]. pose proof (B _ I). corder.
    + intros I. exact (clt_irrefl _ (B _ I)).
Qed.
Lemma edges_nodup xs : chain xs -> NoDup (edges xs).
Proof.
  intros C. apply NoDup_filter. destruct xs as [|x xs]; [constructor|]. destruct C as (P & C).
  destruct (chain_ends _ _ C) as [B N]. pose proof (proper_lt _ P) as Q. cbn [ends flat_map app]. fold (ends xs).
  constructor; [|constructor; [|exact N]].
  - intros [E|I]; [rewrite E in Q; exact (clt_irrefl _ Q)|]. pose proof (B _ I). corder.
  - intros I. exact (clt_irrefl _ (B _ I)).
Qed.

(** Nothing changes just below a cut that is not an end. *)
Lemma still xs p : ~ In (Fin p) (ends xs) -> exists d, clt d (Fin p) /\ forall e, cle d e -> cle e (Fin p) -> (dens xs e <-> dens xs (Fin p)).
Proof.
  induction xs as [|x xs IH].
  - intros _. exists NegInf. split; [reflexivity|].
    intros e _ _. rewrite !dens_nil. tauto.
  - intros N. cbn [ends flat_map app] in N. fold (ends xs) in N.
    assert (N1 : lo x <> Fin p) by (intros E; apply N; now left). assert (N2 : hi x <> Fin p) by (intros E; apply N; right; now left).
    destruct IH as (d & Ld & Hd); [intros I; apply N; right; now right|].
    assert (M : exists f, clt f (Fin p) /\ cle d f /\ (clt (lo x) (Fin p) -> cle (lo x) f) /\ (clt (hi x) (Fin p) -> cle (hi x) f)).
    { assert (K : forall g h, clt g (Fin p) -> exists f, clt f (Fin p) /\ cle g f /\ (clt h (Fin p) -> cle h f)).
      { intros g h G. destruct (clt_cle_dec h (Fin p)) as [H|H].
        - exists (cmax g h). split; [cminmax; assumption|]. split; [cminmax; corder|intros _; cminmax; corder].
        - exists g. split; [exact G|]. split; [apply cle_refl|]. intros X. corder. }
      destruct (K d (lo x) Ld) as (f & F1 & F2 & F3). destruct (K f (hi x) F1) as (f' & G1 & G2 & G3).
      exists f'. split; [exact G1|]. split; [corder|]. split; [|exact G3]. intros X. specialize (F3 X). corder. }
    destruct M as (f & F1 & F2 & F3 & F4). exists f. split; [exact F1|]. intros e L1 L2.
    rewrite !dens_cons, (Hd e) by corder.
    assert (K : den x e <-> den x (Fin p)); [|tauto].
    split; intros [A B].
    + split; [corder|]. destruct (clt_cle_dec (Fin p) (hi x)) as [H|H]; [exact H|]. exfalso.
      apply cle_lt_eq in H as [H|H]; [|now destruct N2]. specialize (F4 H). corder.
    + split; [|corder]. apply cle_lt_eq in A as [A|A]; [|now destruct N1]. specialize (F3 A). corder.
Qed.

(** Something changes at the ends of a chain. *)
Lemma before_lo xs x : forall b, chain_from b xs -> In x xs -> forall d, clt d (lo x) ->
  exists e, cle d e /\ clt e (lo x) /\ cle b e /\ ~ dens xs e.
Proof.
  induction xs as [|y xs IH]; [intros b _ []|]. intros b (P & L & C) [<-|I] d D.
  - exists (cmax d b). split; [cminmax; corder|]. split; [cminmax; assumption|]. split; [cminmax; corder|].
    rewrite dens_cons. intros [[A _]|A]; [cminmax; corder|]. apply (dens_lb _ _ _ C) in A. pose proof (proper_lt _ P). cminmax; corder.
  - destruct (IH _ C I d D) as (e & E1 & E2 & E3 & E4). exists e. split; [exact E1|]. split; [exact E2|]. pose proof (proper_lt _ P).
    split; [corder|]. rewrite dens_cons. intros [[_ A]|A]; [corder|auto].
Qed.
Lemma chain_before_lo xs x d : chain xs -> In x xs -> clt d (lo x) -> exists e, cle d e /\ clt e (lo x) /\ ~ dens xs e.
Proof.
  destruct xs as [|y xs]; [intros _ []|]. intros (P & C) [<-|I] D.
  - exists d. split; [apply cle_refl|]. split; [exact D|]. rewrite dens_cons. intros [[A _]|A]; [corder|].
    apply (dens_lb _ _ _ C) in A. pose proof (proper_lt _ P). corder.
  - destruct (before_lo _ _ _ C I d D) as (e & E1 & E2 & E3 & E4). exists e. split; [exact E1|]. split; [exact E2|].
    rewrite dens_cons. intros [[_ A]|A]; [corder|auto].
Qed.
Lemma not_at_hi xs x : chain xs -> In x xs -> ~ dens xs (hi x).
Proof.
  intros C I (y & J & A & B). pose proof (chain_proper _ C) as F. rewrite Forall_forall in F.
  pose proof (proper_lt _ (F x I)). pose proof (proper_lt _ (F y J)).
  destruct (chain_in xs x y C I J) as [<-|[X|X]]; corder.
Qed.

Lemma changes xs c d : chain xs -> In c (ends xs) -> clt d c -> exists e, cle d e /\ cle e c /\ ~ (dens xs e <-> dens xs c).
Proof.
  intros C I D. apply ends_in in I as (x & I & [->| ->]).
  - destruct (chain_before_lo xs x d C I D) as (e & E1 & E2 & E3). exists e. split; [exact E1|]. split; [now apply clt_le|]. intros H.
    apply E3, H. exists x. split; [exact I|]. apply den_lo. pose proof (chain_proper _ C) as F. rewrite Forall_forall in F. auto.
  - pose proof (chain_proper _ C) as F. rewrite Forall_forall in F. pose proof (proper_lt _ (F x I)) as P.
    exists (cmax d (lo x)). split; [cminmax; corder|]. split; [cminmax; corder|]. intros H. apply (not_at_hi xs x C I), H.
    exists x. split; [exact I|]. split; cminmax; corder.
Qed.

Lemma cut_dec (c d : cut) : c = d \/ c <> d.
Proof. destruct (clt_total c d) as [H|[H|H]]; auto; right; intros ->; exact (clt_irrefl _ H). Qed.
Lemma ends_dec xs c : In c (ends xs) \/ ~ In c (ends xs).
Proof. apply ListDec.In_decidable. intros x y. apply cut_dec. Qed.

Lemma edges_incl xs ys zs : chain zs ->
  (forall c d, clt c PosInf -> clt d PosInf -> (dens xs c <-> dens xs d) -> (dens ys c <-> dens ys d) -> (dens zs c <-> dens zs d)) ->
  incl (edges zs) (edges xs ++ edges ys).
Proof.
  intros C H c I. apply filter_In in I as [I Fc]. destruct c as [|p|]; try discriminate.
  apply in_or_app. destruct (ends_dec xs (Fin p)) as [A|A]; [left; now apply filter_In|].
  destruct (ends_dec ys (Fin p)) as [B|B]; [right; now apply filter_In|]. exfalso.
  destruct (still xs p A) as (d1 & D1 & H1). destruct (still ys p B) as (d2 & D2 & H2).
  destruct (changes zs (Fin p) (cmax d1 d2) C I) as (e & E1 & E2 & N); [cminmax; assumption|].
  pose proof (cpos_gt p) as Q.
  apply N, H; [corder|exact Q|apply H1; [cminmax; corder|exact E2]|apply H2; [cminmax; corder|exact E2]].
Qed.

Definition edge_count (a : vset) : nat := length (edges (extract a)).

Lemma edges_le a b r : canon r ->
  (forall c d, clt c PosInf -> clt d PosInf -> (dset a c <-> dset a d) -> (dset b c <-> dset b d) -> (dset r c <-> dset r d)) ->
  edge_count r <= edge_count a + edge_count b.
Proof.
  intros C H. unfold edge_count. rewrite <- app_length.
  apply NoDup_incl_length; [apply edges_nodup, canon_chain, C|]. apply edges_incl; [apply canon_chain, C|exact H].
Qed.

Lemma union_edges a b r : canonical a -> canonical b -> union a b = Ok r -> edge_count r <= edge_count a + edge_count b.
Proof.
  intros Ca Cb E. destruct (union_clash_dec a b Ca Cb) as [U|U].
  - apply (union_outcome a b Ca Cb) in U. congruence.
  - rewrite canonical_canon in Ca, Cb. destruct (union_spec a b Ca Cb) as [H _]. destruct H as (r' & E' & C & D).
    + intros S. apply U. now apply union_clash_stuck.
    + rewrite E in E'. injection E' as <-. apply edges_le; [exact C|]. intros c d _ _. rewrite !D. tauto.
Qed.
Lemma intersection_edges a b r : canonical a -> canonical b -> intersection a b = Ok r -> edge_count r <= edge_count a + edge_count b.
Proof.
  rewrite !canonical_canon. intros Ca Cb E. destruct (intersection_spec a b Ca Cb) as (r' & E' & C & D).
  rewrite E in E'. injection E' as <-. apply edges_le; [exact C|]. intros c d _ _. rewrite !D. tauto.
Qed.
Lemma complement_edges a r : canonical a -> complement a = Ok r -> edge_count r <= edge_count a.
Proof.
  rewrite !canonical_canon. intros Ca E. destruct (complement_spec a Ca) as (r' & E' & C & D).
  rewrite E in E'. injection E' as <-. rewrite <- (Nat.add_0_r (edge_count a)). apply (edges_le a Empty); [exact C|].
  intros c d Lc Ld. rewrite !D. tauto.
Qed.

(** ** Specifiers *)

Lemma item_edges i : edge_count (Item i) <= 2.
Proof. unfold edge_count, edges, ends. cbn. destruct (finite (lo i)), (finite (hi i)); cbn; lia. Qed.

Ltac one_item H := ok H; injection H as <-; apply item_edges.

Lemma wildcard_edges v a : translate_wildcard_equal v = Ok a -> exists i, a = Item i.
Proof.
  unfold translate_wildcard_equal. intros H. ok H. destruct y as [w|]; ok H; injection H as <-; eauto.
Qed.

Lemma translate_edges t w a : ordinary w -> op_made t w -> op_translate t w = Ok a -> edge_count a <= 2.
Proof.
  intros O M H. destruct t; cbn [op_translate] in H.
  - unfold translate_tilde_equal in H. ok H. one_item H.
  - injection H as <-. apply item_edges.
  - unfold translate_not_equal, translate_equal in H. cbn [bind] in H. ok H. apply complement_edges in E; [|exact I].
    pose proof (item_edges (Point w)). destruct y; try discriminate. injection H as <-. lia.
  - unfold translate_less in H. one_item H.
  - unfold translate_less_or_equal in H. one_item H.
  - unfold translate_greater in H. one_item H.
  - unfold translate_greater_or_equal in H. one_item H.
  - unfold translate_caret in H. ok H. one_item H.
  - injection H as <-. apply item_edges.
  - unfold translate_tilde in H. ok H. one_item H.
  - apply wildcard_edges in H as (i & ->). apply item_edges.
  - apply wildcard_edges in H as (i & ->). apply item_edges.
  - destruct (op_stuck_dec WILDCARD_NOT_EQUAL w) as [S|S].
    { pose proof (op_translate_stuck WILDCARD_NOT_EQUAL w (proj1 O) S) as X. cbn [op_translate] in X. congruence. }
    destruct (wildcard_translate w O S) as (x & E & C & _). unfold translate_wildcard_not_equal in H. rewrite E in H. cbn [bind] in H. ok H.
    apply complement_edges in E0; [|exact C]. apply wildcard_edges in E as (i & ->). pose proof (item_edges i).
    destruct y; try discriminate; injection H as <-; lia.
Qed.

Lemma reduce_edges f (g : spec -> result vset) ss :
  (forall a b r, canonical a -> canonical b -> f a b = Ok r -> canonical r /\ edge_count r <= edge_count a + edge_count b) ->
  Forall (fun s => forall a, g s = Ok a -> canonical a /\ edge_count a <= 2 * clauses s) ss ->
  forall acc a, canonical acc -> reduce_from f g acc ss = Ok a ->
  edge_count a <= edge_count acc + 2 * fold_right (fun s n => clauses s + n) 0 ss.
Proof.
  intros Hf F. induction F as [|s ss Hs F IH]; intros acc a C H; cbn [reduce_from fold_right] in *.
  - injection H as <-. lia.
  - ok H. ok H. destruct (Hs _ E) as [Cy Ly]. destruct (Hf _ _ _ C Cy E0) as [C' L']. specialize (IH _ _ C' H). lia.
Qed.

Lemma convert_reduce f ss a : (forall a b r, canonical a -> canonical b -> f a b = Ok r -> canonical r /\ edge_count r <= edge_count a + edge_count b) ->
    Forall (fun s => spec_made s -> each_op plain_op s -> forall a, specifier_to_version_set s = Ok a -> edge_count a <= 2 * clauses s) ss ->
    Forall spec_made ss -> Forall (each_op plain_op) ss -> reduce_map f specifier_to_version_set ss = Ok a ->
    edge_count a <= 2 * fold_right (fun s n => clauses s + n) 0 ss.
Proof.
    intros Hf IH M N H.
    assert (Q : Forall (fun s => forall a, specifier_to_version_set s = Ok a -> canonical a /\ edge_count a <= 2 * clauses s) ss).
    { rewrite Forall_forall in *. intros s Is a' E. split; [|exact (IH s Is (M s Is) (N s Is) a' E)]. exact (proj1 (convert_sound s (M s Is) (N s Is) a' E)). }
    destruct ss as [|s ss]; [discriminate|]. cbn [reduce_map] in H. ok H. apply Forall_cons_iff in Q as [Qs Q].
    destruct (Qs _ E) as [C L]. pose proof (reduce_edges f _ ss Hf Q _ _ C H). cbn [fold_right]. lia.
Qed.

Lemma convert_edges s : spec_made s -> each_op plain_op s -> forall a, specifier_to_version_set s = Ok a -> edge_count a <= 2 * clauses s.
Proof.
  induction s as [| |t w|ss IH|ss IH] using spec_members.
  - intros _ _ a [= <-]. cbn. lia.
  - intros _ _ a [= <-]. cbn. lia.
  - intros M N a H. cbn in M, N, H. apply (translate_edges t w a); [split; [apply M|exact N]|exact M|exact H].
  - rewrite made_any, each_op_any. intros [_ M] N a H. apply (convert_reduce union); auto.
    intros x y r Cx Cy E. split; [now apply (union_members x y)|now apply union_edges].
  - rewrite made_all, each_op_all. intros [_ M] N a H. apply (convert_reduce intersection); auto.
    intros x y r Cx Cy E. split; [now apply (intersection_members x y)|now apply intersection_edges].
Qed.

Lemma item_clauses i s : item_to_specifier i = Ok s -> clauses s <= edge_count (Item i).
Proof.
  destruct i as [v|m M b c]; cbn [item_to_specifier]; [intros [= <-]; cbn; lia|]. intros H. ok H. unfold try_range_simple in E.
  destruct (item_is_empty _); [injection E as <-; injection H as <-; cbn; lia|].
  destruct (item_is_universal _); [injection E as <-; injection H as <-; cbn; lia|].
  destruct (item_is_point _) eqn:P.
  - ok E. injection E as <-. injection H as <-. unfold item_is_point in P. destruct m as [m|], M as [M|]; try discriminate P; cbn; lia.
  - injection E as <-. unfold try_range_unwrap in H. destruct m as [m|], M as [M|]; try discriminate; injection H as <-; cbn; lia.
Qed.

Lemma edges_cons x xs : length (edges (x :: xs)) = edge_count (Item x) + length (edges xs).
Proof.
  unfold edge_count, edges, ends. cbn [extract flat_map app]. cbn [filter]. destruct (finite (lo x)), (finite (hi x)); reflexivity.
Qed.

Lemma any_of_clauses ss : clauses (any_of ss) = fold_right (fun s n => clauses s + n) 0 ss.
Proof. destruct ss as [|s [|u ss]]; cbn; lia. Qed.

Lemma set_clauses a s : canonical a -> version_set_to_specifier a = Ok s -> clauses s <= edge_count a.
Proof.
  intros C. destruct a as [|i|xs]; cbn [version_set_to_specifier].
  - intros [= <-]. cbn. lia.
  - apply item_clauses.
  - intros H. ok H. destruct y as [v|].
    + injection H as <-. unfold exclude_version in E. ok E.
      assert (K : edge_count y <= edge_count (Union xs)) by now apply complement_edges.
      destruct y as [|[u|? ? ? ?]|]; try discriminate. cbn [unpin_version clauses]. change (edge_count (Item (Point u))) with 2 in K. lia.
    + ok H. injection H as <-. rewrite any_of_clauses. unfold edge_count. cbn [extract]. clear C E. revert y E0.
      induction xs as [|x xs IH]; intros y E; cbn [mapM] in E.
      * injection E as <-. cbn. lia.
      * ok E. ok E. injection E as <-. rewrite edges_cons. apply item_clauses in E0. specialize (IH _ E1). cbn [fold_right]. lia.
Qed.

Lemma simplify_clauses s u : spec_made s -> each_op plain_op s -> simplify s = Ok u -> clauses u <= 2 * clauses s.
Proof.
  intros M N H. unfold simplify in H. ok H. pose proof (convert_edges s M N _ E). destruct (convert_sound s M N _ E) as (C & _).
  pose proof (set_clauses _ _ C H). lia.
Qed.

(** ** Canonical sets are shortest *)

Lemma cover_length xs ys : chain xs -> Forall proper ys -> (forall c, dens xs c <-> dens ys c) -> length xs <= length ys.
Proof.
  intros C F H. pose proof (chain_proper _ C) as P. rewrite Forall_forall in P, F.
  assert (K : exists zs, Forall2 (fun x z => In z ys /\ den z (lo x)) xs zs).
  { assert (G : forall x, In x xs -> In x xs) by auto. revert G. generalize xs at 1 3. induction xs0 as [|x l IH]; intros G; [exists []; constructor|].
    destruct IH as (zs & Z); [intros y I; apply G; now right|].
    destruct (proj1 (H (lo x))) as (z & Iz & Dz); [exists x; split; [apply G; now left|apply den_lo, P, G; now left]|].
    exists (z :: zs). constructor; auto. }
  destruct K as (zs & Z). replace (length xs) with (length zs) by (clear - Z; induction Z; cbn; congruence). apply NoDup_incl_length.
  - assert (U : forall x y z, In x xs -> In y xs -> In z ys -> den z (lo x) -> den z (lo y) -> x = y).
    { intros x y z Ix Iy Iz Dx Dy. destruct (inside xs z C (F z Iz)) as (m & Im & M1 & M2).
      { intros c D. apply H. exists z. auto. }
      assert (A : forall w, In w xs -> den z (lo w) -> w = m).
      { intros w Iw [D1 D2]. pose proof (proper_lt _ (P w Iw)). pose proof (proper_lt _ (P m Im)).
        destruct (chain_in xs w m C Iw Im) as [E|[E|E]]; [exact E|exfalso; corder|exfalso; corder]. }
      rewrite (A x), (A y); auto. }
    assert (N : NoDup xs).
    { clear - C. destruct xs as [|x xs]; [constructor|]. destruct C as (P & C).
      assert (K : forall c l, chain_from c l -> NoDup l).
      { intros c l. revert c. induction l as [|y l IH]; intros c D; [constructor|]. destruct D as (Py & L & D). constructor; [|eapply IH, D].
        intros I. pose proof (chain_from_lb _ _ _ D I). pose proof (proper_lt _ Py). corder. }
      constructor; [|eapply K, C]. intros I. pose proof (chain_from_lb _ _ _ C I). pose proof (proper_lt _ P). corder. }
    assert (G : forall x, In x xs -> In x xs) by auto. revert N Z G. generalize xs at 1 2 3. intros l N Z G. induction Z as [|x z l zs [Iz Dz] Z IH]; [constructor|].
    inversion N as [|? ? N1 N2]; subst. constructor; [|apply IH; auto; intros y I; apply G; now right].
    intros I. apply N1. clear IH N N2 N1.
    assert (K : exists w, In w l /\ den z (lo w)).
    { clear - I Z. induction Z as [|w y l zs [_ D] Z IH]; [destruct I|]. destruct I as [->|I]; [exists w; split; [now left|exact D]|].
      destruct (IH I) as (v & Iv & Dv). exists v. split; [now right|exact Dv]. }
    destruct K as (w & Iw & Dw). rewrite (U x w z); auto; [apply G; now left|apply G; now right].
  - intros z I. clear - I Z. induction Z as [|x y l zs [A _] Z IH]; [destruct I|]. destruct I as [<-|I]; auto.
Qed.

Lemma shortest good a ys : (exists u, good u) -> (forall v, good v -> exists u, good u /\ v_lt v u = true) ->
  (forall v w, good v -> good w -> v_lt v w = true -> exists u, good u /\ v_lt v u = true /\ v_lt u w = true) ->
  canonical a -> Forall good_item ys -> good_set good a -> good_set good (Union ys) ->
  (forall v, good v -> (in_set a v <-> Exists (fun i => in_item i v) ys)) -> count a <= length ys.
Proof.
  intros G1 G2 G3 C F Ga Gy H. rewrite canonical_canon in C.
  assert (P : Forall proper ys) by (eapply Forall_impl; [|exact F]; intros i; apply good_item_proper).
  rewrite count_extract. apply cover_length; [now apply canon_chain|exact P|].
  assert (M : forall v, dset (Union ys) (at_version v) <-> Exists (fun i => in_item i v) ys).
  { intros v. rewrite <- contains_valid_iff by now apply forall_valid. now rewrite in_set_contains. }
  intros c. change (dset a c <-> dset (Union ys) c).
  destruct (dset_dec a c) as [Da|Da], (dset_dec (Union ys) c) as [Db|Db]; try tauto; exfalso.
  - destruct (witness_sets good G1 G2 G3 a (Union ys) c Ga Gy Da Db) as (u & Gu & U1 & U2). apply U2, M, H, (member a u C), U1. exact Gu.
  - destruct (witness_sets good G1 G2 G3 (Union ys) a c Gy Ga Db Da) as (u & Gu & U1 & U2). apply U2, (member a u C), H, M, U1. exact Gu.
Qed.

Lemma shortest_worded a ys : canonical a -> Forall good_item ys -> Forall worded (bounds a) -> Forall worded (flat_map item_bounds ys) ->
  (forall v, worded v -> (in_set a v <-> Exists (fun i => in_item i v) ys)) -> count a <= length ys.
Proof.
  intros C F Wa Wy. apply (shortest worded); auto using worded_exists, next_epoch_worded, worded_between, worded_good.
Qed.

(** ** Items and edges *)

Lemma between_finite (c d e : cut) : clt c d -> clt d e -> finite d = true.
Proof.
  intros A B. destruct d; [|reflexivity|].
  - pose proof (cneg_le c). exfalso. corder.
  - pose proof (cpos_ge e). exfalso. corder.
Qed.
Lemma edges_lo c x xs : chain_from c (x :: xs) -> finite (lo x) = true.
Proof. intros (P & L & _). exact (between_finite _ _ _ L (proper_lt _ P)). Qed.
Lemma edges_hi x y xs : proper x -> chain_from (hi x) (y :: xs) -> finite (hi x) = true.
Proof. intros P (_ & L & _). exact (between_finite _ _ _ (proper_lt _ P) L). Qed.
Lemma edge_count_item x : edge_count (Item x) = (if finite (lo x) then 1 else 0) + (if finite (hi x) then 1 else 0).
Proof. unfold edge_count, edges, ends. cbn [extract flat_map app filter]. destruct (finite (lo x)), (finite (hi x)); reflexivity. Qed.

Lemma chain_from_edges xs : forall c, chain_from c xs -> 2 * length xs <= S (length (edges xs)).
Proof.
  induction xs as [|x xs IH]; intros c C; [cbn; lia|]. rewrite edges_cons, edge_count_item, (edges_lo _ _ _ C).
  destruct C as (P & L & C). destruct xs as [|y xs]; [cbn; lia|]. rewrite (edges_hi _ _ _ P C). specialize (IH _ C). cbn [length] in *. lia.
Qed.
Lemma chain_edges xs : chain xs -> 2 * length xs <= 2 + length (edges xs).
Proof.
  destruct xs as [|x xs]; [cbn; lia|]. intros (P & C). rewrite edges_cons, edge_count_item.
  destruct xs as [|y xs]; [cbn; lia|]. rewrite (edges_hi _ _ _ P C). pose proof (chain_from_edges _ _ C). cbn [length] in *. lia.
Qed.

Lemma convert_count s a : spec_made s -> each_op plain_op s -> specifier_to_version_set s = Ok a -> count a <= S (clauses s).
Proof.
  intros M N H. pose proof (convert_edges s M N a H) as E. destruct (convert_sound s M N a H) as (C & _). rewrite canonical_canon in C.
  pose proof (chain_edges _ (canon_chain _ C)) as K. rewrite count_extract. unfold edge_count in E. lia.
Qed.
Lemma parsed_count x p a : parse_specifier x = Ok p -> specifier_to_version_set p = Ok a -> count a <= S (clauses p).
Proof. intros X. destruct (parsed_made x p X) as [M N]. now apply convert_count. Qed.
Lemma parsed_clauses x p u : parse_specifier x = Ok p -> simplify p = Ok u -> clauses u <= 2 * clauses p.
Proof. intros X. destruct (parsed_made x p X) as [M N]. now apply simplify_clauses. Qed.
