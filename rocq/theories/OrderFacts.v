(** The comparison of versions against the specification of [Spec.v]. *)

From Coq Require Import List ZArith NArith String Bool Lia.
From Verif Require Import Py Segments Version Orders Patterns VersionSets Spec.
Import ListNotations.
Open Scope Z_scope.

(** ** Dictionary order *)

Lemma lex_before {A} (c : A -> A -> comparison) (L : lawful c) l m :
  lex c l m = Lt <-> dict_before (fun a b => c a b = Lt) l m.
Proof.
  split.
  - revert m. induction l as [|a l IH]; intros [|b m]; cbn; try congruence.
    + intros _. left. exists b, m. reflexivity.
    + destruct (c a b) eqn:E; try congruence.
      * apply (cmp_eq L) in E as ->. intros H. destruct (IH m H) as [(x & m' & ->)|(p & x & y & l' & m' & -> & -> & H')].
        -- left. exists x, m'. reflexivity.
        -- right. exists (b :: p), x, y, l', m'. auto.
      * intros _. right. exists [], a, b, l, m. auto.
  - intros [(b & m' & ->)|(p & a & b & l' & m' & -> & -> & H)].
    + induction l as [|a l IH]; cbn; auto. now rewrite (cmp_refl L).
    + induction p as [|x p IH]; cbn; [now rewrite H|]. now rewrite (cmp_refl L).
Qed.

Lemma dict_before_iff {A} (P Q : A -> A -> Prop) l m :
  (forall a b, P a b <-> Q a b) -> dict_before P l m <-> dict_before Q l m.
Proof.
  intros H. unfold dict_before. split; (intros [X|(p & a & b & l' & m' & E1 & E2 & X)]; [now left|right]);
    exists p, a, b, l', m'; repeat split; auto; now apply H.
Qed.

Lemma str_before s t : str_cmp s t = Lt <-> dict_before N.lt s t.
Proof.
  unfold str_cmp. rewrite (lex_before _ lawful_N). apply dict_before_iff. intros. apply N.compare_lt_iff.
Qed.

(** ** Releases *)

Lemma leading_zeros xs :
  exists k ys, count_leading_zeros xs = Z.of_nat k /\ xs = repeat 0 k ++ ys /\ hd 1 ys <> 0.
Proof.
  induction xs as [|x xs IH].
  - exists O, []. cbn. repeat split; lia.
  - cbn [count_leading_zeros]. destruct (x =? 0) eqn:E.
    + destruct IH as (k & ys & E1 & E2 & H). exists (S k), ys. apply Z.eqb_eq in E as ->.
      rewrite E1, E2. repeat split; auto. lia.
    + exists O, (x :: xs). cbn. repeat split. lia.
Qed.

Lemma rev_repeat {A} (a : A) n : rev (repeat a n) = repeat a n.
Proof.
  induction n as [|n IH]; cbn; auto. rewrite IH. clear IH. induction n as [|n IH]; cbn; auto. now rewrite IH.
Qed.

(** A stripped release. *)
Definition stripped (r : list Z) : Prop :=
  match r with [] => False | [_] => True | _ => last r 0 <> 0 end.

Lemma last_rev {A} (xs : list A) d : last (rev xs) d = hd d xs.
Proof. destruct xs as [|x xs]; cbn; auto. apply last_last. Qed.

Lemma stripped_last xs : xs <> [] -> last xs 0 <> 0 -> stripped xs.
Proof. destruct xs as [|x [|y xs]]; cbn; auto. Qed.

Lemma stripped_inv xs : stripped xs -> (2 <= List.length xs)%nat -> last xs 0 <> 0.
Proof. destruct xs as [|x [|y xs]]; cbn [stripped List.length]; auto; lia. Qed.
Lemma last_app_cons {A} (xs : list A) y ys d : last (xs ++ y :: ys) d = last (y :: ys) d.
Proof.
  induction xs as [|x xs IH]; auto. rewrite <- IH. cbn [app].
  destruct (xs ++ y :: ys) eqn:E; [destruct xs; discriminate|reflexivity].
Qed.

Lemma strip_spec r :
  r <> [] -> exists k, r = rel_compare_parts r ++ repeat 0 k /\ stripped (rel_compare_parts r).
Proof.
  intros N. unfold rel_compare_parts, rel_precision, rel_slice_parts, py_upto, norm_index, len.
  destruct (leading_zeros (rev r)) as (k & ys & E1 & E2 & H). rewrite E1.
  assert (ER : r = rev ys ++ repeat 0 k).
  { rewrite <- (rev_involutive r), E2, rev_app_distr, rev_repeat. reflexivity. }
  assert (EL : List.length r = (List.length ys + k)%nat).
  { rewrite ER, app_length, rev_length, repeat_length. reflexivity. }
  destruct (Z.of_nat k =? Z.of_nat (List.length r)) eqn:EQ.
  - apply Z.eqb_eq in EQ. assert (ys = []) by (destruct ys; auto; cbn in EL; lia). subst ys. cbn in ER.
    destruct (Z.of_nat k - 1 =? 0) eqn:E3.
    + assert (k = 1%nat) by lia. subst k. exists O. rewrite app_nil_r, ER. cbn. auto.
    + assert (k <> O) by (intros ->; destruct r; cbn in *; [congruence|lia]).
      destruct (- (Z.of_nat k - 1) <? 0) eqn:E4; [|lia].
      replace (Z.to_nat (- (Z.of_nat k - 1) + Z.of_nat (List.length r))) with 1%nat by lia.
      destruct k as [|k]; [lia|]. exists k. rewrite ER. cbn. auto.
  - destruct (Z.of_nat k =? 0) eqn:E3.
    + assert (k = 0%nat) by lia. subst k. exists O. rewrite app_nil_r. split; auto.
      cbn in ER. rewrite app_nil_r in ER. apply stripped_last; auto. rewrite ER, last_rev.
      destruct ys as [|y ys]; [cbn in ER; congruence|]. exact H.
    + destruct (- Z.of_nat k <? 0) eqn:E4; [|lia].
      replace (Z.to_nat (- Z.of_nat k + Z.of_nat (List.length r))) with (List.length (rev ys))
        by (rewrite rev_length; lia).
      assert (ys <> []) by (intros ->; cbn in EL; lia).
      assert (EF : firstn (List.length (rev ys)) r = rev ys).
      { rewrite ER, firstn_app, firstn_all, Nat.sub_diag, firstn_O, app_nil_r. reflexivity. }
      rewrite EF. exists k. split; auto. apply stripped_last.
      * intros X. apply (f_equal (@rev _)) in X. rewrite rev_involutive in X. auto.
      * rewrite last_rev. destruct ys as [|y ys]; [congruence|]. exact H.
Qed.

Lemma nth_last {A} (xs : list A) d : nth (List.length xs - 1) xs d = last xs d.
Proof.
  induction xs as [|x xs IH]; auto. destruct xs as [|y xs]; auto.
  change (last (x :: y :: xs) d) with (last (y :: xs) d). rewrite <- IH. cbn [List.length].
  replace (S (S (List.length xs)) - 1)%nat with (S (S (List.length xs) - 1))%nat by lia. reflexivity.
Qed.

Lemma stripped_unique a b : stripped a -> stripped b -> rel_same a b -> a = b.
Proof.
  assert (K : forall a b, stripped b -> rel_same a b -> stripped a -> ~ (List.length a < List.length b)%nat).
  { intros c d Sd E Sc L. assert (List.length c <> 0%nat) by (destruct c; [destruct Sc|cbn; lia]).
    assert (N : last d 0 <> 0) by (apply stripped_inv; auto; lia). apply N.
    rewrite <- nth_last. transitivity (part c (List.length d - 1)); [symmetry; apply E|].
    apply nth_overflow. lia. }
  intros Sa Sb E. apply nth_ext with (d := 0) (d' := 0); [|intros n _; apply E].
  pose proof (K a b Sb E Sa). pose proof (K b a Sa (fun n => eq_sym (E n)) Sb). lia.
Qed.

Lemma part_zeros r k n : part (r ++ repeat 0 k) n = part r n.
Proof.
  unfold part. destruct (Nat.lt_ge_cases n (List.length r)).
  - now rewrite app_nth1.
  - rewrite app_nth2 by lia. rewrite (nth_overflow r) by lia.
    generalize (n - List.length r)%nat. clear. induction k as [|k IH]; intros [|n]; cbn; auto.
Qed.

Lemma strip_same r : r <> [] -> rel_same r (rel_compare_parts r).
Proof.
  intros N n. destruct (strip_spec r N) as (k & E & _). rewrite E at 1. apply part_zeros.
Qed.

Lemma rel_same_sym r s : rel_same r s -> rel_same s r.
Proof. intros H n. now rewrite H. Qed.
Lemma rel_same_trans r s t : rel_same r s -> rel_same s t -> rel_same r t.
Proof. intros H1 H2 n. now rewrite H1. Qed.
Lemma rel_before_same r r' s s' :
  rel_same r r' -> rel_same s s' -> rel_before r s -> rel_before r' s'.
Proof.
  intros H1 H2 (n & E & L). exists n. split; [intros m Hm|]; rewrite <- H1, <- H2; auto.
Qed.

Lemma nonneg_strip r : Forall (fun x => 0 <= x) r -> Forall (fun x => 0 <= x) (rel_compare_parts r).
Proof.
  intros F. destruct r as [|x r]; [constructor|].
  destruct (strip_spec (x :: r)) as (k & E & _); [congruence|].
  rewrite E in F. apply Forall_app in F. apply F.
Qed.

Lemma part_app p a r : part (p ++ a :: r) (List.length p) = a.
Proof. unfold part. rewrite app_nth2 by lia. now rewrite Nat.sub_diag. Qed.
Lemma part_app_lt p r n : (n < List.length p)%nat -> part (p ++ r) n = part p n.
Proof. intros. unfold part. now apply app_nth1. Qed.
Lemma part_over r n : (List.length r <= n)%nat -> part r n = 0.
Proof. apply nth_overflow. Qed.
Lemma part_nonneg r n : Forall (fun x => 0 <= x) r -> 0 <= part r n.
Proof.
  intros F. unfold part. destruct (Nat.lt_ge_cases n (List.length r)).
  - rewrite Forall_forall in F. apply F. now apply nth_In.
  - rewrite nth_overflow by lia. lia.
Qed.

Lemma first_positive xs :
  Forall (fun x => 0 <= x) xs -> last xs 0 <> 0 ->
  exists n, (forall m, (m < n)%nat -> part xs m = 0) /\ 0 < part xs n.
Proof.
  induction xs as [|x xs IH]; intros F L; [now cbn in L|].
  inversion F; subst. destruct (Z.eq_dec x 0) as [->|N].
  - destruct xs as [|y ys]; [now cbn in L|]. destruct IH as (n & E & P); auto.
    exists (S n). split; [|exact P]. intros [|m] Hm; cbn; auto. apply E. lia.
  - exists O. split; [lia|]. cbn. lia.
Qed.

Lemma lex_rel_before r s :
  stripped r -> stripped s -> Forall (fun x => 0 <= x) r -> Forall (fun x => 0 <= x) s ->
  lex Z.compare r s = Lt -> rel_before r s.
Proof.
  intros Sr Ss Fr Fs H. apply (lex_before _ lawful_Z) in H as [(b & m' & ->)|(p & a & b & l' & m' & -> & -> & H)].
  - destruct r as [|a r]; [destruct Sr|].
    assert (L : last (b :: m') 0 <> 0).
    { rewrite <- (last_app_cons (a :: r)). apply stripped_inv; auto.
      rewrite app_length. cbn. lia. }
    apply Forall_app in Fs as [_ Fs]. destruct (first_positive _ Fs L) as (n & E & P).
    exists (List.length (a :: r) + n)%nat.
    assert (T : forall k, part ((a :: r) ++ b :: m') (List.length (a :: r) + k) = part (b :: m') k).
    { intros k. unfold part. rewrite app_nth2 by lia. f_equal. lia. }
    split.
    + intros m Hm. destruct (Nat.lt_ge_cases m (List.length (a :: r))).
      * now rewrite part_app_lt.
      * rewrite part_over by lia. replace m with (List.length (a :: r) + (m - List.length (a :: r)))%nat by lia.
        rewrite T. symmetry. apply E. lia.
    + rewrite T, part_over by lia. exact P.
  - exists (List.length p). rewrite !part_app. rewrite Z.compare_lt_iff in H. split; [|exact H].
    intros m Hm. now rewrite !part_app_lt.
Qed.

Lemma rel_before_irrefl r s : rel_before r s -> ~ rel_same r s.
Proof. intros (n & _ & L) H. rewrite (H n) in L. lia. Qed.
Lemma rel_before_asym r s : rel_before r s -> ~ rel_before s r.
Proof.
  intros (n & E & L) (m & E' & L'). destruct (Nat.lt_trichotomy n m) as [H|[->|H]].
  - specialize (E' n H). lia.
  - lia.
  - specialize (E m H). lia.
Qed.

Lemma release_order r s :
  r <> [] -> s <> [] -> Forall (fun x => 0 <= x) r -> Forall (fun x => 0 <= x) s ->
  (lex Z.compare (rel_compare_parts r) (rel_compare_parts s) = Lt <-> rel_before r s)
  /\ (lex Z.compare (rel_compare_parts r) (rel_compare_parts s) = Eq <-> rel_same r s).
Proof.
  intros Nr Ns Fr Fs.
  pose proof (strip_same r Nr) as Er. pose proof (strip_same s Ns) as Es.
  destruct (strip_spec r Nr) as (_ & _ & Sr). destruct (strip_spec s Ns) as (_ & _ & Ss).
  pose proof (nonneg_strip r Fr) as Gr. pose proof (nonneg_strip s Fs) as Gs.
  set (r' := rel_compare_parts r) in *. set (s' := rel_compare_parts s) in *.
  assert (LT : lex Z.compare r' s' = Lt -> rel_before r s).
  { intros H. eapply rel_before_same; [apply rel_same_sym, Er|apply rel_same_sym, Es|].
    now apply lex_rel_before. }
  assert (GT : lex Z.compare r' s' = Gt -> rel_before s r).
  { intros H. eapply rel_before_same; [apply rel_same_sym, Es|apply rel_same_sym, Er|].
    apply lex_rel_before; auto. now apply (cmp_gt_lt (lawful_lex _ lawful_Z)). }
  assert (EQ : lex Z.compare r' s' = Eq -> rel_same r s).
  { intros H. apply (cmp_eq (lawful_lex _ lawful_Z)) in H. rewrite H in Er.
    eapply rel_same_trans; [exact Er|]. now apply rel_same_sym. }
  destruct (lex Z.compare r' s') eqn:E.
  - split; split; auto; try congruence. intros H. exfalso. eapply rel_before_irrefl; eauto.
  - split; split; auto; try congruence. intros H. exfalso. eapply rel_before_irrefl; eauto.
  - split; split; auto; try congruence; intros H; exfalso.
    + eapply rel_before_asym; [exact H|auto].
    + eapply (rel_before_irrefl s r); [auto|]. now apply rel_same_sym.
Qed.

(** ** Tags *)

Lemma valid_phase c t : valid_tag c t = true ->
  In (phase t) (match c with
    | PreTag => PHASE_ORDER | PostTag => POST_ORDER | DevTag => [lit "dev"]
    | AnyTag => PHASE_ORDER ++ POST_ORDER ++ [lit "dev"] end).
Proof.
  unfold valid_tag. rewrite andb_true_iff. intros [H1 H2]. apply str_in_In in H1.
  apply str_eqb_eq in H2. destruct t as [p x]. cbn [phase value] in *.
  destruct c; cbn in H1;
    repeat (destruct H1 as [<-|H1]; [vm_compute in H2; try discriminate H2; vm_compute; tauto|]); destruct H1.
Qed.

Lemma tag_order order t u :
  In (phase t) order -> In (phase u) order ->
  (forall p q, In p order -> In q order -> str_cmp p q = Lt <-> position p order < position q order) ->
  tag_cmp t u = Lt <-> tag_before order t u.
Proof.
  intros It Iu H. unfold tag_cmp, tag_before, then_cmp.
  destruct (str_cmp (phase t) (phase u)) eqn:E.
  - apply (cmp_eq lawful_str) in E. rewrite E, Z.compare_lt_iff. split; [auto|].
    intros [X|[_ X]]; auto. lia.
  - split; auto. intros _. left. now apply H.
  - split; [congruence|]. intros [X|[X _]].
    + apply H in X; auto. congruence.
    + rewrite X, (cmp_refl lawful_str) in E. congruence.
Qed.

Lemma pre_order t u : valid_tag PreTag t = true -> valid_tag PreTag u = true ->
  tag_cmp t u = Lt <-> tag_before PHASE_ORDER t u.
Proof.
  intros Ht Hu. apply valid_phase in Ht, Hu. apply tag_order; auto.
  intros p q Ip Iq. cbn in Ip, Iq.
  repeat (destruct Ip as [<-|Ip]; [repeat (destruct Iq as [<-|Iq]; [vm_compute; intuition congruence|]); destruct Iq|]).
  destruct Ip.
Qed.
Lemma post_order t u : valid_tag PostTag t = true -> valid_tag PostTag u = true ->
  tag_cmp t u = Lt <-> tag_before POST_ORDER t u.
Proof.
  intros Ht Hu. apply valid_phase in Ht, Hu. apply tag_order; auto.
  intros p q Ip Iq. cbn in Ip, Iq.
  repeat (destruct Ip as [<-|Ip]; [repeat (destruct Iq as [<-|Iq]; [vm_compute; intuition congruence|]); destruct Iq|]).
  destruct Ip.
Qed.
Lemma dev_order t u : valid_tag DevTag t = true -> valid_tag DevTag u = true ->
  tag_cmp t u = Lt <-> tag_before [] t u.
Proof.
  intros Ht Hu. apply valid_phase in Ht, Hu. destruct Ht as [Et|[]], Hu as [Eu|[]].
  unfold tag_cmp, tag_before. rewrite <- Et, <- Eu. cbn [then_cmp position].
  rewrite (cmp_refl lawful_str). cbn [then_cmp]. rewrite Z.compare_lt_iff. intuition lia.
Qed.

(** ** Locals *)

Lemma local_key_inj p q : local_part_key p = local_part_key q -> p = q.
Proof. destruct p, q; cbn; congruence. Qed.

Lemma local_part_order p q :
  local_part_key_cmp (local_part_key p) (local_part_key q) = Lt <-> part_before p q.
Proof.
  destruct p as [x|s], q as [y|t]; cbn; unfold local_part_key_cmp; cbn.
  - rewrite <- Z.compare_lt_iff. destruct (x ?= y); cbn; split; congruence.
  - split; [congruence|tauto].
  - split; auto.
  - apply str_before.
Qed.

Lemma map_key_inj l m : map local_part_key l = map local_part_key m -> l = m.
Proof.
  revert m. induction l as [|x l IH]; intros [|y m]; cbn; try discriminate; auto.
  intros E. injection E as E1 E2. f_equal; [now apply local_key_inj|now apply IH].
Qed.

Lemma local_order l m :
  ext_cmp (lex local_part_key_cmp) (compute_compare_local l) (compute_compare_local m) = Lt
  <-> local_before l m.
Proof.
  destruct l as [l|], m as [m|]; cbn; try (split; try congruence; tauto).
  rewrite (lex_before _ lawful_local_part_key). split.
  - intros [(b & m' & E)|(p & a & b & l' & m' & E1 & E2 & H)].
    + apply map_eq_app in E as (l1 & m1 & -> & E1 & E2). left.
      destruct m1 as [|x m1]; [discriminate|]. exists x, m1. f_equal.
      now apply map_key_inj.
    + right. apply map_eq_app in E1 as (p1 & r1 & -> & F1 & F2). apply map_eq_app in E2 as (p2 & r2 & -> & G1 & G2).
      destruct r1 as [|x r1]; [discriminate|]. destruct r2 as [|y r2]; [discriminate|].
      exists p1, x, y, r1, r2. split; [reflexivity|]. split.
      * f_equal. apply map_key_inj. congruence.
      * apply local_part_order. cbn in F2, G2. congruence.
  - intros [(b & m' & ->)|(p & a & b & l' & m' & -> & -> & H)].
    + left. rewrite map_app. cbn. eauto.
    + right. rewrite !map_app. cbn. do 5 eexists. split; [reflexivity|]. split; [reflexivity|].
      now apply local_part_order.
Qed.

Lemma compute_local_inj l m : compute_compare_local l = compute_compare_local m -> l = m.
Proof.
  destruct l as [l|], m as [m|]; cbn; try congruence. intros [= E]. f_equal. now apply map_key_inj.
Qed.

(** ** Versions *)

Definition ordinary (v : version) : Prop := valid_version v = true /\ nonneg_release v.

Lemma valid_parts v : valid_version v = true ->
  v_release v <> [] /\ valid_otag PreTag (v_pre v) = true /\ valid_otag PostTag (v_post v) = true
  /\ valid_otag DevTag (v_dev v) = true /\ v_local v <> Some [].
Proof.
  unfold valid_version. rewrite !andb_true_iff. intros ((((H1 & H2) & H3) & H4) & H5).
  repeat split; auto; [destruct (v_release v); congruence|destruct (v_local v) as [[|]|]; congruence].
Qed.

Lemma key_fields v w : key v = key w <->
  v_epoch v = v_epoch w /\ rel_compare_parts (v_release v) = rel_compare_parts (v_release w)
  /\ v_pre v = v_pre w /\ v_post v = v_post w /\ v_dev v = v_dev w /\ v_local v = v_local w.
Proof.
  destruct v as [e r p q d l], w as [e' r' p' q' d' l']. unfold key, compute_compare_tags. cbn. split.
  - intros [= E1 E2 E3 E4 E5 E6]. apply compute_local_inj in E6.
    destruct p, p', q, q', d, d'; try discriminate; repeat split; congruence.
  - intros (-> & -> & -> & -> & -> & ->). reflexivity.
Qed.

Lemma compare_parts_same r s : r <> [] -> s <> [] ->
  rel_compare_parts r = rel_compare_parts s <-> rel_same r s.
Proof.
  intros Nr Ns. destruct (strip_spec r Nr) as (_ & _ & Sr). destruct (strip_spec s Ns) as (_ & _ & Ss).
  pose proof (strip_same r Nr) as Er. pose proof (strip_same s Ns) as Es. split; intros H.
  - rewrite H in Er. eapply rel_same_trans; [exact Er|]. now apply rel_same_sym.
  - apply stripped_unique; auto. eapply rel_same_trans; [apply rel_same_sym, Er|].
    eapply rel_same_trans; [exact H|exact Es].
Qed.

Lemma eq_same v w : valid_version v = true -> valid_version w = true -> v_eq v w = true <-> same v w.
Proof.
  intros Vv Vw. rewrite v_eq_key, key_fields. unfold same.
  destruct (valid_parts _ Vv) as (Rv & _). destruct (valid_parts _ Vw) as (Rw & _).
  now rewrite compare_parts_same.
Qed.

(** One step of the lexicographic comparison. *)
Lemma then_lt c d : then_cmp c d = Lt <-> c = Lt \/ c = Eq /\ d = Lt.
Proof. destruct c, d; cbn; intuition congruence. Qed.

Lemma lt_before v w : ordinary v -> ordinary w -> v_lt v w = true <-> before v w.
Proof.
  intros [Vv Nv] [Vw Nw].
  destruct (valid_parts _ Vv) as (Rv & Pv & Qv & Dv & _). destruct (valid_parts _ Vw) as (Rw & Pw & Qw & Dw & _).
  destruct (release_order _ _ Rv Rw Nv Nw) as [HL HE].
  unfold v_lt, is_lt, v_cmp. transitivity (key_cmp (key v) (key w) = Lt).
  { destruct (key_cmp (key v) (key w)); split; congruence. }
  unfold key_cmp. rewrite !then_lt.
  change (k_epoch (key v)) with (v_epoch v). change (k_epoch (key w)) with (v_epoch w).
  change (k_release (key v)) with (rel_compare_parts (v_release v)).
  change (k_release (key w)) with (rel_compare_parts (v_release w)).
  change (k_local (key v)) with (compute_compare_local (v_local v)).
  change (k_local (key w)) with (compute_compare_local (v_local w)).
  rewrite HL, HE, local_order, Z.compare_lt_iff, Z.compare_eq_iff.
  assert (EQ : forall t u, tag_cmp t u = Eq <-> Some t = Some u).
  { intros t u. rewrite (law_eq lawful_tag). split; congruence. }
  assert (P1 : ext_cmp tag_cmp (k_pre (key v)) (k_pre (key w)) = Lt <->
    stage v < stage w \/ stage v = stage w /\ none_first (tag_before PHASE_ORDER) (v_pre v) (v_pre w)).
  { unfold key, compute_compare_tags, stage. cbn [k_pre].
    destruct (v_pre v) as [p|], (v_pre w) as [p'|].
    { cbn [ext_cmp none_first valid_otag] in *. rewrite (pre_order p p' Pv Pw). clear. intuition lia. }
    all: destruct (v_post v), (v_post w), (v_dev v), (v_dev w); cbn [ext_cmp none_first]; clear; intuition (congruence || lia). }
  assert (P2 : ext_cmp tag_cmp (k_pre (key v)) (k_pre (key w)) = Eq <->
    stage v = stage w /\ v_pre v = v_pre w).
  { unfold key, compute_compare_tags, stage. cbn [k_pre].
    destruct (v_pre v) as [p|], (v_pre w) as [p'|].
    { cbn [ext_cmp]. rewrite EQ. clear. intuition congruence. }
    all: destruct (v_post v), (v_post w), (v_dev v), (v_dev w); cbn [ext_cmp]; clear; intuition (congruence || lia). }
  assert (Q1 : ext_cmp tag_cmp (k_post (key v)) (k_post (key w)) = Lt <->
    none_first (tag_before POST_ORDER) (v_post v) (v_post w)).
  { unfold key, compute_compare_tags. cbn [k_post]. destruct (v_post v) as [p|], (v_post w) as [p'|];
      cbn [ext_cmp none_first valid_otag] in *; try (clear; intuition congruence). now apply post_order. }
  assert (Q2 : ext_cmp tag_cmp (k_post (key v)) (k_post (key w)) = Eq <-> v_post v = v_post w).
  { unfold key, compute_compare_tags. cbn [k_post]. destruct (v_post v) as [p|], (v_post w) as [p'|];
      cbn [ext_cmp]; try (clear; intuition congruence). apply EQ. }
  assert (D1 : ext_cmp tag_cmp (k_dev (key v)) (k_dev (key w)) = Lt <->
    none_last (tag_before []) (v_dev v) (v_dev w)).
  { unfold key, compute_compare_tags. cbn [k_dev]. destruct (v_dev v) as [p|], (v_dev w) as [p'|];
      cbn [ext_cmp none_last valid_otag] in *; try (clear; intuition congruence). now apply dev_order. }
  assert (D2 : ext_cmp tag_cmp (k_dev (key v)) (k_dev (key w)) = Eq <-> v_dev v = v_dev w).
  { unfold key, compute_compare_tags. cbn [k_dev]. destruct (v_dev v) as [p|], (v_dev w) as [p'|];
      cbn [ext_cmp]; try (clear; intuition congruence). apply EQ. }
  rewrite P1, P2, Q1, Q2, D1, D2. unfold before. clear. tauto.
Qed.

(** ** Phases of one release *)

Lemma key_cmp_tags e r r' pre post dev l pre' post' dev' l' :
  r <> [] -> r' <> [] -> rel_same r r' ->
  v_cmp (Version e r pre post dev l) (Version e r' pre' post' dev' l') =
  then_cmp (ext_cmp tag_cmp (fst (fst (compute_compare_tags pre post dev))) (fst (fst (compute_compare_tags pre' post' dev'))))
  (then_cmp (ext_cmp tag_cmp (snd (fst (compute_compare_tags pre post dev))) (snd (fst (compute_compare_tags pre' post' dev'))))
  (then_cmp (ext_cmp tag_cmp (snd (compute_compare_tags pre post dev)) (snd (compute_compare_tags pre' post' dev')))
   (ext_cmp (lex local_part_key_cmp) (compute_compare_local l) (compute_compare_local l')))).
Proof.
  intros N N' S. unfold v_cmp, key_cmp, key. cbn [v_epoch v_release v_pre v_post v_dev v_local].
  destruct (compute_compare_tags pre post dev) as [[a b] c], (compute_compare_tags pre' post' dev') as [[a' b'] c'].
  cbn [k_epoch k_release k_pre k_post k_dev k_local fst snd].
  apply (compare_parts_same r r' N N') in S. rewrite S.
  now rewrite Z.compare_refl, (cmp_refl (lawful_lex _ lawful_Z)).
Qed.

Lemma phase_order e r r' : r <> [] -> r' <> [] -> rel_same r r' ->
  let V := Version e r in let W := Version e r' in
  (forall d l p q d' l', v_lt (V None None (Some d) l) (W (Some p) q d' l') = true)
  /\ (forall p q d l q' d' l', (q' = None -> d' = None) -> v_lt (V (Some p) q d l) (W None q' d' l') = true)
  /\ (forall l q d l', v_lt (V None None None l) (W None (Some q) d l') = true)
  /\ (forall p q d l p' q' d' l', valid_tag PreTag p = true -> valid_tag PreTag p' = true ->
        tag_before PHASE_ORDER p p' -> v_lt (V (Some p) q d l) (W (Some p') q' d' l') = true)
  /\ (forall p d l q d' l', v_lt (V p None d l) (W p (Some q) d' l') = true)
  /\ (forall p q q' d l d' l', valid_tag PostTag q = true -> valid_tag PostTag q' = true ->
        tag_before POST_ORDER q q' -> v_lt (V p (Some q) d l) (W p (Some q') d' l') = true)
  /\ (forall p q d l l', v_lt (V p q (Some d) l) (W p q None l') = true)
  /\ (forall p q d d' l l', valid_tag DevTag d = true -> valid_tag DevTag d' = true ->
        value d < value d' -> v_lt (V p q (Some d) l) (W p q (Some d') l') = true)
  /\ (forall p q d l, v_lt (V p q d None) (W p q d (Some l)) = true).
Proof.
  intros N N' S V W. unfold v_lt, V, W.
  assert (R : forall t, tag_cmp t t = Eq) by apply (cmp_refl lawful_tag).
  repeat split; intros; rewrite (key_cmp_tags _ _ _ _ _ _ _ _ _ _ _ N N' S).
  - reflexivity.
  - destruct q', d'; try reflexivity. specialize (H eq_refl). discriminate.
  - destruct d; reflexivity.
  - cbn. apply pre_order in H1; auto. now rewrite H1.
  - destruct p as [p|], d, d'; cbn; rewrite ?R; reflexivity.
  - apply post_order in H1; auto. destruct p as [p|], d, d'; cbn; rewrite ?R; cbn; now rewrite H1.
  - destruct p as [p|], q as [q|]; cbn; rewrite ?R; cbn; rewrite ?R; reflexivity.
  - assert (E : tag_cmp d d' = Lt).
    { apply dev_order; auto. right. split; auto. apply valid_phase in H, H0. destruct H as [<-|[]], H0 as [<-|[]]. reflexivity. }
    destruct p as [p|], q as [q|]; cbn; rewrite ?R; cbn; rewrite ?R; cbn; now rewrite E.
  - destruct p as [p|], q as [q|], d as [d|]; cbn; rewrite ?R; cbn; rewrite ?R; cbn; rewrite ?R; reflexivity.
Qed.

(** A version with a local segment is below everything above its public part. *)
Lemma local_adjacent v l w :
  v_local v = None -> v_lt v w = true -> v_eq v (without_local w) = false ->
  v_lt (set_local v (Some l)) w = true.
Proof.
  intros E L N. unfold v_lt, v_cmp, v_eq in *.
  set (kv := key v) in *. set (kw := key w) in *.
  assert (K : key_cmp (key (set_local v (Some l))) kw = Lt \/ key (without_local w) = kv).
  2:{ destruct K as [K|K]; [now rewrite K|]. unfold v_cmp in N. fold kv in N. rewrite K, (cmp_refl lawful_key) in N. discriminate. }
  clear N. destruct (key_cmp kv kw) eqn:C; try discriminate. clear L.
  destruct v as [e r p q d lv], w as [e' r' p' q' d' l']. cbn in E. subst lv.
  unfold kv, kw, key, key_cmp, set_local, without_local in *. cbn -[compute_compare_tags] in *.
  destruct (compute_compare_tags p q d) as [[a b] c], (compute_compare_tags p' q' d') as [[a' b'] c'].
  cbn in *.
  destruct (e ?= e') eqn:E1; cbn in *; try discriminate; auto. apply Z.compare_eq in E1.
  destruct (lex Z.compare (rel_compare_parts r) (rel_compare_parts r')) eqn:E2; cbn in *; try discriminate; auto.
  apply (cmp_eq (lawful_lex _ lawful_Z)) in E2.
  destruct (ext_cmp tag_cmp a a') eqn:E3; cbn in *; try discriminate; auto.
  apply (cmp_eq (lawful_ext _ lawful_tag)) in E3.
  destruct (ext_cmp tag_cmp b b') eqn:E4; cbn in *; try discriminate; auto.
  apply (cmp_eq (lawful_ext _ lawful_tag)) in E4.
  destruct (ext_cmp tag_cmp c c') eqn:E5; cbn in *; try discriminate; auto.
  apply (cmp_eq (lawful_ext _ lawful_tag)) in E5. right. congruence.
Qed.

(** ** Padding *)

Lemma fix_to_length_spec n r : len r < n ->
  fix_to_length n 0 r = r ++ repeat 0 (Z.to_nat n - List.length r).
Proof.
  intros H. unfold fix_to_length, len in *.
  rewrite firstn_app, firstn_all2 by lia. f_equal.
  assert (G : forall m k, (m <= k)%nat -> firstn m (repeat 0 k) = repeat 0 m).
  { induction m as [|m IH]; intros [|k] Hk; cbn; auto; [lia|]. rewrite IH; auto. lia. }
  apply G. lia.
Qed.

Lemma pad_release r n : r <> [] ->
  exists k, rel_pad_to r n 0 = Ok (r ++ repeat 0 k) /\ Z.of_nat (List.length (r ++ repeat 0 k)) = Z.max (len r) n.
Proof.
  intros N. unfold rel_pad_to, rel_precision. destruct (len r <? n) eqn:E.
  - apply Z.ltb_lt in E. rewrite fix_to_length_spec by lia.
    exists (Z.to_nat n - List.length r)%nat. split.
    + unfold release_new. destruct r; [congruence|reflexivity].
    + rewrite app_length, repeat_length. unfold len in *. lia.
  - exists 0%nat. cbn. rewrite app_nil_r. unfold len in *. split; auto. lia.
Qed.

Lemma pad_key v k : v_release v <> [] ->
  key (set_release v (v_release v ++ repeat 0 k)) = key v.
Proof.
  intros N. apply key_fields. cbn. repeat split; auto. apply compare_parts_same; auto.
  - destruct (v_release v); [congruence|discriminate].
  - intros n. apply part_zeros.
Qed.

Lemma pad_to_same v n : valid_version v = true ->
  exists w, pad_to v n 0 = Ok w /\ Z.of_nat (List.length (v_release w)) = Z.max (len (v_release v)) n
    /\ v_eq w v = true /\ forall u, v_cmp w u = v_cmp v u /\ v_cmp u w = v_cmp u v.
Proof.
  intros V. destruct (valid_parts _ V) as (N & _).
  destruct (pad_release _ n N) as (k & E & L). unfold pad_to. rewrite E. cbn.
  eexists. split; [reflexivity|]. split; [exact L|].
  unfold v_eq, v_cmp. rewrite (pad_key v k N). rewrite (cmp_refl lawful_key). auto.
Qed.

Lemma pad_to_next_same v : valid_version v = true ->
  exists w, pad_to_next v 0 = Ok w /\ Z.of_nat (List.length (v_release w)) = len (v_release v) + 1
    /\ v_eq w v = true /\ forall u, v_cmp w u = v_cmp v u /\ v_cmp u w = v_cmp u v.
Proof.
  intros V. destruct (pad_to_same v (len (v_release v) + 1) V) as (w & E & L & R).
  exists w. split; [exact E|]. split; [|exact R]. rewrite L. lia.
Qed.

Lemma local_compare v l m : v_lt (set_local v l) (set_local v m) = true <-> local_before l m.
Proof.
  rewrite <- local_order. unfold v_lt, v_cmp, key_cmp, set_local, key.
  cbn [v_epoch v_release v_pre v_post v_dev v_local].
  destruct (compute_compare_tags (v_pre v) (v_post v) (v_dev v)) as [[a b] c].
  cbn [k_epoch k_release k_pre k_post k_dev k_local].
  rewrite Z.compare_refl, (cmp_refl (lawful_lex _ lawful_Z)), !(cmp_refl (lawful_ext _ lawful_tag)).
  cbn [then_cmp]. destruct (ext_cmp _ _ _); cbn; split; congruence.
Qed.

Lemma total_order :
  (forall v w, (v_lt v w = true /\ v_eq v w = false /\ v_gt v w = false)
            \/ (v_lt v w = false /\ v_eq v w = true /\ v_gt v w = false)
            \/ (v_lt v w = false /\ v_eq v w = false /\ v_gt v w = true))
  /\ (forall v w, v_le v w = v_lt v w || v_eq v w)
  /\ (forall v w, v_ge v w = v_gt v w || v_eq v w)
  /\ (forall v w, v_ne v w = negb (v_eq v w))
  /\ (forall v w, v_gt v w = v_lt w v)
  /\ (forall v, v_lt v v = false)
  /\ (forall u v w, v_lt u v = true -> v_lt v w = true -> v_lt u w = true)
  /\ (forall v, v_eq v v = true)
  /\ (forall v w, v_eq v w = v_eq w v)
  /\ (forall u v w, v_eq u v = true -> v_eq v w = true -> v_eq u w = true)
  /\ (forall u v w, v_eq u v = true -> v_lt u w = v_lt v w /\ v_lt w u = v_lt w v).
Proof.
  assert (A : forall v w, v_cmp w v = CompOpp (v_cmp v w)) by (intros; apply (law_anti lawful_key)).
  repeat apply conj.
  - intros v w. unfold v_lt, v_eq, v_gt. destruct (v_cmp v w); cbn; auto.
  - intros v w. unfold v_le, v_lt, v_eq. destruct (v_cmp v w); auto.
  - intros v w. unfold v_ge, v_gt, v_eq. destruct (v_cmp v w); auto.
  - intros v w. reflexivity.
  - intros v w. unfold v_gt, v_lt. rewrite A. destruct (v_cmp w v); auto.
  - intros v. unfold v_lt. now rewrite v_cmp_refl.
  - intros u v w. unfold v_lt, v_cmp. destruct (key_cmp (key u) (key v)) eqn:E1; try discriminate.
    destruct (key_cmp (key v) (key w)) eqn:E2; try discriminate.
    now rewrite (law_trans lawful_key _ _ _ E1 E2).
  - intros v. unfold v_eq. now rewrite v_cmp_refl.
  - intros v w. unfold v_eq. rewrite A. destruct (v_cmp w v); auto.
  - intros u v w. rewrite !v_eq_key. congruence.
  - intros u v w H. apply v_eq_key in H. unfold v_lt, v_cmp. now rewrite H.
Qed.

Lemma negative_parts :
  exists v w, valid_version v = true /\ valid_version w = true /\ before w v /\ v_lt v w = true.
Proof.
  exists (Version 0 [1] None None None None), (Version 0 [1; -1] None None None None).
  split; [reflexivity|]. split; [reflexivity|]. split; [|reflexivity].
  right. split; auto. left. exists 1%nat. split; [|reflexivity].
  intros [|[|m]] H; try reflexivity; lia.
Qed.
