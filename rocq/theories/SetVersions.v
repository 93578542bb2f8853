(** Version sets in terms of versions. *)

From Coq Require Import List ZArith NArith String Bool Lia Permutation.
From Verif Require Import Py Segments Version Regex Patterns VersionSets Orders Cuts SetItems SetChains SetMerge SetOps Spec OrderFacts Density.
Import ListNotations.
Open Scope Z_scope.

Local Opaque key.

(** ** Comparisons and cuts *)

Lemma lt_cut v w b c : v_lt v w = true -> clt (Fin (key v, b)) (Fin (key w, c)).
Proof. intros H. apply v_lt_key in H. now apply key_lt_cut. Qed.

Lemma eq_key v w : v_eq v w = true <-> key v = key w.
Proof. apply v_eq_key. Qed.

Lemma key_trichotomy v w : v_lt v w = true \/ key v = key w \/ v_lt w v = true.
Proof.
  destruct total_order as (T & _ & _ & _ & G & _). destruct (T v w) as [(H & _)|[(_ & H & _)|(_ & _ & H)]].
  - auto.
  - right. left. now apply eq_key.
  - right. right. rewrite <- G. exact H.
Qed.

Lemma cut_lt_iff v b w c :
  clt (Fin (key v, b)) (Fin (key w, c)) <-> v_lt v w = true \/ v_eq v w = true /\ b = false /\ c = true.
Proof.
  split.
  - intros H. destruct (key_trichotomy v w) as [L|[E|G]]; auto.
    + right. rewrite eq_key. split; auto. rewrite E in H. destruct b, c; auto; exfalso;
        try (eapply clt_irrefl; exact H).
      apply (clt_irrefl (Fin (key w, true))). eapply clt_trans; [exact H|]. apply cut_step, cle_refl.
    + exfalso. apply (clt_irrefl (Fin (key v, b))). eapply clt_trans; [exact H|]. now apply lt_cut.
  - intros [L|(E & -> & ->)]; [now apply lt_cut|]. apply eq_key in E. rewrite E. apply cut_step, cle_refl.
Qed.

Lemma cut_le_iff v b w c :
  cle (Fin (key v, b)) (Fin (key w, c)) <-> v_lt v w = true \/ v_eq v w = true /\ (b = false \/ c = true).
Proof.
  rewrite <- not_clt, cut_lt_iff. destruct total_order as (T & _ & _ & _ & G & _ & _ & _ & S & _).
  rewrite (S w v). pose proof (G v w) as GT.
  destruct (T v w) as [(H1 & H2 & H3)|[(H1 & H2 & H3)|(H1 & H2 & H3)]]; rewrite <- GT, H1, H2, H3;
    destruct b, c; intuition discriminate.
Qed.

(** ** Membership *)

Lemma v_le_iff v w : v_le v w = true <-> v_lt v w = true \/ v_eq v w = true.
Proof. destruct total_order as (_ & H & _). rewrite H. apply orb_true_iff. Qed.

Lemma in_item_contains i v : item_contains i v = true <-> in_item i v.
Proof.
  destruct i as [w|min max imin imax]; cbn [in_item]; [reflexivity|].
  unfold item_contains, above_min, below_max, v_le, v_lt, comparable_min, comparable_max, i_exclude_min,
    i_exclude_max, lower_bound, upper_bound, b_cmp. cbn [i_min i_max i_include_min i_include_max].
  assert (A : forall a b, v_cmp b a = CompOpp (v_cmp a b)) by (intros; apply (law_anti lawful_key)).
  destruct min as [m|], max as [M|]; cbn [ext_cmp]; try rewrite (A v m);
    try destruct (v_cmp v m); try destruct (v_cmp v M); destruct imin, imax; cbn; intuition discriminate.
Qed.

Lemma in_set_contains a v : contains a v = true <-> in_set a v.
Proof.
  destruct a as [|i|items]; cbn [contains in_set].
  - intuition discriminate.
  - apply in_item_contains.
  - rewrite existsb_exists, Exists_exists. split; intros (x & I & H); exists x; split; auto; now apply in_item_contains.
Qed.

Lemma range_new_cases min max imin imax :
  (range_new min max imin imax = Err ValueError <->
     (min = None /\ imin = true) \/ (max = None /\ imax = true)
     \/ exists m M, min = Some m /\ max = Some M /\ v_lt M m = true)
  /\ (range_new min max imin imax <> Err ValueError ->
      range_new min max imin imax = Ok (Range min max imin imax)).
Proof.
  unfold range_new, b_cmp, lower_bound, upper_bound, v_lt.
  assert (A : forall a b, v_cmp b a = CompOpp (v_cmp a b)) by (intros; apply (law_anti lawful_key)).
  destruct min as [m|], max as [M|]; cbn [ext_cmp is_gt].
  - destruct (v_cmp m M) eqn:E; cbn [is_gt]; (split; [split; [try discriminate|]|try congruence; auto]).
    + intros [[? ?]|[[? ?]|(a & b & [= <-] & [= <-] & H)]]; try discriminate. rewrite (A m M), E in H. discriminate.
    + intros [[? ?]|[[? ?]|(a & b & [= <-] & [= <-] & H)]]; try discriminate. rewrite (A m M), E in H. discriminate.
    + intros _. right. right. exists m, M. rewrite (A m M), E. auto.
    + auto.
  - destruct imax; split; try split; intros; auto; try discriminate; try congruence.
    destruct H as [[? ?]|[[? ?]|(a & b & ? & ? & H)]]; discriminate.
  - destruct imin; split; try split; intros; auto; try discriminate; try congruence.
    destruct H as [[? ?]|[[? ?]|(a & b & ? & ? & H)]]; discriminate.
  - destruct imin, imax; split; try split; intros; auto; try discriminate; try congruence.
    destruct H as [[? ?]|[[? ?]|(a & b & ? & ? & H)]]; discriminate.
Qed.

(** ** Canonical sets *)

Lemma good_item_proper i : good_item i <-> proper i.
Proof.
  destruct i as [v|min max imin imax]; cbn [good_item proper]; [tauto|].
  unfold b_cmp, lower_bound, upper_bound, v_lt. destruct min as [m|], max as [M|]; cbn [ext_cmp]; try tauto.
  destruct (v_cmp m M); cbn [is_lt]; intuition discriminate.
Qed.

Lemma separated_cut x y : separated x y <-> clt (hi x) (lo y) /\ i_max x <> None /\ i_min y <> None.
Proof.
  unfold separated, hi, lo, i_exclude_min. destruct (i_max x) as [M|], (i_min y) as [m|]; cbn; try tauto; [|intuition discriminate..].
  rewrite cut_lt_iff. rewrite negb_true_iff. intuition discriminate.
Qed.

Lemma good_items_cons x y xs : good_items (x :: y :: xs) <-> good_item x /\ separated x y /\ good_items (y :: xs).
Proof. reflexivity. Qed.
Lemma chain_cons2 x y xs : chain (x :: y :: xs) <-> proper x /\ clt (hi x) (lo y) /\ chain (y :: xs).
Proof. cbn. tauto. Qed.

Lemma good_items_chain xs : good_items xs <-> chain xs.
Proof.
  induction xs as [|x xs IH]; [cbn; tauto|]. destruct xs as [|y xs].
  - cbn. rewrite good_item_proper. tauto.
  - rewrite good_items_cons, chain_cons2, good_item_proper, separated_cut, IH. split; [tauto|].
    intros (P & L & C). split; auto. split; [|exact C]. split; auto. split; intros E.
    + unfold hi in L. rewrite E in L. destruct (lo y); discriminate.
    + unfold lo in L. rewrite E in L. destruct (hi x) as [|[]|]; discriminate.
Qed.

Lemma canonical_canon a : canonical a <-> canon a.
Proof.
  destruct a as [|i|items]; cbn [canonical canon].
  - tauto.
  - apply good_item_proper.
  - now rewrite good_items_chain.
Qed.

(** ** The two kinds of versions that tell sets apart *)

Definition any_version : version := Version 0 [0] None None None None.

Lemma release_up r : r <> [] -> r ++ [1] <> [].
Proof. destruct r; discriminate. Qed.

Lemma epoch_lt v w : v_epoch v < v_epoch w -> v_lt v w = true.
Proof.
  intros H. apply v_lt_key. unfold key_cmp. Local Transparent key.
  assert (E : v_epoch v ?= v_epoch w = Lt) by now apply Z.compare_lt_iff.
  unfold key. cbn [compute_compare_tags k_epoch]. now rewrite E. Local Opaque key.
Qed.

Lemma next_epoch_worded v : worded v -> exists u, worded u /\ v_lt v u = true.
Proof.
  intros W. exists (set_epoch v (v_epoch v + 1)). split; [exact W|]. apply epoch_lt. cbn. lia.
Qed.

Lemma valid_set_local v k : valid_version v = true -> k <> [] -> valid_version (set_local v (Some k)) = true.
Proof.
  unfold valid_version. cbn. rewrite !andb_true_iff. intros [H _] N. split; auto. destruct k; congruence.
Qed.

Lemma worded_between v w : worded v -> worded w -> v_lt v w = true ->
  exists u, worded u /\ v_lt v u = true /\ v_lt u w = true.
Proof.
  intros [Vv Lv] [Vw Lw] H.
  destruct (dense_versions (fun p => match p with LInt _ => True | LStr _ => wf_part p end) v w) as (k & Nk & Fk & L1 & L2);
    auto.
  - destruct (v_local w) as [m|] eqn:E; auto. split; auto. intros ->.
    destruct (valid_parts _ Vw) as (_ & _ & _ & _ & N). congruence.
  - exists (set_local v (Some k)). split; auto. split; [now apply valid_set_local|exact Fk].
Qed.

Lemma wf_valid v : wf v -> valid_version v = true.
Proof.
  intros (_ & R & _ & P & Q & D & L). unfold valid_version.
  destruct (v_release v); [congruence|].
  assert (T : forall c o, wf_otag c o -> valid_otag c o = true) by (intros c [t|] H; cbn in *; auto; apply H).
  rewrite (T _ _ P), (T _ _ Q), (T _ _ D). cbn. destruct (v_local v) as [[|]|]; auto. destruct L. congruence.
Qed.

Lemma wf_between v w : wf v -> wf w -> v_lt v w = true ->
  exists u, wf u /\ v_lt v u = true /\ v_lt u w = true.
Proof.
  intros Wv Ww H. pose proof (wf_valid _ Ww) as Vw.
  destruct (dense_versions wf_part v w) as (k & Nk & Fk & L1 & L2); auto.
  - cbn. lia.
  - destruct Wv as (_ & _ & _ & _ & _ & _ & L). destruct (v_local v); cbn in *; auto. apply L.
  - destruct Ww as (_ & _ & _ & _ & _ & _ & L). destruct (v_local w); cbn in *; auto.
  - exists (set_local v (Some k)). split; auto. destruct Wv as (E & R & N & P & Q & D & L).
    repeat split; auto.
Qed.

Lemma next_epoch_wf v : wf v -> exists u, wf u /\ v_lt v u = true.
Proof.
  intros W. exists (set_epoch v (v_epoch v + 1)). split; [|apply epoch_lt; cbn; lia].
  destruct W as (E & R & N & P & Q & D & L). repeat split; auto. cbn. lia.
Qed.

Lemma lowest_wf : wf lowest.
Proof.
  unfold lowest. repeat split; cbn; auto; try lia; try discriminate. repeat constructor; lia.
Qed.

Lemma rel_zero_le r : Forall (fun x => 0 <= x) r -> rel_before [0] r \/ rel_same [0] r.
Proof.
  intros F. destruct (Forall_Exists_dec (fun x => x = 0) (fun x => Z.eq_dec x 0) r) as [Z0|NZ].
  - right. intros n. transitivity 0; [unfold part; destruct n as [|[|]]; reflexivity|].
    unfold part. destruct (Nat.lt_ge_cases n (List.length r)) as [L|L].
    + rewrite Forall_forall in Z0. symmetry. apply Z0. now apply nth_In.
    + symmetry. now apply nth_overflow.
  - left. assert (P : forall n, part [0] n = 0) by (intros [|[|]]; reflexivity).
    induction r as [|x r IH]; [inversion NZ|]. inversion F; subst.
    destruct (Z.eq_dec x 0) as [->|N].
    + inversion NZ as [? ? X|? ? X]; subst; [congruence|]. destruct (IH H2 X) as (n & E & L).
      exists (S n). split.
      * intros [|m] Hm; [reflexivity|]. rewrite P. specialize (E m). rewrite P in E. cbn. apply E. lia.
      * rewrite P in *. exact L.
    + exists O. split; [lia|]. cbn. lia.
Qed.

Lemma lowest_le v : wf v -> v_lt lowest v = true \/ v_eq lowest v = true.
Proof.
  intros W. pose proof (wf_valid _ W) as V. pose proof (wf_valid _ lowest_wf) as VL.
  destruct W as (E & R & N & P & Q & D & L).
  assert (OL : ordinary lowest) by (split; [exact VL|apply lowest_wf]).
  assert (OV : ordinary v) by (split; [exact V|exact N]).
  rewrite (lt_before _ _ OL OV), (eq_same _ _ VL V). unfold before, same.
  cbn [v_epoch v_release v_pre v_post v_dev v_local lowest].
  destruct (Z.eq_dec 0 (v_epoch v)) as [<-|NE]; [|left; left; lia].
  destruct (rel_zero_le _ N) as [RB|RS]; [left; right; split; auto|].
  unfold stage. cbn [v_pre v_post v_dev lowest].
  destruct (v_pre v) as [p|] eqn:EP; [left; right; split; auto; right; split; auto; left; lia|].
  destruct (v_post v) as [q|] eqn:EQ; [left; right; split; auto; right; split; auto; left; lia|].
  destruct (v_dev v) as [d|] eqn:ED; [|left; right; split; auto; right; split; auto; left; lia].
  destruct D as [VD D0]. pose proof (valid_phase _ _ VD) as [PH|[]].
  destruct (Z.eq_dec (value d) 0) as [Z0|NZ].
  - assert (d = Tag (lit "dev") 0) as -> by (destruct d; cbn in *; congruence).
    destruct (v_local v) as [l|] eqn:EL.
    + left. do 5 (right; split; [reflexivity || assumption|]). right. split; [reflexivity|exact I].
    + right. repeat split; auto.
  - left. right. split; auto. right. split; auto. right. split; auto. right. split; auto. right. split; auto.
    left. unfold none_last, tag_before. right. cbn [phase value]. split; [exact PH|]. lia.
Qed.

Lemma bounds_extract a : bounds a = flat_map item_bounds (extract a).
Proof. destruct a; cbn; auto. now rewrite app_nil_r. Qed.

Lemma good_ends_of (good : version -> Prop) (ok : version -> Prop) i :
  (forall v, ok v -> good v /\ floor good v) -> Forall ok (item_bounds i) -> good_ends good i.
Proof.
  intros H F.
  assert (K : forall v b, ok v -> good_cut good (Fin (key v, b))).
  { intros v b O. exists v. destruct (H v O). auto. }
  destruct i as [v|min max imin imax]; cbn [item_bounds] in F.
  - inversion F; subst. split; apply K; auto.
  - apply Forall_app in F as [F1 F2].
    split; [unfold lo; destruct min as [m|]|unfold hi; destruct max as [m|]]; cbn [i_min i_max]; try exact I.
    + inversion F1; subst. now apply K.
    + inversion F2; subst. now apply K.
Qed.

Lemma good_set_of (good : version -> Prop) (ok : version -> Prop) a :
  (forall v, ok v -> good v /\ floor good v) -> Forall ok (bounds a) -> good_set good a.
Proof.
  intros H F. rewrite bounds_extract in F. unfold good_set. induction (extract a) as [|x xs IH]; [constructor|].
  cbn [flat_map] in F. apply Forall_app in F as [F1 F2]. constructor; auto. eapply good_ends_of; eauto.
Qed.

Lemma worded_good a : Forall worded (bounds a) -> good_set worded a.
Proof.
  apply good_set_of. intros v W. split; auto. exists (set_epoch v (v_epoch v - 1)). split; [exact W|].
  apply epoch_lt. cbn. lia.
Qed.

(** A version that can be written and is not the lowest. *)
Definition written v := wf v /\ v_eq lowest v = false.

Lemma written_good a : Forall written (bounds a) -> good_set wf a.
Proof.
  apply good_set_of. intros v [W N]. split; auto. exists lowest. split; [apply lowest_wf|].
  destruct (lowest_le v W) as [L|L]; auto. congruence.
Qed.

Definition worded_exists : exists u, worded u.
Proof. exists any_version. now split. Qed.
Definition wf_exists : exists u, wf u.
Proof. exists lowest. apply lowest_wf. Qed.
