(** Facts about updates of releases and versions. *)

From Coq Require Import List ZArith NArith String Bool Lia.
From Verif Require Import Py Segments Version Operators Orders Cuts SetVersions Spec OrderFacts.
Import ListNotations.
Open Scope Z_scope.

(** ** Lists *)

Lemma length_update {A} (xs : list A) n a : List.length (update xs n a) = List.length xs.
Proof. revert n. induction xs as [|x xs IH]; intros [|n]; cbn; auto. Qed.

Lemma part_update xs n a m : (n < List.length xs)%nat ->
  part (update xs n a) m = if (m =? n)%nat then a else part xs m.
Proof.
  unfold part. revert n m. induction xs as [|x xs IH]; intros [|n] [|m] L; cbn in *; try lia; auto.
  rewrite IH by lia. reflexivity.
Qed.

Lemma part_firstn xs n m : part (firstn n xs) m = if (m <? n)%nat then part xs m else 0.
Proof.
  unfold part. revert n m. induction xs as [|x xs IH]; intros n m.
  - rewrite firstn_nil. destruct m, (Nat.ltb _ n); reflexivity.
  - destruct n as [|n]; [destruct m; reflexivity|]. destruct m as [|m]; [reflexivity|].
    cbn [firstn nth]. rewrite IH. reflexivity.
Qed.

Lemma part_ext r s : List.length r = List.length s -> (forall n, part r n = part s n) -> r = s.
Proof.
  intros L E. apply (nth_ext r s 0 0); auto. intros n _. apply E.
Qed.

Lemma release_new_ok r : r <> [] -> release_new r = Ok r.
Proof. destruct r; [congruence|reflexivity]. Qed.

Lemma len_nat {A} (r : list A) : len r = Z.of_nat (List.length r).
Proof. reflexivity. Qed.

(** ** Parts of a release *)

Lemma get_at_part r i : 0 <= i -> rel_get_at r i 0 = Ok (part r (Z.to_nat i)).
Proof.
  intros H. unfold rel_get_at, rel_has_at, rel_precision, rel_get_at_unchecked, py_get, norm_index, part.
  destruct (i <? len r) eqn:E.
  - apply Z.ltb_lt in E. rewrite len_nat in E. destruct (i <? 0) eqn:F; [apply Z.ltb_lt in F; lia|]. rewrite F.
    rewrite (nth_error_nth' r 0) by lia. reflexivity.
  - apply Z.ltb_ge in E. rewrite len_nat in E. now rewrite nth_overflow by lia.
Qed.

Lemma get_at_spec r i d : 0 <= i ->
  rel_get_at r i d = Ok (if i <? len r then part r (Z.to_nat i) else d).
Proof.
  intros H. destruct (i <? len r) eqn:E.
  - rewrite <- (get_at_part r i H). unfold rel_get_at, rel_has_at, rel_precision. now rewrite E.
  - unfold rel_get_at, rel_has_at, rel_precision. now rewrite E.
Qed.

Lemma pad_index r i : r <> [] -> 0 <= i ->
  exists k, rel_pad_to_index r i 0 = Ok (r ++ repeat 0 k)
    /\ List.length (r ++ repeat 0 k) = Nat.max (List.length r) (S (Z.to_nat i)).
Proof.
  intros N H. unfold rel_pad_to_index. destruct (pad_release r (i + 1) N) as (k & E & L).
  exists k. split; auto. rewrite len_nat in L. lia.
Qed.

Lemma set_at_spec r i x : r <> [] -> 0 <= i ->
  exists r', rel_set_at r i x = Ok r' /\ r' <> []
    /\ List.length r' = Nat.max (List.length r) (S (Z.to_nat i))
    /\ forall n, part r' n = if (n =? Z.to_nat i)%nat then x else part r n.
Proof.
  intros N H. unfold rel_set_at. destruct (pad_index r i N H) as (k & E & L). rewrite E. cbn [bind].
  set (p := r ++ repeat 0 k) in *. unfold rel_set_at_unchecked, py_set, norm_index.
  destruct (i <? 0) eqn:F; [apply Z.ltb_lt in F; lia|]. rewrite F. cbn [orb].
  destruct (len p <=? i) eqn:G; [apply Z.leb_le in G; rewrite len_nat in G; lia|]. cbn [bind].
  assert (P : update p (Z.to_nat i) x <> []).
  { intros Z. apply (f_equal (@List.length _)) in Z. rewrite length_update in Z. cbn in Z. lia. }
  exists (update p (Z.to_nat i) x). rewrite release_new_ok by auto. split; auto. split; auto.
  rewrite length_update. split; auto. intros n. rewrite part_update by lia.
  destruct (n =? Z.to_nat i)%nat; auto. unfold p. apply part_zeros.
Qed.

Lemma slice_upto r i : 0 <= i -> rel_slice_parts r i = firstn (Z.to_nat i) r.
Proof.
  intros H. unfold rel_slice_parts, py_upto, norm_index. destruct (i <? 0) eqn:F; [apply Z.ltb_lt in F; lia|reflexivity].
Qed.

Lemma next_at_spec r i : r <> [] -> 0 <= i ->
  exists r', rel_next_at r i = Ok r' /\ r' <> [] /\ bumped r (Z.to_nat i) r'.
Proof.
  intros N H. unfold rel_next_at. rewrite get_at_part by auto. cbn [bind].
  destruct (set_at_spec r i (part r (Z.to_nat i) + 1) N H) as (u & E & Nu & L & P). rewrite E. cbn [bind].
  unfold rel_slice. rewrite slice_upto by lia.
  assert (Ns : firstn (Z.to_nat (i + 1)) u <> []).
  { replace (Z.to_nat (i + 1)) with (S (Z.to_nat i)) by lia. destruct u; [congruence|discriminate]. }
  rewrite release_new_ok by auto. cbn [bind].
  destruct (pad_release _ (rel_precision u) Ns) as (k & E' & L'). rewrite E'.
  exists (firstn (Z.to_nat (i + 1)) u ++ repeat 0 k). split; auto. split.
  { destruct (firstn (Z.to_nat (i + 1)) u); [congruence|discriminate]. }
  split.
  - unfold rel_precision in L'. rewrite !len_nat in L'.
    assert (List.length (firstn (Z.to_nat (i + 1)) u) <= List.length u)%nat by (rewrite firstn_length; lia). lia.
  - intros n. rewrite part_zeros, part_firstn, P.
    destruct (Nat.ltb_spec n (Z.to_nat (i + 1))), (Nat.ltb_spec n (Z.to_nat i)), (Nat.eqb_spec n (Z.to_nat i)); auto; lia.
Qed.

Lemma bumped_before r i r' : bumped r i r' -> rel_before r r'.
Proof.
  intros [L P]. exists i. split.
  - intros m H. rewrite P. destruct (Nat.ltb_spec m i); [reflexivity|lia].
  - rewrite P. destruct (Nat.ltb_spec i i), (Nat.eqb_spec i i); lia.
Qed.

Lemma parts_nonneg r : (forall n, 0 <= part r n) -> Forall (fun x => 0 <= x) r.
Proof.
  intros H. apply Forall_forall. intros x Ix. destruct (In_nth r x 0 Ix) as (n & _ & <-). apply H.
Qed.

Lemma bumped_nonneg r i r' : bumped r i r' -> Forall (fun x => 0 <= x) r -> Forall (fun x => 0 <= x) r'.
Proof.
  intros [L P] F. apply parts_nonneg. intros n. rewrite P. pose proof (part_nonneg r n F). pose proof (part_nonneg r i F).
  destruct (n <? i)%nat, (n =? i)%nat; lia.
Qed.

Lemma bumped_unique r i s t : bumped r i s -> bumped r i t -> s = t.
Proof. intros [L P] [L' P']. apply part_ext; [congruence|]. intros n. now rewrite P, P'. Qed.

Lemma bare_valid e r : r <> [] -> valid_version (bare e r) = true.
Proof. intros N. unfold valid_version, bare. cbn. destruct r; [congruence|reflexivity]. Qed.

Lemma release_lt v w : ordinary v -> ordinary w -> v_epoch v = v_epoch w ->
  rel_before (v_release v) (v_release w) -> v_lt v w = true.
Proof. intros Ov Ow E R. apply lt_before; auto. right. auto. Qed.

(** ** Bumps *)

Lemma is_stable_iff v : is_stable v = true <-> v_pre v = None /\ v_dev v = None.
Proof.
  unfold is_stable, is_unstable, is_pre_release, is_dev_release. destruct (v_pre v), (v_dev v); cbn; intuition discriminate.
Qed.

Lemma next_at_shape v i : valid_version v = true -> 0 <= i ->
  exists r, next_at v i = Ok (bare (v_epoch v) r)
    /\ if is_stable v then bumped (v_release v) (Z.to_nat i) r else r = v_release v.
Proof.
  intros V H. destruct (valid_parts v V) as (N & _). unfold next_at. destruct (is_stable v).
  - destruct (next_at_spec _ i N H) as (r & E & _ & B). rewrite E. cbn [bind]. exists r. split; auto.
  - cbn [bind]. exists (v_release v). split; auto.
Qed.

Lemma to_bare e r pre post dev l : r <> [] -> is_stable (Version e r pre post dev l) = false ->
  v_lt (Version e r pre post dev l) (bare e r) = true <-> ~ post_dev (Version e r pre post dev l).
Proof.
  intros N U. unfold v_lt, bare, post_dev. rewrite (key_cmp_tags e r r) by (auto; intros ?; reflexivity).
  cbn in U |- *. destruct pre, post, dev; try discriminate U; cbn; intuition congruence.
Qed.

Lemma next_at_lt v i : ordinary v -> 0 <= i ->
  exists w, next_at v i = Ok w /\ (v_lt v w = true <-> ~ post_dev v).
Proof.
  intros [V Nn] H. destruct (next_at_shape v i V H) as (r & E & B). exists (bare (v_epoch v) r). split; auto.
  destruct (valid_parts v V) as (N & _). destruct (is_stable v) eqn:S.
  - assert (L : v_lt v (bare (v_epoch v) r) = true).
    { apply release_lt; [split; auto| |reflexivity|now apply bumped_before with (Z.to_nat i)]. split.
      - apply bare_valid. intros ->. destruct B as [B _]. cbn in B. lia.
      - cbn. eapply bumped_nonneg; eauto. }
    split; auto. intros _ (P & Q & D). apply is_stable_iff in S. destruct S; congruence.
  - subst r. destruct v as [e r pre post dev l]. now apply to_bare.
Qed.

Lemma next_at_negative v : valid_version v = true -> is_stable v = true -> next_at v (-1) = Err ValueError.
Proof.
  intros V S. destruct (valid_parts v V) as (N & _). unfold next_at. rewrite S.
  destruct (v_release v) as [|x r] eqn:ER; [congruence|].
  assert (L : 1 <= len (x :: r)) by (rewrite len_nat; cbn [List.length]; lia).
  unfold rel_next_at, rel_get_at, rel_has_at, rel_precision. replace (-1 <? len (x :: r)) with true by (symmetry; apply Z.ltb_lt; lia).
  unfold rel_get_at_unchecked, py_get, norm_index. cbn [Z.ltb Z.compare].
  replace (-1 + len (x :: r) <? 0) with false by (symmetry; apply Z.ltb_ge; lia).
  rewrite (nth_error_nth' (x :: r) 0) by (rewrite len_nat; cbn [List.length]; lia). cbn [bind].
  unfold rel_set_at, rel_pad_to_index, rel_pad_to, rel_precision.
  replace (len (x :: r) <? -1 + 1) with false by (symmetry; apply Z.ltb_ge; lia). cbn [bind].
  unfold rel_set_at_unchecked, py_set, norm_index. cbn [Z.ltb Z.compare].
  replace (-1 + len (x :: r) <? 0) with false by (symmetry; apply Z.ltb_ge; lia).
  replace (len (x :: r) <=? -1 + len (x :: r)) with false by (symmetry; apply Z.leb_gt; lia). cbn [orb bind].
  destruct (release_new (update _ _ _)) as [u|e] eqn:U; [|unfold release_new in U; destruct (update _ _ _); [injection U as <-; reflexivity|discriminate]].
  cbn [bind]. unfold rel_slice. rewrite slice_upto by lia. reflexivity.
Qed.

(** ** Tags *)

Lemma tag_new_valid c t v : valid_tag c t = true ->
  tag_new c (phase t) v = Ok (Tag (phase t) v) /\ valid_tag c (Tag (phase t) v) = true.
Proof.
  unfold valid_tag. rewrite andb_true_iff. intros [I E]. cbn [phase]. split; [|now rewrite I, E].
  apply str_eqb_eq in E. unfold tag_new. now rewrite E, I.
Qed.

Lemma tag_next_valid c t : valid_tag c t = true ->
  tag_next c t = Ok (Tag (phase t) (value t + 1)) /\ valid_tag c (Tag (phase t) (value t + 1)) = true.
Proof. intros V. exact (tag_new_valid c t _ V). Qed.

Lemma tag_cmp_value p x y : x < y -> tag_cmp (Tag p x) (Tag p y) = Lt.
Proof.
  intros H. unfold tag_cmp. cbn [phase value]. rewrite (cmp_refl lawful_str). cbn. now apply Z.compare_lt_iff.
Qed.

Lemma next_post_shape v : valid_version v = true -> exists t,
  next_post v = Ok (Version (v_epoch v) (v_release v) (v_pre v) (Some t) None None)
  /\ match v_post v with
     | None => t = Tag (lit "post") 0
     | Some u => t = Tag (phase u) (value u + 1)
     end.
Proof.
  intros V. destruct (valid_parts v V) as (_ & _ & P & _). unfold next_post. destruct (v_post v) as [u|] eqn:E.
  - destruct (tag_next_valid PostTag u P) as [E' _]. rewrite E'. cbn [bind]. eexists. split; reflexivity.
  - exists (Tag (lit "post") 0). split; reflexivity.
Qed.

Lemma next_post_lt v : valid_version v = true -> exists w, next_post v = Ok w /\ v_lt v w = true.
Proof.
  intros V. destruct (next_post_shape v V) as (t & E & T). eexists. split; [exact E|].
  destruct (valid_parts v V) as (N & _). destruct v as [e r pre post dev l]. cbn [v_epoch v_release v_pre v_post] in *.
  assert (R : forall t, tag_cmp t t = Eq) by apply (cmp_refl lawful_tag).
  unfold v_lt. rewrite (key_cmp_tags e r r) by (auto; intros ?; reflexivity).
  destruct post as [[p x]|].
  - subst t. cbn [phase value]. destruct pre as [pre|], dev; cbn; rewrite ?R; cbn; rewrite tag_cmp_value by lia; reflexivity.
  - destruct pre as [pre|], dev; cbn; rewrite ?R; reflexivity.
Qed.

Lemma next_epoch_lt v : v_lt v (next_epoch v) = true.
Proof.
  unfold v_lt, v_cmp, key_cmp, key, next_epoch, set_epoch. cbn [v_epoch v_release v_pre v_post v_dev v_local].
  destruct (compute_compare_tags _ _ _) as [[a b] c]. cbn [k_epoch].
  assert (H : (v_epoch v ?= v_epoch v + 1) = Lt) by (apply Z.compare_lt_iff; lia). now rewrite H.
Qed.

Lemma next_pre_shape v : valid_version v = true -> exists t,
  next_pre v = Ok (Version (v_epoch v) (v_release v) (Some t) None None None)
  /\ match v_pre v with
     | None => t = Tag (lit "alpha") 0
     | Some u => t = Tag (phase u) (value u + 1)
     end.
Proof.
  intros V. destruct (valid_parts v V) as (_ & P & _). unfold next_pre. destruct (v_pre v) as [u|] eqn:E.
  - destruct (tag_next_valid PreTag u P) as [E' _]. rewrite E'. cbn [bind]. eexists. split; reflexivity.
  - exists (Tag (lit "alpha") 0). split; reflexivity.
Qed.

Lemma next_pre_lt v : valid_version v = true -> exists w, next_pre v = Ok w
  /\ (v_lt v w = true <-> v_pre v <> None \/ (v_post v = None /\ v_dev v <> None))
  /\ v_eq v w = false.
Proof.
  intros V. destruct (next_pre_shape v V) as (t & E & T). eexists. split; [exact E|].
  destruct (valid_parts v V) as (N & _). destruct v as [e r pre post dev l]. cbn [v_epoch v_release v_pre v_post v_dev] in *.
  unfold v_lt, v_eq. rewrite (key_cmp_tags e r r) by (auto; intros ?; reflexivity).
  destruct pre as [[p x]|].
  - subst t. cbn [phase value compute_compare_tags fst snd ext_cmp]. rewrite tag_cmp_value by lia. cbn. intuition congruence.
  - destruct post, dev; cbn; intuition congruence.
Qed.

Lemma next_dev_shape v : valid_version v = true -> exists t,
  next_dev v = Ok (Version (v_epoch v) (v_release v) (v_pre v) (v_post v) (Some t) None)
  /\ match v_dev v with
     | None => t = Tag (lit "dev") 0
     | Some u => t = Tag (phase u) (value u + 1)
     end.
Proof.
  intros V. destruct (valid_parts v V) as (_ & _ & _ & P & _). unfold next_dev. destruct (v_dev v) as [u|] eqn:E.
  - destruct (tag_next_valid DevTag u P) as [E' _]. rewrite E'. cbn [bind]. eexists. split; reflexivity.
  - exists (Tag (lit "dev") 0). split; reflexivity.
Qed.

Lemma next_dev_lt v : valid_version v = true -> exists w, next_dev v = Ok w
  /\ (v_dev v <> None -> v_lt v w = true) /\ (v_dev v = None -> v_lt w v = true).
Proof.
  intros V. destruct (next_dev_shape v V) as (t & E & T). eexists. split; [exact E|].
  destruct (valid_parts v V) as (N & _). destruct v as [e r pre post dev l]. cbn [v_epoch v_release v_pre v_post v_dev] in *.
  assert (R : forall t, tag_cmp t t = Eq) by apply (cmp_refl lawful_tag).
  unfold v_lt. split; intros H; rewrite (key_cmp_tags e r r) by (auto; intros ?; reflexivity).
  - destruct dev as [[p x]|]; [|congruence]. subst t. cbn [phase value].
    destruct pre as [pre|], post; cbn; rewrite ?R; cbn; rewrite ?R; cbn; rewrite tag_cmp_value by lia; reflexivity.
  - subst dev. destruct pre as [pre|], post; cbn; rewrite ?R; cbn; rewrite ?R; reflexivity.
Qed.

Lemma next_pre_phase_spec v : valid_version v = true ->
  match v_pre v with
  | None => next_pre_phase v = Ok (Some (Version (v_epoch v) (v_release v) (Some (Tag (lit "alpha") 0)) None None None))
  | Some t =>
      (phase t = lit "alpha" /\ next_pre_phase v = Ok (Some (Version (v_epoch v) (v_release v) (Some (Tag (lit "beta") 0)) None None None)))
      \/ (phase t = lit "beta" /\ next_pre_phase v = Ok (Some (Version (v_epoch v) (v_release v) (Some (Tag (lit "rc") 0)) None None None)))
      \/ (In (phase t) [lit "candidate"; lit "preview"; lit "rc"] /\ next_pre_phase v = Ok None)
  end.
Proof.
  intros V. destruct (valid_parts v V) as (_ & P & _). destruct v as [e r pre post dev l].
  cbn [v_epoch v_release v_pre] in *. destruct pre as [[p x]|]; [|reflexivity].
  apply valid_phase in P. cbn [phase] in *.
  destruct P as [<-|[<-|[<-|[<-|[<-|[]]]]]]; [left|right; left|right; right..]; (split; [cbn; auto|reflexivity]).
Qed.

Lemma next_pre_phase_lt v : valid_version v = true -> v_pre v <> None ->
  (exists w, next_pre_phase v = Ok (Some w) /\ v_lt v w = true
     /\ exists t, v_pre v = Some t /\ In (phase t) [lit "alpha"; lit "beta"])
  \/ (next_pre_phase v = Ok None
     /\ exists t, v_pre v = Some t /\ In (phase t) [lit "candidate"; lit "preview"; lit "rc"]).
Proof.
  intros V NP. pose proof (next_pre_phase_spec v V) as S. destruct (valid_parts v V) as (N & P & _).
  destruct v as [e r pre post dev l]. cbn [v_epoch v_release v_pre] in *. destruct pre as [[p x]|]; [|congruence].
  cbn [phase] in *. destruct S as [[-> E]|[[-> E]|[I E]]].
  - left. eexists. split; [exact E|]. split; [|eexists; split; [reflexivity|cbn; auto]].
    unfold v_lt. rewrite (key_cmp_tags e r r) by (auto; intros ?; reflexivity). reflexivity.
  - left. eexists. split; [exact E|]. split; [|eexists; split; [reflexivity|cbn; auto]].
    unfold v_lt. rewrite (key_cmp_tags e r r) by (auto; intros ?; reflexivity). reflexivity.
  - right. split; auto. eexists. split; [reflexivity|]. exact I.
Qed.

(** ** Breaking versions *)

Lemma major_part v : major v = Ok (part (v_release v) 0).
Proof. exact (get_at_part (v_release v) 0 ltac:(lia)). Qed.
Lemma minor_part v : minor v = Ok (part (v_release v) 1).
Proof. exact (get_at_part (v_release v) 1 ltac:(lia)). Qed.

Lemma next_breaking_stable v : valid_version v = true -> is_stable v = true ->
  next_breaking v = next_at v (Z.of_nat (breaking_index (v_release v))).
Proof.
  intros V S. destruct (valid_parts v V) as (N & _). unfold next_breaking. rewrite major_part, minor_part. cbn [bind].
  unfold has_micro, has_minor, rel_has_micro, rel_has_minor, rel_has_at, rel_precision, next_major, next_minor, next_micro.
  unfold to_stable. rewrite S.
  destruct (v_release v) as [|a [|b [|c r]]]; [congruence| | |]; cbn [part nth breaking_index].
  - destruct (a =? 0); reflexivity.
  - destruct (a =? 0); [|reflexivity]. destruct (b =? 0); reflexivity.
  - destruct (a =? 0); [|reflexivity]. destruct (b =? 0); cbn [negb]; [|reflexivity].
    replace (MICRO <? len (a :: b :: c :: r)) with true; [reflexivity|]. symmetry. apply Z.ltb_lt. rewrite len_nat. cbn [List.length]. unfold MICRO. lia.
Qed.

Lemma next_breaking_shape v : valid_version v = true ->
  exists r, next_breaking v = Ok (bare (v_epoch v) r)
    /\ if is_stable v then bumped (v_release v) (breaking_index (v_release v)) r
       else if part (v_release v) 0 =? 0 then r = v_release v else bumped (v_release v) 0 r.
Proof.
  intros V. destruct (is_stable v) eqn:S.
  - rewrite next_breaking_stable by auto. destruct (next_at_shape v (Z.of_nat (breaking_index (v_release v))) V) as (r & E & B); [lia|].
    rewrite S, Nat2Z.id in B. eauto.
  - destruct (valid_parts v V) as (N & _). unfold next_breaking. rewrite major_part, minor_part. cbn [bind].
    assert (K : forall i, next_at v i = Ok (bare (v_epoch v) (v_release v))).
    { intros i. unfold next_at. rewrite S. reflexivity. }
    destruct (part (v_release v) 0 =? 0).
    + exists (v_release v). split; auto. unfold next_minor, next_micro, next_major. rewrite !K.
      destruct (negb _), (has_micro v), (has_minor v); reflexivity.
    + unfold to_stable. rewrite S. unfold next_major.
      destruct (next_at_shape (to_stable_unchecked v) MAJOR) as (r & E & B); [apply bare_valid; auto|unfold MAJOR; lia|].
      exists r. split; auto.
Qed.

Lemma bare_ordinary e r : r <> [] -> Forall (fun x => 0 <= x) r -> ordinary (bare e r).
Proof. intros N F. split; [now apply bare_valid|exact F]. Qed.

Lemma bumped_lt v i r : ordinary v -> bumped (v_release v) i r -> v_lt v (bare (v_epoch v) r) = true.
Proof.
  intros [V F] B. apply release_lt; [split; auto| |reflexivity|now apply bumped_before with i].
  apply bare_ordinary; [|eapply bumped_nonneg; eauto]. intros ->. destruct B as [B _]. cbn in B. lia.
Qed.

Lemma unstable_lt v : valid_version v = true -> is_stable v = false ->
  v_lt v (bare (v_epoch v) (v_release v)) = true <-> ~ post_dev v.
Proof.
  intros V S. destruct (valid_parts v V) as (N & _). destruct v as [e r pre post dev l]. now apply to_bare.
Qed.

Lemma stable_not_post_dev v : is_stable v = true -> ~ post_dev v.
Proof. rewrite is_stable_iff. intros [_ D] (_ & _ & H). auto. Qed.

Lemma next_breaking_lt v : ordinary v ->
  exists w, next_caret_breaking v = Ok w
    /\ (v_lt v w = true <-> ~ (post_dev v /\ part (v_release v) 0 = 0)).
Proof.
  intros O. destruct O as [V F] eqn:EO. destruct (next_breaking_shape v V) as (r & E & B). exists (bare (v_epoch v) r). split; auto.
  destruct (is_stable v) eqn:S.
  - split; [intros _ [P _]; now apply (stable_not_post_dev v S)|intros _; now apply bumped_lt with (breaking_index (v_release v))].
  - destruct (part (v_release v) 0 =? 0) eqn:Z.
    + subst r. rewrite (unstable_lt v V S). apply Z.eqb_eq in Z. tauto.
    + apply Z.eqb_neq in Z. split; [tauto|]. intros _. now apply bumped_lt with 0%nat.
Qed.

Lemma next_tilde_shape v : valid_version v = true ->
  exists r, next_tilde_breaking v = Ok (bare (v_epoch v) r)
    /\ if is_stable v then bumped (v_release v) (Nat.min 1 (List.length (v_release v) - 1)) r
       else r = v_release v.
Proof.
  intros V. destruct (valid_parts v V) as (N & _). unfold next_tilde_breaking, has_minor, rel_has_minor, rel_has_at, rel_precision.
  rewrite len_nat. destruct (MINOR <? _) eqn:L; unfold MINOR in L; [apply Z.ltb_lt in L|apply Z.ltb_ge in L].
  - destruct (next_at_shape v MINOR V) as (r & E & B); [unfold MINOR; lia|]. exists r. split; auto.
    replace (Nat.min 1 _) with 1%nat by lia. exact B.
  - destruct (next_at_shape v MAJOR V) as (r & E & B); [unfold MAJOR; lia|]. exists r. split; auto.
    replace (Nat.min 1 _) with 0%nat by lia. exact B.
Qed.

Lemma next_tilde_lt v : ordinary v ->
  exists w, next_tilde_breaking v = Ok w /\ (v_lt v w = true <-> ~ post_dev v).
Proof.
  intros [V F]. destruct (next_tilde_shape v V) as (r & E & B). eexists. split; [exact E|]. destruct (is_stable v) eqn:S.
  - split; [intros _; now apply stable_not_post_dev|intros _]. eapply bumped_lt; [split; auto|exact B].
  - subst r. now apply unstable_lt.
Qed.

Lemma to_stable_valid v : valid_version v = true -> valid_version (to_stable v) = true.
Proof. intros V. unfold to_stable. destruct (is_stable v); auto. apply bare_valid. now destruct (valid_parts v V). Qed.
Lemma to_stable_stable v : is_stable (to_stable v) = true.
Proof. unfold to_stable. destruct (is_stable v) eqn:E; auto. Qed.
Lemma to_stable_release v : v_epoch (to_stable v) = v_epoch v /\ v_release (to_stable v) = v_release v.
Proof. unfold to_stable. destruct (is_stable v); auto. Qed.

Lemma next_tilde_equal_shape v : valid_version v = true ->
  ((List.length (v_release v) = 1)%nat /\ next_tilde_equal_breaking v = Err ValueError)
  \/ ((2 <= List.length (v_release v))%nat
     /\ exists r, next_tilde_equal_breaking v = Ok (bare (v_epoch v) r)
          /\ bumped (v_release v) (List.length (v_release v) - 2) r).
Proof.
  intros V. destruct (valid_parts v V) as (N & _).
  assert (L : (1 <= List.length (v_release v))%nat) by (destruct (v_release v); [congruence|cbn; lia]).
  unfold next_tilde_equal_breaking, last_index, rel_last_index, rel_precision. rewrite len_nat.
  destruct (_ =? 0) eqn:E; [apply Z.eqb_eq in E|apply Z.eqb_neq in E]; cbn [negb].
  - left. split; auto. lia.
  - right. split; [lia|].
    destruct (next_at_shape (to_stable v) (Z.of_nat (List.length (v_release v)) - 1 - 1)) as (r & E' & B).
    + now apply to_stable_valid.
    + lia.
    + destruct (to_stable_release v) as [Ee Er]. rewrite to_stable_stable, Er in B. rewrite Ee in E'. exists r. split; auto.
      replace (List.length (v_release v) - 2)%nat with (Z.to_nat (Z.of_nat (List.length (v_release v)) - 1 - 1)) by lia. exact B.
Qed.

Lemma next_tilde_equal_lt v : ordinary v -> (2 <= List.length (v_release v))%nat ->
  exists w, next_tilde_equal_breaking v = Ok w /\ v_lt v w = true.
Proof.
  intros [V F] L. destruct (next_tilde_equal_shape v V) as [[L' _]|(_ & r & E & B)]; [lia|].
  eexists. split; [exact E|]. eapply bumped_lt; [split; auto|exact B].
Qed.

Lemma next_wildcard_shape v : valid_version v = true ->
  (is_stable v = true /\ v_post v = None /\ (List.length (v_release v) = 1)%nat /\ next_wildcard_breaking v = Ok None)
  \/ (is_stable v = true /\ v_post v = None /\ (2 <= List.length (v_release v))%nat
     /\ exists r, next_wildcard_breaking v = Ok (Some (bare (v_epoch v) r))
          /\ bumped (v_release v) (List.length (v_release v) - 2) r)
  \/ (is_stable v = true /\ v_post v <> None
     /\ exists r, next_wildcard_breaking v = Ok (Some (bare (v_epoch v) r))
          /\ bumped (v_release v) (List.length (v_release v) - 1) r)
  \/ (is_stable v = false /\ next_wildcard_breaking v = Ok (Some (bare (v_epoch v) (v_release v)))).
Proof.
  intros V. destruct (valid_parts v V) as (N & _).
  assert (L : (1 <= List.length (v_release v))%nat) by (destruct (v_release v); [congruence|cbn; lia]).
  unfold next_wildcard_breaking, last_index, rel_last_index, rel_precision. rewrite len_nat.
  destruct (is_stable v) eqn:S; [destruct (is_post_release v) eqn:P|]; cbn [andb negb].
  - right. right. left. split; auto. split; [unfold is_post_release in P; destruct (v_post v); congruence|].
    destruct (next_at_shape v (Z.of_nat (List.length (v_release v)) - 1) V) as (r & E & B); [lia|]. rewrite S in B.
    rewrite E. exists r. split; auto. replace (List.length (v_release v) - 1)%nat with (Z.to_nat (Z.of_nat (List.length (v_release v)) - 1)) by lia. exact B.
  - assert (P' : v_post v = None) by (unfold is_post_release in P; destruct (v_post v); congruence).
    destruct (_ =? 0) eqn:E; [apply Z.eqb_eq in E|apply Z.eqb_neq in E].
    + left. repeat split; auto. lia.
    + right. left. repeat split; auto; [lia|].
      destruct (next_at_shape v (Z.of_nat (List.length (v_release v)) - 1 - 1) V) as (r & E' & B); [lia|]. rewrite S in B.
      rewrite E'. exists r. split; auto. replace (List.length (v_release v) - 2)%nat with (Z.to_nat (Z.of_nat (List.length (v_release v)) - 1 - 1)) by lia. exact B.
  - right. right. right. split; auto. destruct (next_at_shape v (Z.of_nat (List.length (v_release v)) - 1) V) as (r & E & B); [lia|].
    rewrite S in B. subst r. now rewrite E.
Qed.

Lemma next_wildcard_lt v : ordinary v -> exists o, next_wildcard_breaking v = Ok o
  /\ match o with
     | None => is_stable v = true /\ v_post v = None /\ (List.length (v_release v) = 1)%nat
     | Some w => v_lt v w = true <-> ~ post_dev v
     end.
Proof.
  intros [V F]. destruct (next_wildcard_shape v V) as [(S & P & L & E)|[(S & P & L & r & E & B)|[(S & P & r & E & B)|(S & E)]]];
    eexists; (split; [exact E|]).
  - cbn. auto.
  - split; [intros _; now apply stable_not_post_dev|intros _]. eapply bumped_lt; [split; auto|exact B].
  - split; [intros _; now apply stable_not_post_dev|intros _]. eapply bumped_lt; [split; auto|exact B].
  - now apply unstable_lt.
Qed.

(** ** Semantic and stable versions *)

Lemma to_semantic_shape v : valid_version v = true ->
  exists r, to_semantic v = Ok (set_release v r) /\ List.length r = 3%nat
    /\ if (3 <? List.length (v_release v))%nat
       then (forall n, part r n = if (n <? 2)%nat then part (v_release v) n
                                  else if (n =? 2)%nat then part (v_release v) 2 + 1 else 0)
       else rel_same r (v_release v).
Proof.
  intros V. destruct (valid_parts v V) as (N & _). unfold to_semantic, rel_to_semantic, rel_has_extra, rel_has_at, rel_is_semantic, rel_precision.
  rewrite len_nat. destruct (TOTAL <? _) eqn:L; unfold TOTAL in *; [apply Z.ltb_lt in L|apply Z.ltb_ge in L].
  - destruct (next_at_spec (v_release v) MICRO N) as (r & E & Nr & Lr & P); [unfold MICRO; lia|].
    unfold rel_next_micro. rewrite E. cbn [bind]. unfold rel_slice. rewrite slice_upto by lia.
    change (Z.to_nat 3) with 3%nat. change (Z.to_nat MICRO) with 2%nat in *.
    assert (Nf : firstn 3 r <> []) by (destruct r; [congruence|discriminate]).
    rewrite release_new_ok by auto. exists (firstn 3 r). split; [reflexivity|]. split; [rewrite firstn_length; lia|].
    destruct (Nat.ltb_spec 3 (List.length (v_release v))); [|lia]. intros n. rewrite part_firstn, P.
    destruct (Nat.ltb_spec n 3), (Nat.ltb_spec n 2), (Nat.eqb_spec n 2); auto; lia.
  - destruct (Nat.ltb_spec 3 (List.length (v_release v))); [lia|].
    destruct (_ =? 3) eqn:E; [apply Z.eqb_eq in E|apply Z.eqb_neq in E].
    + exists (v_release v). split; [reflexivity|]. split; [lia|]. intros n. reflexivity.
    + destruct (pad_release (v_release v) 3 N) as (k & E' & L'). rewrite E'. exists (v_release v ++ repeat 0 k).
      split; [reflexivity|]. rewrite len_nat in L'. split; [lia|]. intros n. apply part_zeros.
Qed.

Lemma set_release_valid v r : valid_version v = true -> r <> [] -> valid_version (set_release v r) = true.
Proof.
  intros V N. destruct (valid_parts v V) as (_ & P & Q & D & L). unfold valid_version. cbn.
  rewrite P, Q, D. destruct r; [congruence|]. destruct (v_local v) as [[|]|]; [congruence|reflexivity..].
Qed.

Lemma to_semantic_spec v : ordinary v -> exists w, to_semantic v = Ok w
  /\ is_semantic w = true /\ v_le v w = true
  /\ ((List.length (v_release v) <= 3)%nat -> v_eq v w = true)
  /\ ((3 < List.length (v_release v))%nat -> v_lt v w = true)
  /\ to_semantic w = Ok w.
Proof.
  intros [V F]. destruct (to_semantic_shape v V) as (r & E & L & B). exists (set_release v r). split; auto.
  assert (Nr : r <> []) by (intros ->; discriminate).
  pose proof (set_release_valid v r V Nr) as Vw. destruct (valid_parts v V) as (N & _).
  assert (SEM : is_semantic (set_release v r) = true).
  { unfold is_semantic, rel_is_semantic, rel_precision. cbn. rewrite len_nat, L. reflexivity. }
  split; auto.
  assert (IDEM : to_semantic (set_release v r) = Ok (set_release v r)).
  { unfold to_semantic, rel_to_semantic, rel_has_extra, rel_has_at, rel_is_semantic, rel_precision. cbn [v_release set_release].
    rewrite len_nat, L. reflexivity. }
  destruct (Nat.ltb_spec 3 (List.length (v_release v))).
  - assert (v_lt v (set_release v r) = true).
    { apply release_lt; [split; auto| |reflexivity|].
      - split; auto. cbn. apply parts_nonneg. intros n. rewrite B. pose proof (part_nonneg _ n F). pose proof (part_nonneg _ 2 F).
        destruct (n <? 2)%nat, (n =? 2)%nat; lia.
      - cbn [v_release set_release]. exists 2%nat. split; [intros m Hm|]; rewrite B.
        + destruct (Nat.ltb_spec m 2); [reflexivity|lia].
        + cbn. lia. }
    repeat split; auto; [|lia]. unfold v_le, v_lt in *. now destruct (v_cmp v _).
  - assert (v_eq v (set_release v r) = true).
    { apply eq_same; auto. repeat split; auto. cbn. intros n. now rewrite B. }
    repeat split; auto; [|lia]. unfold v_le, v_eq in *. now destruct (v_cmp v _).
Qed.

Lemma to_stable_spec v :
  is_stable (to_stable v) = true /\ (is_stable v = true -> to_stable v = v)
  /\ (is_stable v = false -> to_stable v = bare (v_epoch v) (v_release v))
  /\ to_stable (to_stable v) = to_stable v.
Proof.
  split; [apply to_stable_stable|]. split; [unfold to_stable; now intros ->|]. split; [unfold to_stable; now intros ->|].
  unfold to_stable at 1. now rewrite to_stable_stable.
Qed.

(** ** Setting and getting parts *)

Lemma set_at_frame v i x : valid_version v = true -> 0 <= i ->
  exists r, set_at v i x = Ok (set_release v r)
    /\ List.length r = Nat.max (List.length (v_release v)) (S (Z.to_nat i))
    /\ (forall n, part r n = if (n =? Z.to_nat i)%nat then x else part (v_release v) n)
    /\ get_at (set_release v r) i 0 = Ok x
    /\ (forall j, 0 <= j -> j <> i -> get_at (set_release v r) j 0 = get_at v j 0).
Proof.
  intros V H. destruct (valid_parts v V) as (N & _). destruct (set_at_spec (v_release v) i x N H) as (r & E & Nr & L & P).
  exists r. unfold set_at. rewrite E. split; [reflexivity|]. split; auto. split; auto. unfold get_at. cbn [v_release set_release]. split.
  - rewrite get_at_part by auto. now rewrite P, Nat.eqb_refl.
  - intros j Hj NE. rewrite !get_at_part by auto. rewrite P. destruct (Nat.eqb_spec (Z.to_nat j) (Z.to_nat i)); [lia|reflexivity].
Qed.

Lemma next_parts_lt v : ordinary v ->
  (exists w, next_major v = Ok w /\ (v_lt v w = true <-> ~ post_dev v))
  /\ (exists w, next_minor v = Ok w /\ (v_lt v w = true <-> ~ post_dev v))
  /\ (exists w, next_micro v = Ok w /\ (v_lt v w = true <-> ~ post_dev v)).
Proof. intros O. repeat split; apply next_at_lt; auto; discriminate. Qed.

Lemma tag_bump_shapes v : valid_version v = true ->
  (exists t, next_post v = Ok (Version (v_epoch v) (v_release v) (v_pre v) (Some t) None None)
     /\ match v_post v with None => t = Tag (lit "post") 0 | Some u => t = Tag (phase u) (value u + 1) end)
  /\ (exists t, next_pre v = Ok (Version (v_epoch v) (v_release v) (Some t) None None None)
     /\ match v_pre v with None => t = Tag (lit "alpha") 0 | Some u => t = Tag (phase u) (value u + 1) end)
  /\ (exists t, next_dev v = Ok (Version (v_epoch v) (v_release v) (v_pre v) (v_post v) (Some t) None)
     /\ match v_dev v with None => t = Tag (lit "dev") 0 | Some u => t = Tag (phase u) (value u + 1) end)
  /\ match v_pre v with
     | None => next_pre_phase v = Ok (Some (Version (v_epoch v) (v_release v) (Some (Tag (lit "alpha") 0)) None None None))
     | Some t =>
         (phase t = lit "alpha" /\ next_pre_phase v = Ok (Some (Version (v_epoch v) (v_release v) (Some (Tag (lit "beta") 0)) None None None)))
         \/ (phase t = lit "beta" /\ next_pre_phase v = Ok (Some (Version (v_epoch v) (v_release v) (Some (Tag (lit "rc") 0)) None None None)))
         \/ (In (phase t) [lit "candidate"; lit "preview"; lit "rc"] /\ next_pre_phase v = Ok None)
     end.
Proof.
  intros V. split; [now apply next_post_shape|]. split; [now apply next_pre_shape|].
  split; [now apply next_dev_shape|]. now apply next_pre_phase_spec.
Qed.

Lemma breaking_index_spec r : r <> [] ->
  (breaking_index r < Nat.min 3 (List.length r))%nat
  /\ (forall n, (n < breaking_index r)%nat -> part r n = 0)
  /\ (part r (breaking_index r) <> 0 \/ S (breaking_index r) = Nat.min 3 (List.length r)).
Proof.
  intros N. destruct r as [|a [|b [|c r]]]; [congruence| | |]; cbn [breaking_index List.length].
  - split; [lia|]. split; [intros n H; lia|]. right. reflexivity.
  - destruct (a =? 0) eqn:E; [apply Z.eqb_eq in E|apply Z.eqb_neq in E].
    + split; [lia|]. split; [intros [|n] H; [exact E|lia]|]. right. reflexivity.
    + split; [lia|]. split; [intros n H; lia|]. now left.
  - destruct (a =? 0) eqn:E; [apply Z.eqb_eq in E; destruct (b =? 0) eqn:E'; [apply Z.eqb_eq in E'|apply Z.eqb_neq in E']|apply Z.eqb_neq in E].
    + split; [lia|]. split; [intros [|[|n]] H; [exact E|exact E'|lia]|]. right. lia.
    + split; [lia|]. split; [intros [|n] H; [exact E|lia]|]. now left.
    + split; [lia|]. split; [intros n H; lia|]. now left.
Qed.

Lemma post_dev_next_major : exists v w, ordinary v /\ next_major v = Ok w /\ v_lt w v = true.
Proof.
  exists (Version 0 [0; 1] None (Some (Tag (lit "post") 1)) (Some (Tag (lit "dev") 0)) None), (bare 0 [0; 1]).
  split; [split; [reflexivity|repeat constructor; discriminate]|]. now vm_compute.
Qed.

Lemma post_dev_breaking : exists v, ordinary v
  /\ (exists w, next_caret_breaking v = Ok w /\ v_lt w v = true)
  /\ (exists w, next_tilde_breaking v = Ok w /\ v_lt w v = true)
  /\ (exists w, next_wildcard_breaking v = Ok (Some w) /\ v_lt w v = true).
Proof.
  exists (Version 0 [0; 1] None (Some (Tag (lit "post") 1)) (Some (Tag (lit "dev") 0)) None).
  split; [split; [reflexivity|repeat constructor; discriminate]|].
  repeat split; exists (bare 0 [0; 1]); now vm_compute.
Qed.

Lemma update_frame e r p q d l :
  let v := Version e r p q d l in
  (forall x, set_epoch v x = Version x r p q d l) /\ (forall x, set_epoch_value v x = Version x r p q d l)
  /\ (forall x, set_release v x = Version e x p q d l)
  /\ (forall t, with_pre v t = Version e r (Some t) q d l) /\ without_pre v = Version e r None q d l
  /\ (forall t, with_post v t = Version e r p (Some t) d l) /\ without_post v = Version e r p None d l
  /\ (forall t, with_dev v t = Version e r p q (Some t) l) /\ without_dev v = Version e r p q None l
  /\ (forall m, with_local v m = Version e r p q d (Some m)) /\ without_local v = Version e r p q d None
  /\ (forall a b c, with_tags v a b c = Version e r (Some a) (Some b) (Some c) l)
  /\ without_tags v = Version e r None None None l
  /\ (forall a m, with_dev_and_local v a m = Version e r p q (Some a) (Some m))
  /\ without_dev_and_local v = Version e r p q None None
  /\ (forall a b c m, with_tags_and_local v a b c m = Version e r (Some a) (Some b) (Some c) (Some m))
  /\ without_tags_and_local v = Version e r None None None None
  /\ (forall x xs, set_release_parts v (x :: xs) = Ok (Version e (x :: xs) p q d l))
  /\ set_release_parts v [] = Err ValueError
  /\ (forall x xs, set_local_parts v (x :: xs) = Ok (Version e r p q d (Some (x :: xs))))
  /\ set_local_parts v [] = Err ValueError.
Proof. repeat split. Qed.

Lemma set_parts_frame v x : valid_version v = true ->
  (exists r, set_major v x = Ok (set_release v r) /\ part r 0 = x /\ forall n, n <> 0%nat -> part r n = part (v_release v) n)
  /\ (exists r, set_minor v x = Ok (set_release v r) /\ part r 1 = x /\ forall n, n <> 1%nat -> part r n = part (v_release v) n)
  /\ (exists r, set_micro v x = Ok (set_release v r) /\ part r 2 = x /\ forall n, n <> 2%nat -> part r n = part (v_release v) n).
Proof.
  intros V.
  assert (K : forall i, 0 <= i -> exists r, set_at v i x = Ok (set_release v r) /\ part r (Z.to_nat i) = x
            /\ forall n, n <> Z.to_nat i -> part r n = part (v_release v) n).
  { intros i H. destruct (set_at_frame v i x V H) as (r & E & _ & P & _). exists r. split; auto. split.
    - now rewrite P, Nat.eqb_refl.
    - intros n NE. rewrite P. destruct (Nat.eqb_spec n (Z.to_nat i)); [congruence|reflexivity]. }
  split; [exact (K 0 ltac:(lia))|]. split; [exact (K 1 ltac:(lia))|exact (K 2 ltac:(lia))].
Qed.
