(** Between any two versions there is another one, provided the words of
    local segments are words; so sets of cuts can be told apart by versions. *)

From Coq Require Import List ZArith NArith String Bool Lia.
From Verif Require Import Py Segments Version Regex Patterns VersionSets Orders Cuts SetItems SetChains SetOps Spec OrderFacts.
Import ListNotations.
Open Scope Z_scope.

Local Opaque key.

(** ** Words *)

Definition lword (s : pstr) : Prop := forallb is_alnum s = true /\ existsb is_alpha s = true.

Lemma alnum_ge c : is_alnum c = true -> (48 <= c)%N.
Proof.
  unfold is_alnum, is_alpha, is_digit, lower. intros H.
  destruct (N.ltb c 48) eqn:E; [|apply N.ltb_ge in E; exact E]. exfalso. apply N.ltb_lt in E.
  assert (E1 : (65 <=? c)%N = false) by (apply N.leb_gt; lia).
  assert (E2 : (c =? 304)%N = false) by (apply N.eqb_neq; lia).
  assert (E3 : (c =? 305)%N = false) by (apply N.eqb_neq; lia).
  assert (E4 : (c =? 383)%N = false) by (apply N.eqb_neq; lia).
  assert (E5 : (c =? 8490)%N = false) by (apply N.eqb_neq; lia).
  rewrite E1, E2, E3, E4, E5 in H. cbn [andb orb] in H.
  apply orb_true_iff in H as [H|H]; apply andb_true_iff in H as [H1 H2]; apply N.leb_le in H1; lia.
Qed.

Lemma word_below s : lword s -> exists t, lword t /\ dict_before N.lt t s.
Proof.
  intros [A E].
  assert (K : exists k c cs, s = repeat 48%N k ++ c :: cs /\ (48 < c)%N).
  { revert A E. induction s as [|c s IH]; cbn; [discriminate|]. rewrite andb_true_iff, orb_true_iff.
    intros [Ac As] E. pose proof (alnum_ge c Ac). destruct (N.eq_dec c 48) as [->|N].
    - destruct E as [E|E]; [vm_compute in E; discriminate|]. destruct (IH As E) as (k & d & cs & -> & L).
      exists (S k), d, cs. auto.
    - exists O, c, s. split; auto. lia. }
  destruct K as (k & c & cs & -> & L). exists (repeat 48%N k ++ [48; 97]%N). split; [split|].
  - rewrite forallb_app, andb_true_iff. split; [|reflexivity]. clear. induction k; cbn; auto.
  - rewrite existsb_app, orb_true_iff. right. reflexivity.
  - right. exists (repeat 48%N k), 48%N, c, [97%N], cs. auto.
Qed.

(** ** Local segments *)

Definition word_part (p : local_part) : Prop := match p with LInt _ => True | LStr s => lword s end.
Definition word_local (o : option (list local_part)) : Prop :=
  match o with None => True | Some l => l <> [] /\ Forall word_part l end.

Section PartPredicate.
  (* [P] is [word_part], or that with non-negative numbers. *)
  Variable P : local_part -> Prop.
  Hypothesis P_zero : P (LInt 0).
  Hypothesis P_word : forall s, lword s -> P (LStr s).
  Hypothesis P_is : forall s, P (LStr s) -> lword s.

  Lemma list_below b m : Forall P (b :: m) -> exists l, l <> [] /\ Forall P l /\ dict_before part_before l (b :: m).
  Proof.
    intros F. inversion F; subst. destruct m as [|c m].
    - destruct b as [z|s].
      + exists [LStr (lit "a")]. split; [discriminate|]. split; [constructor; auto; apply P_word; now vm_compute|].
        right. exists [], (LStr (lit "a")), (LInt z), [], []. repeat split.
      + destruct (word_below s) as (t & Wt & L); [auto|]. exists [LStr t]. split; [discriminate|].
        split; [constructor; auto|]. right. exists [], (LStr t), (LStr s), [], []. repeat split. exact L.
    - exists [b]. split; [discriminate|]. split; [constructor; auto|]. left. exists c, m. reflexivity.
  Qed.

  Lemma local_dense l m :
    match l with None => True | Some l => Forall P l end ->
    match m with None => True | Some m => m <> [] /\ Forall P m end ->
    local_before l m -> exists k, k <> [] /\ Forall P k /\ local_before l (Some k) /\ local_before (Some k) m.
  Proof.
    intros Fl Fm H. destruct m as [m|]; [|destruct l; contradiction]. destruct Fm as [Nm Fm].
    destruct l as [l|]; cbn in H.
    - destruct H as [(b & m' & ->)|(p & x & y & l' & m' & -> & -> & L)].
      + apply Forall_app in Fm as [_ Fm]. destruct (list_below _ _ Fm) as (k & Nk & Fk & B).
        exists (l ++ k). split; [destruct l, k; cbn; congruence|]. split; [apply Forall_app; auto|]. split.
        * left. destruct k as [|c k]; [congruence|]. exists c, k. reflexivity.
        * cbn. destruct B as [(c & n & ->)|(p & x & y & l' & n & -> & E & L)].
          -- left. exists c, n. rewrite app_assoc. reflexivity.
          -- right. rewrite E. exists (l ++ p), x, y, l', n. rewrite <- !app_assoc. auto.
      + exists ((p ++ x :: l') ++ [LInt 0]). split; [destruct p; discriminate|].
        split; [apply Forall_app; auto|]. split.
        * left. exists (LInt 0), []. reflexivity.
        * right. exists p, x, y, (l' ++ [LInt 0]), m'. rewrite <- app_assoc. auto.
    - destruct m as [|b m]; [congruence|]. destruct (list_below _ _ Fm) as (k & Nk & Fk & B).
      exists k. repeat split; auto.
  Qed.
End PartPredicate.

(** ** Versions *)

Lemma set_local_self v : set_local v (v_local v) = v.
Proof. now destruct v. Qed.

Lemma key_set_local v w : key (without_local v) = key (without_local w) -> key w = key (set_local v (v_local w)).
Proof.
  rewrite !key_fields. cbn. intros (-> & -> & -> & -> & -> & _). repeat split.
Qed.

Lemma dense_versions (P : local_part -> Prop) v w :
  P (LInt 0) -> (forall s, lword s -> P (LStr s)) -> (forall s, P (LStr s) -> lword s) ->
  match v_local v with None => True | Some l => Forall P l end ->
  match v_local w with None => True | Some m => m <> [] /\ Forall P m end ->
  v_lt v w = true -> exists k, k <> [] /\ Forall P k
    /\ v_lt v (set_local v (Some k)) = true /\ v_lt (set_local v (Some k)) w = true.
Proof.
  intros P0 P1 P2 Fv Fw L. destruct (v_eq (without_local v) (without_local w)) eqn:E.
  - apply v_eq_key in E. apply key_set_local in E.
    assert (T : forall u, v_lt u w = v_lt u (set_local v (v_local w))).
    { intros u. unfold v_lt, v_cmp. now rewrite E. }
    rewrite T in L. rewrite <- (set_local_self v) in L at 1. apply local_compare in L.
    destruct (local_dense P P0 P1 P2 _ _ Fv Fw L) as (k & Nk & Fk & B1 & B2).
    exists k. split; [auto|]. split; [auto|]. split.
    + rewrite <- (set_local_self v) at 1. now apply local_compare.
    + rewrite T. now apply local_compare.
  - set (k := match v_local v with None => [] | Some l => l end ++ [LInt 0]).
    exists k. split; [unfold k; destruct (v_local v) as [[]|]; discriminate|].
    split; [apply Forall_app; split; auto; destruct (v_local v); auto|]. split.
    + rewrite <- (set_local_self v) at 1. apply local_compare. unfold k. destruct (v_local v) as [l|]; cbn; auto.
      left. exists (LInt 0), []. reflexivity.
    + change (set_local v (Some k)) with (set_local (without_local v) (Some k)).
      apply local_adjacent; auto.
      destruct (v_local v) as [l|] eqn:EV.
      * destruct total_order as (_ & _ & _ & _ & _ & _ & TR & _). apply TR with v; auto.
        rewrite <- (set_local_self v) at 2. apply local_compare. rewrite EV. exact I.
      * replace (without_local v) with v; auto. rewrite <- (set_local_self v) at 1. now rewrite EV.
Qed.

(** ** From cuts to versions *)

Lemma dens_dec xs c : dens xs c \/ ~ dens xs c.
Proof.
  induction xs as [|x xs [IH|IH]].
  - right. intros (y & [] & _).
  - left. apply dens_cons. auto.
  - rewrite dens_cons. unfold den.
    destruct (clt_cle_dec c (lo x)) as [X|X]; [right; intros [[Y _]|Y]; [corder|auto]|].
    destruct (clt_cle_dec c (hi x)) as [Z|Z]; [auto|]. right. intros [[_ Y]|Y]; [corder|auto].
Qed.
Lemma dset_dec a c : dset a c \/ ~ dset a c.
Proof. apply dens_dec. Qed.

Section Good.
  Variable good : version -> Prop.
  Hypothesis good_some : exists u, good u.
  Hypothesis good_above : forall v, good v -> exists u, good u /\ v_lt v u = true.
  Hypothesis good_between : forall v w, good v -> good w -> v_lt v w = true ->
    exists u, good u /\ v_lt v u = true /\ v_lt u w = true.

  Definition floor (v : version) : Prop := exists u, good u /\ v_lt u v = true.

  Definition good_cut (c : cut) : Prop :=
    match c with
    | NegInf | PosInf => True
    | Fin (k, b) => exists v, k = key v /\ good v /\ (b = false -> floor v)
    end.

  Lemma v_lt_key v w : v_lt v w = true <-> key_cmp (key v) (key w) = Lt.
  Proof. unfold v_lt, v_cmp. destruct (key_cmp (key v) (key w)); split; discriminate || auto. Qed.

  Lemma gap L H : good_cut L -> good_cut H -> clt L H ->
    exists u, good u /\ cle L (at_version u) /\ clt (at_version u) H.
  Proof.
    intros GL GH LH. destruct H as [|[kh bh]|]; [destruct L as [|[? ?]|]; discriminate| |].
    - destruct GH as (w & -> & Gw & Fw). destruct L as [|[kl bl]|]; [| |discriminate].
      + destruct bh.
        * exists w. split; auto. split; [apply cneg_le|]. apply cut_step, cle_refl.
        * destruct (Fw eq_refl) as (u & Gu & L). exists u. split; auto. split; [apply cneg_le|].
          apply v_lt_key in L. now apply key_lt_cut.
      + destruct GL as (v & -> & Gv & _). destruct bl.
        * destruct (key_cmp (key v) (key w)) eqn:E.
          -- apply (cmp_eq lawful_key) in E. rewrite E in LH. exfalso.
             destruct bh; [eapply clt_irrefl; exact LH|]. apply (clt_irrefl (Fin (key w, false))).
             eapply clt_trans; [|exact LH]. apply cut_step, cle_refl.
          -- destruct bh.
             ++ exists w. split; auto. split; [|apply cut_step, cle_refl].
                apply cut_step'. now apply key_lt_cut.
             ++ destruct (good_between v w Gv Gw) as (u & Gu & L1 & L2); [now apply v_lt_key|].
                apply v_lt_key in L1, L2. exists u. split; auto. split; [apply cut_step'|]; now apply key_lt_cut.
          -- exfalso. apply (cmp_gt_lt lawful_key) in E.
             apply (clt_irrefl (Fin (key v, true))). eapply clt_trans; [exact LH|]. now apply key_lt_cut.
        * exists v. split; auto. split; [apply cle_refl|exact LH].
    - destruct L as [|[kl bl]|]; [| |discriminate].
      + destruct good_some as (u & Gu). exists u. split; auto. split; [apply cneg_le|apply cpos_gt].
      + destruct GL as (v & -> & Gv & _). destruct (good_above v Gv) as (u & Gu & L). apply v_lt_key in L.
        exists u. split; auto. split; [|apply cpos_gt]. apply clt_le. now apply key_lt_cut.
  Qed.

  Definition good_ends (x : item) : Prop := good_cut (lo x) /\ good_cut (hi x).

  Lemma witness ys : forall L H c,
    Forall good_ends ys -> good_cut L -> good_cut H -> cle L c -> clt c H -> ~ dens ys c ->
    exists u, good u /\ cle L (at_version u) /\ clt (at_version u) H /\ ~ dens ys (at_version u).
  Proof.
    induction ys as [|y ys IH]; intros L H c F GL GH HL HH N.
    - destruct (gap L H GL GH) as (u & Gu & U1 & U2); [corder|].
      exists u. repeat split; auto. intros (x & [] & _).
    - inversion F as [|? ? [Gl Gh] F']; subst. rewrite dens_cons in N.
      assert (N1 : ~ den y c) by tauto. assert (N2 : ~ dens ys c) by tauto.
      destruct (clt_cle_dec c (lo y)) as [C|C].
      + destruct (IH L (cmin H (lo y)) c) as (u & Gu & U1 & U2 & U3); auto.
        * destruct (cmin_spec H (lo y)) as [[_ E]|[_ E]]; now rewrite E.
        * destruct (cmin_spec H (lo y)) as [[_ E]|[_ E]]; now rewrite E.
        * exists u. split; auto. split; auto. split; [cminmax; corder|].
          rewrite dens_cons. intros [[D1 D2]|D]; auto. cminmax; corder.
      + destruct (clt_cle_dec c (hi y)) as [C'|C']; [exfalso; apply N1; split; auto|].
        destruct (IH (cmax L (hi y)) H c) as (u & Gu & U1 & U2 & U3); auto.
        * destruct (cmax_spec L (hi y)) as [[_ E]|[_ E]]; now rewrite E.
        * destruct (cmax_spec L (hi y)) as [[_ E]|[_ E]]; now rewrite E.
        * exists u. split; auto. split; [cminmax; corder|]. split; auto.
          rewrite dens_cons. intros [[D1 D2]|D]; auto. cminmax; corder.
  Qed.

  Definition good_set (a : vset) : Prop := Forall good_ends (extract a).

  Lemma witness_sets a b c : good_set a -> good_set b -> dset a c -> ~ dset b c ->
    exists u, good u /\ dset a (at_version u) /\ ~ dset b (at_version u).
  Proof.
    intros Ga Gb (x & Ix & D1 & D2) N.
    pose proof (proj1 (Forall_forall _ _) Ga x Ix) as [G1 G2].
    destruct (witness (extract b) (lo x) (hi x) c Gb G1 G2 D1 D2 N) as (u & Gu & U1 & U2 & U3).
    exists u. split; auto. split; auto. exists x. split; auto. split; auto.
  Qed.

  Lemma witness_both a b c : good_set a -> good_set b -> dset a c -> dset b c ->
    exists u, good u /\ dset a (at_version u) /\ dset b (at_version u).
  Proof.
    intros Ga Gb (x & Ix & D1 & D2) (y & Iy & E1 & E2).
    pose proof (proj1 (Forall_forall _ _) Ga x Ix) as [G1 G2].
    pose proof (proj1 (Forall_forall _ _) Gb y Iy) as [H1 H2].
    destruct (gap (cmax (lo x) (lo y)) (cmin (hi x) (hi y))) as (u & Gu & U1 & U2).
    - destruct (cmax_spec (lo x) (lo y)) as [[_ E]|[_ E]]; now rewrite E.
    - destruct (cmin_spec (hi x) (hi y)) as [[_ E]|[_ E]]; now rewrite E.
    - cminmax; corder.
    - exists u. split; auto. split; [exists x|exists y]; (split; [assumption|]); split; cminmax; corder.
  Qed.

  Lemma includes_good a b : canon a -> canon b -> good_set a -> good_set b ->
    includes a b = true <-> forall v, good v -> contains b v = true -> contains a v = true.
  Proof.
    intros Ca Cb Ga Gb. rewrite (includes_spec a b Ca Cb). split.
    - intros H v _. rewrite !contains_iff by assumption. apply H.
    - intros H c Dc. destruct (dset_dec a c) as [D|D]; auto.
      destruct (witness_sets b a c Gb Ga Dc D) as (u & Gu & U1 & U2). exfalso. apply U2.
      apply contains_iff; auto. apply H; auto. now apply contains_iff.
  Qed.

  Lemma intersects_good a b : canon a -> canon b -> good_set a -> good_set b ->
    intersects a b = true <-> exists v, good v /\ contains a v = true /\ contains b v = true.
  Proof.
    intros Ca Cb Ga Gb. rewrite (intersects_spec a b Ca Cb). split.
    - intros (c & Da & Db). destruct (witness_both a b c Ga Gb Da Db) as (u & Gu & U1 & U2).
      exists u. rewrite !contains_iff by assumption. auto.
    - intros (v & _ & H1 & H2). exists (at_version v). rewrite contains_iff in H1, H2 by assumption. auto.
  Qed.

  Lemma equal_good a b : canon a -> canon b -> good_set a -> good_set b ->
    set_eqb a b = true <-> forall v, good v -> contains a v = contains b v.
  Proof.
    intros Ca Cb Ga Gb. rewrite (set_eqb_iff a b Ca Cb). split.
    - intros H v _. apply eq_true_iff_eq. rewrite !contains_iff by assumption. apply H.
    - intros H c. destruct (dset_dec a c) as [Da|Da], (dset_dec b c) as [Db|Db]; try tauto; exfalso.
      + destruct (witness_sets a b c Ga Gb Da Db) as (u & Gu & U1 & U2). apply U2.
        apply contains_iff; auto. rewrite <- H; auto. now apply contains_iff.
      + destruct (witness_sets b a c Gb Ga Db Da) as (u & Gu & U1 & U2). apply U2.
        apply contains_iff; auto. rewrite H; auto. now apply contains_iff.
  Qed.

  Lemma empty_good a : canon a -> good_set a ->
    is_empty a = true <-> forall v, good v -> contains a v = false.
  Proof.
    intros Ca Ga. assert (E : is_empty a = set_eqb a Empty).
    { destruct a as [|i|xs]; auto. cbn. now apply item_is_empty_proper. }
    rewrite E, equal_good; auto; [now cbn|now cbn|constructor].
  Qed.

  Lemma universal_good a : canon a -> good_set a ->
    is_universal a = true <-> forall v, good v -> contains a v = true.
  Proof.
    intros Ca Ga. assert (E : is_universal a = set_eqb a UNIVERSAL_SET).
    { destruct a as [|[v|[m|] [M|] [] []]|xs]; auto; cbn in Ca; destruct Ca as (C1 & C2 & _); auto;
        try (specialize (C1 eq_refl); discriminate); try (specialize (C2 eq_refl); discriminate). }
    rewrite E, equal_good; auto; [|exact canon_universal|constructor; [split; exact I|constructor]].
    assert (U : forall v, contains UNIVERSAL_SET v = true) by reflexivity.
    split; intros H v Gv; specialize (H v Gv); rewrite ?U in *; auto.
  Qed.
End Good.
