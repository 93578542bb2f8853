(** Proofs about groups of specifiers. *)

From Coq Require Import List ZArith Bool Lia.
From Verif Require Import Py Segments Version Operators Specifiers Spec SpecifierFacts SpecMeaning Groups.
Import ListNotations.

Lemma check_ok ss : check_specifiers ss = if (2 <=? List.length ss)%nat then Ok tt else Err TypeError.
Proof. destruct ss as [|s [|u ss]]; try reflexivity. unfold check_specifiers. destruct (Z.eqb_spec (Z.of_nat (List.length (s :: u :: ss))) 1) as [E|_]; [cbn [List.length] in E; lia|reflexivity]. Qed.

Lemma any_new_ok ss : any_new ss = if (2 <=? List.length ss)%nat then Ok (AnyOf ss) else Err TypeError.
Proof. unfold any_new. rewrite check_ok. now destruct (2 <=? List.length ss)%nat. Qed.

Lemma all_new_ok ss : all_new ss = if (2 <=? List.length ss)%nat then Ok (AllOf ss) else Err TypeError.
Proof. unfold all_new. rewrite check_ok. now destruct (2 <=? List.length ss)%nat. Qed.

Lemma any_of_ok ss : any_of_specifiers ss = Ok (any_of ss).
Proof.
  destruct ss as [|s [|u ss]]; try reflexivity. unfold any_of_specifiers. rewrite any_new_ok. destruct (Z.eqb_spec (Z.of_nat (List.length (s :: u :: ss))) 1) as [E|_]; [cbn [List.length] in E; lia|reflexivity].
Qed.

Lemma all_of_ok ss : all_of_specifiers ss = Ok (all_of ss).
Proof.
  destruct ss as [|s [|u ss]]; try reflexivity. unfold all_of_specifiers. rewrite all_new_ok. destruct (Z.eqb_spec (Z.of_nat (List.length (s :: u :: ss))) 1) as [E|_]; [cbn [List.length] in E; lia|reflexivity].
Qed.

Lemma any_of_made ss : Forall spec_made ss -> spec_made (any_of ss).
Proof. intros F. destruct F as [|s ss S F]; [exact I|]. destruct F as [|u ss U F]; [exact S|]. apply made_any. split; [cbn; lia|auto]. Qed.

Lemma all_of_made ss : Forall spec_made ss -> spec_made (all_of ss).
Proof. intros F. destruct F as [|s ss S F]; [exact I|]. destruct F as [|u ss U F]; [exact S|]. apply made_all. split; [cbn; lia|auto]. Qed.

Lemma any_of_sat ss v : sat (any_of ss) v <-> exists s, In s ss /\ sat s v.
Proof.
  rewrite <- Exists_exists. destruct ss as [|s [|u ss]].
  - cbn. now rewrite Exists_nil.
  - cbn [any_of]. rewrite Exists_cons, Exists_nil. tauto.
  - cbn [any_of]. apply sat_any.
Qed.

Lemma all_of_sat ss v : sat (all_of ss) v <-> forall s, In s ss -> sat s v.
Proof.
  rewrite <- Forall_forall. destruct ss as [|s [|u ss]].
  - cbn. split; constructor.
  - cbn [all_of]. rewrite Forall_cons_iff. intuition constructor.
  - cbn [all_of]. apply sat_all.
Qed.

(** Specifiers that accept the same versions. *)
Lemma accepts_same s u v : spec_made s -> spec_made u -> (sat s v <-> sat u v) -> accepts s v = accepts u v.
Proof.
  intros S U E. destruct (accepts_sat s v S) as (b & -> & B), (accepts_sat u v U) as (c & -> & C). f_equal. destruct b, c; auto; exfalso.
  - assert (X : false = true) by (apply C, E, B; reflexivity). discriminate X.
  - assert (X : false = true) by (apply B, E, C; reflexivity). discriminate X.
Qed.

Theorem any_of_accepts ss s v : Forall spec_made ss -> any_of_specifiers ss = Ok s ->
  spec_made s /\ exists b, accepts s v = Ok b /\ (b = true <-> exists u, In u ss /\ accepts u v = Ok true).
Proof.
  intros M E. rewrite any_of_ok in E. injection E as <-. split; [now apply any_of_made|]. destruct (accepts_sat _ v (any_of_made ss M)) as (b & B & H). exists b. split; [exact B|].
  rewrite H, any_of_sat. rewrite Forall_forall in M. split; intros (u & I & S); exists u; (split; [exact I|]); now apply accepts_iff; auto.
Qed.

Theorem all_of_accepts ss s v : Forall spec_made ss -> all_of_specifiers ss = Ok s ->
  spec_made s /\ exists b, accepts s v = Ok b /\ (b = true <-> forall u, In u ss -> accepts u v = Ok true).
Proof.
  intros M E. rewrite all_of_ok in E. injection E as <-. split; [now apply all_of_made|]. destruct (accepts_sat _ v (all_of_made ss M)) as (b & B & H). exists b. split; [exact B|].
  rewrite H, all_of_sat. rewrite Forall_forall in M. split; intros S u I; now apply accepts_iff; auto.
Qed.

(** Order, repetitions and nesting. *)
Theorem groups_same ss us v : Forall spec_made ss -> Forall spec_made us -> (forall s, In s ss <-> In s us) ->
  accepts (any_of ss) v = accepts (any_of us) v /\ accepts (all_of ss) v = accepts (all_of us) v.
Proof.
  intros M N E. split; apply accepts_same; auto using any_of_made, all_of_made.
  - rewrite !any_of_sat. split; intros (s & I & S); exists s; (split; [now apply E|exact S]).
  - rewrite !all_of_sat. split; intros H s I; apply H; now apply E.
Qed.

Theorem groups_nested sss v : Forall (Forall spec_made) sss ->
  accepts (any_of (map any_of sss)) v = accepts (any_of (List.concat sss)) v /\ accepts (all_of (map all_of sss)) v = accepts (all_of (List.concat sss)) v.
Proof.
  intros M. assert (C : Forall spec_made (List.concat sss)) by (apply Forall_concat; exact M).
  assert (A : Forall spec_made (map any_of sss)) by (apply Forall_map; eapply Forall_impl; [exact any_of_made|exact M]).
  assert (B : Forall spec_made (map all_of sss)) by (apply Forall_map; eapply Forall_impl; [exact all_of_made|exact M]).
  split; apply accepts_same; auto using any_of_made, all_of_made.
  - rewrite !any_of_sat. split.
    + intros (s & I & S). apply in_map_iff in I as (ss & <- & I). apply any_of_sat in S as (s & J & S). exists s. split; [apply in_concat; eauto|exact S].
    + intros (s & I & S). apply in_concat in I as (ss & I & J). exists (any_of ss). split; [now apply in_map|]. apply any_of_sat. eauto.
  - rewrite !all_of_sat. split.
    + intros H s I. apply in_concat in I as (ss & I & J). assert (K := H (all_of ss) (in_map all_of _ _ I)). rewrite all_of_sat in K. auto.
    + intros H s I. apply in_map_iff in I as (ss & <- & I). apply all_of_sat. intros s J. apply H. apply in_concat. eauto.
Qed.

Theorem groups_distribute s us v : spec_made s -> Forall spec_made us ->
  accepts (all_of [s; any_of us]) v = accepts (any_of (map (fun u => all_of [s; u]) us)) v
  /\ accepts (any_of [s; all_of us]) v = accepts (all_of (map (fun u => any_of [s; u]) us)) v.
Proof.
  intros S M. assert (M' := M). rewrite Forall_forall in M'.
  assert (X : Forall spec_made (map (fun u => all_of [s; u]) us)) by (apply Forall_map, Forall_forall; intros u I; apply all_of_made; auto).
  assert (Y : Forall spec_made (map (fun u => any_of [s; u]) us)) by (apply Forall_map, Forall_forall; intros u I; apply any_of_made; auto).
  assert (T : forall a b v, (sat (all_of [a; b]) v <-> sat a v /\ sat b v) /\ (sat (any_of [a; b]) v <-> sat a v \/ sat b v)).
  { intros a b w. cbn [all_of any_of]. rewrite sat_all, sat_any, !Forall_cons_iff, !Exists_cons, Exists_nil. intuition constructor. }
  split; apply accepts_same; auto using any_of_made, all_of_made.
  - destruct (T s (any_of us) v) as [-> _]. rewrite !any_of_sat. split.
    + intros (A & u & I & U). exists (all_of [s; u]). split; [exact (in_map (fun u => all_of [s; u]) _ _ I)|]. destruct (T s u v) as [-> _]. auto.
    + intros (w & I & W). apply in_map_iff in I as (u & <- & I). destruct (T s u v) as [E _]. apply E in W as [A U]. split; [exact A|]. eauto.
  - destruct (T s (all_of us) v) as [_ ->]. rewrite !all_of_sat. split.
    + intros H w I. apply in_map_iff in I as (u & <- & I). destruct (T s u v) as [_ ->]. destruct H as [H|H]; auto.
    + intros H. destruct (accepts_sat s v S) as (b & _ & B). destruct b; [left; now apply B|]. right. intros u I. specialize (H (any_of [s; u]) (in_map (fun u => any_of [s; u]) _ _ I)).
      destruct (T s u v) as [_ E]. apply E in H as [H|H]; [apply B in H; discriminate H|exact H].
Qed.
