(** Which error the parser of specifications raises: that of the first clause
    that is not one. *)

From Coq Require Import List ZArith NArith String Bool Lia.
From Verif Require Import Py Segments Version VersionSets Operators Specifiers Parsers Grammar Spec Clauses ParseFacts ClauseFacts SpecText SpecParse PythonFacts.
Import ListNotations.
Open Scope N_scope.

(** ** Clauses in order *)

Definition flat (s : pstr) : list pstr := List.concat (map (split_on 44) (split_pipes s)).

Definition push (x : N) (l : list pstr) : list pstr := match l with [] => [[x]] | w :: ws => (x :: w) :: ws end.

Lemma split_push a x s : x <> a -> split_on a (x :: s) = push x (split_on a s).
Proof. intros N. apply N.eqb_neq in N. cbn [split_on]. rewrite N. now destruct (split_on a s). Qed.

Lemma pipes_other x s : x <> 124 -> split_pipes (x :: s) = push x (split_pipes s).
Proof. intros N. unfold split_pipes. rewrite double_other by exact N. now apply split_push. Qed.

Lemma pipes_two s : split_pipes (124 :: 124 :: s) = [] :: split_pipes s.
Proof. reflexivity. Qed.

Lemma pipes_one s : (forall r, s <> 124 :: r) -> split_pipes (124 :: s) = [] :: split_pipes s.
Proof.
  intros D. unfold split_pipes. change (124 :: s) with (repeat 124 1 ++ s). rewrite double_run by exact D. reflexivity.
Qed.

Lemma split_pipes_some s : exists w ws, split_pipes s = w :: ws.
Proof. destruct (alternatives_split s) as (c & cs & E & _). eauto. Qed.

Lemma flat_nil : flat [] = [[]].
Proof. reflexivity. Qed.

Lemma flat_two s : flat (124 :: 124 :: s) = [] :: flat s.
Proof. unfold flat. now rewrite pipes_two. Qed.

Lemma flat_one s : (forall r, s <> 124 :: r) -> flat (124 :: s) = [] :: flat s.
Proof. intros D. unfold flat. now rewrite pipes_one. Qed.

Lemma flat_comma s : flat (44 :: s) = [] :: flat s.
Proof.
  unfold flat. rewrite pipes_other by discriminate. destruct (split_pipes_some s) as (w & ws & ->). reflexivity.
Qed.

Lemma flat_other x s : x <> 44 -> x <> 124 -> flat (x :: s) = push x (flat s).
Proof.
  intros C P. unfold flat. rewrite pipes_other by exact P. destruct (split_pipes_some s) as (w & ws & ->). cbn [push map List.concat].
  rewrite split_push by exact C. destruct (conjuncts_split w) as (c & cs & E & _). now rewrite E.
Qed.

Lemma flat_pipe s : exists q, flat (124 :: s) = [] :: q.
Proof.
  destruct s as [|x s]; [eexists; reflexivity|]. destruct (N.eq_dec x 124) as [->|D]; [rewrite flat_two; eauto|]. rewrite flat_one; eauto. congruence.
Qed.

Lemma flat_some s : exists w ws, flat s = w :: ws.
Proof.
  destruct s as [|x s]; [rewrite flat_nil; eauto|]. destruct (N.eq_dec x 124) as [->|P]; [destruct (flat_pipe s) as [q ->]; eauto|].
  destruct (N.eq_dec x 44) as [->|C]; [rewrite flat_comma; eauto|]. rewrite flat_other by assumption. destruct (flat s); cbn [push]; eauto.
Qed.

Lemma push_app x l q : l <> [] -> push x (l ++ q) = push x l ++ q.
Proof. now destruct l. Qed.

Definition no_end (a : pstr) : Prop := forall r, a <> r ++ [124].

Lemma no_end_tail x a : no_end (x :: a) -> no_end a.
Proof. intros H r ->. now apply (H (x :: r)). Qed.

Lemma flat_app t q : flat t = [] :: q -> forall n a, (List.length a <= n)%nat -> (no_end a \/ forall r, t <> 124 :: r) -> flat (a ++ t) = flat a ++ q.
Proof.
  intros T. induction n as [|n IH]; intros a L H.
  { destruct a; [|cbn in L; lia]. rewrite flat_nil. exact T. }
  destruct a as [|x a]; [rewrite flat_nil; exact T|]. cbn [List.length] in L. cbn [app].
  assert (G : no_end a \/ forall r, t <> 124 :: r) by (destruct H as [H|H]; [left; now apply no_end_tail in H|now right]).
  destruct (N.eq_dec x 124) as [->|P]; [|destruct (N.eq_dec x 44) as [->|C]].
  - destruct a as [|y a].
    + assert (D : forall r, t <> 124 :: r) by (destruct H as [H|H]; [now destruct (H [])|exact H]).
      cbn [app]. rewrite flat_one by exact D. rewrite T. reflexivity.
    + cbn [app]. destruct (N.eq_dec y 124) as [->|Y].
      * rewrite !flat_two. cbn [app]. f_equal. apply IH; [cbn [List.length] in L; lia|].
        destruct G as [G|G]; [left; now apply no_end_tail in G|now right].
      * rewrite !flat_one by congruence. change (y :: a ++ t) with ((y :: a) ++ t). rewrite IH by (auto; lia). reflexivity.
  - rewrite !flat_comma. rewrite IH by (auto; lia). reflexivity.
  - rewrite !flat_other by assumption. rewrite IH by (auto; lia). apply push_app. destruct (flat_some a) as (w & ws & ->). discriminate.
Qed.

Lemma flat_end n : forall r, (List.length r <= n)%nat -> exists q, q <> [] /\ flat (r ++ [124]) = q ++ [[]].
Proof.
  induction n as [|n IH]; intros r L.
  { destruct r; [|cbn in L; lia]. exists [[]]. split; [discriminate|reflexivity]. }
  destruct r as [|x r]; [exists [[]]; split; [discriminate|reflexivity]|]. cbn [List.length] in L. cbn [app].
  destruct (N.eq_dec x 124) as [->|P]; [|destruct (N.eq_dec x 44) as [->|C]].
  - destruct r as [|y r]; [exists [[]]; split; [discriminate|reflexivity]|]. cbn [app]. destruct (N.eq_dec y 124) as [->|Y].
    + rewrite flat_two. cbn [List.length] in L. destruct (IH r) as (q & _ & ->); [lia|]. exists ([] :: q). split; [discriminate|reflexivity].
    + rewrite flat_one by congruence. destruct (IH (y :: r)) as (q & _ & E); [lia|]. cbn [app] in E. rewrite E. exists ([] :: q). split; [discriminate|reflexivity].
  - rewrite flat_comma. destruct (IH r) as (q & _ & ->); [lia|]. exists ([] :: q). split; [discriminate|reflexivity].
  - rewrite flat_other by assumption. destruct (IH r) as (q & Q & ->); [lia|]. destruct q as [|w q]; [now destruct Q|]. exists ((x :: w) :: q). split; [discriminate|reflexivity].
Qed.

Lemma ends_well a : ~ In [] (flat a) -> no_end a.
Proof.
  intros N r ->. destruct (flat_end _ r (le_n _)) as (q & _ & E). apply N. rewrite E. apply in_app_iff. right. now left.
Qed.

Definition solid_text (c : pstr) : Prop := Forall (fun x => x <> 44 /\ x <> 124) c.

Lemma flat_clause c : solid_text c -> forall b, right_edge b -> exists q, flat (c ++ b) = c :: q.
Proof.
  intros S. induction S as [|x c [X Y] S IH]; intros b B; cbn [app].
  - destruct B as [->|(x & r & -> & [->| ->])]; [rewrite flat_nil|rewrite flat_comma|destruct (flat_pipe r) as [q ->]]; eauto.
  - rewrite flat_other by assumption. destruct (IH b B) as [q ->]. cbn [push]. eauto.
Qed.

Lemma flat_only c : solid_text c -> flat c = [c].
Proof.
  intros S. induction S as [|x c [X Y] S IH]; [reflexivity|]. rewrite flat_other by assumption. now rewrite IH.
Qed.

(** The separators of clauses; one pipe may not be the first of two. *)
Definition separates (sep r : pstr) : Prop :=
  sep = [44] \/ sep = [124; 124] \/ (sep = [124] /\ forall q, r <> 124 :: q).

Lemma flat_sep sep r : separates sep r -> flat (sep ++ r) = [] :: flat r.
Proof. intros [->|[->|[-> D]]]; cbn [app]; [apply flat_comma|apply flat_two|now apply flat_one]. Qed.

Lemma flat_head s : exists c, solid_text c /\ ((s = c /\ flat s = [c]) \/ exists sep r, s = c ++ sep ++ r /\ separates sep r /\ flat s = c :: flat r).
Proof.
  induction s as [|x s (c & S & IH)]; [exists []; split; [constructor|left; split; reflexivity]|].
  destruct (N.eq_dec x 124) as [->|P]; [|destruct (N.eq_dec x 44) as [->|C]].
  - exists []. split; [constructor|]. right. destruct s as [|y s]; [|destruct (N.eq_dec y 124) as [->|Y]].
    + exists [124], []. split; [reflexivity|]. split; [|reflexivity]. right. right. split; [reflexivity|discriminate].
    + exists [124; 124], s. split; [reflexivity|]. split; [right; now left|apply flat_two].
    + exists [124], (y :: s). split; [reflexivity|]. split; [right; right; split; congruence|]. apply flat_one. congruence.
  - exists []. split; [constructor|]. right. exists [44], s. split; [reflexivity|]. split; [now left|apply flat_comma].
  - exists (x :: c). split; [now constructor|]. rewrite flat_other by assumption. destruct IH as [[-> E]|(sep & r & -> & D & E)].
    + left. split; [reflexivity|]. now rewrite E.
    + right. exists sep, r. split; [reflexivity|]. split; [exact D|]. now rewrite E.
Qed.

Lemma separated_edge sep r : separates sep r -> right_edge (sep ++ r).
Proof. intros [->|[->|[-> _]]]; right; cbn [app]; eauto. Qed.

Lemma flat_find pre : Forall (fun c => c <> []) pre -> forall s c post, flat s = pre ++ c :: post -> solid_text c /\ exists b, right_edge b
  /\ ((pre = [] /\ s = c ++ b) \/ exists a sep, s = a ++ sep ++ c ++ b /\ flat a = pre /\ separates sep (c ++ b)).
Proof.
  induction 1 as [|c1 pre N F IH]; intros s c post E; destruct (flat_head s) as (d & S & H).
  - destruct H as [[-> E']|(sep & r & -> & D & E')]; rewrite E' in E; injection E as -> E.
    + split; [exact S|]. exists []. split; [now left|]. left. split; [reflexivity|]. now rewrite app_nil_r.
    + split; [exact S|]. exists (sep ++ r). split; [now apply separated_edge|]. left. split; reflexivity.
  - destruct H as [[-> E']|(sep & r & -> & D & E')]; rewrite E' in E; injection E as -> E; [destruct pre; discriminate|].
    destruct (IH r c post E) as (SC & b & B & K). split; [exact SC|]. exists b. split; [exact B|]. right.
    destruct K as [[-> ->]|(a & sep' & -> & A & D')].
    + exists c1, sep. split; [reflexivity|]. split; [now apply flat_only|exact D].
    + assert (G : separates sep a).
      { destruct D as [D|[D|[D Q]]]; [now left|right; now left|]. right. right. split; [exact D|]. intros q ->.
        destruct (flat_pipe q) as [x X]. rewrite X in A. subst pre. now inversion F. }
      exists (c1 ++ sep ++ a), sep'. split; [now rewrite <- !app_assoc|]. split; [|exact D'].
      rewrite (flat_app _ (flat a) (flat_sep sep a G) (List.length c1) c1 (le_n _)).
      * rewrite (flat_only c1 S), A. reflexivity.
      * left. intros q ->. apply Forall_app in S as [_ S]. inversion S as [|? ? [_ K] _]. now destruct K.
Qed.

(** ** The parser on clauses in order *)

Definition parses (c : pstr) : Prop := exists p, parse_single c = Ok p.

Lemma mapM_all {A B} (f : A -> result B) xs : (exists ys, mapM f xs = Ok ys) <-> Forall (fun x => exists y, f x = Ok y) xs.
Proof.
  split.
  - intros (ys & H). apply mapM_ok in H. induction H; constructor; eauto.
  - intros H. induction H as [|x xs (y & E) F (ys & IH)]; [exists []; reflexivity|]. exists (y :: ys). cbn [mapM]. now rewrite E, IH.
Qed.

Lemma mapM_first {A B} (f : A -> result B) xs e : mapM f xs = Err e <-> exists a x b, xs = a ++ x :: b /\ Forall (fun x => exists y, f x = Ok y) a /\ f x = Err e.
Proof.
  rewrite mapM_err. split.
  - intros (a & x & b & ys & E & F & H). exists a, x, b. split; [exact E|]. split; [|exact H]. apply mapM_all. exists ys. now apply mapM_ok.
  - intros (a & x & b & E & F & H). apply mapM_all in F as (ys & F). exists a, x, b, ys. split; [exact E|]. split; [now apply mapM_ok|exact H].
Qed.

Lemma all_ok_iff w : (exists p, parse_all w = Ok p) <-> Forall parses (split_on 44 w).
Proof.
  unfold parses. rewrite <- mapM_all. unfold parse_all. destruct (mapM parse_single (split_on 44 w)) as [ps|e]; cbn [bind]; split; intros (x & H); try discriminate; eauto.
Qed.

Lemma all_err_iff w e : parse_all w = Err e <-> exists a c b, split_on 44 w = a ++ c :: b /\ Forall parses a /\ parse_single c = Err e.
Proof.
  unfold parse_all, parses. rewrite <- mapM_first. destruct (mapM parse_single (split_on 44 w)) as [ps|e']; cbn [bind]; split; intros H; try discriminate; congruence.
Qed.

Lemma any_ok_iff s : (exists p, parse_any s = Ok p) <-> Forall parses (flat s).
Proof.
  unfold flat. rewrite Forall_concat, Forall_map. unfold parse_any.
  assert (X : (exists p, (let* ss := mapM parse_all (split_pipes s) in Ok (any_of ss)) = Ok p) <-> exists ss, mapM parse_all (split_pipes s) = Ok ss).
  { destruct (mapM parse_all (split_pipes s)); cbn [bind]; split; intros (x & H); try discriminate; eauto. }
  rewrite X, mapM_all. split; intros F; (eapply Forall_impl; [|exact F]); intros w; apply all_ok_iff.
Qed.

Lemma first_in_concat {A} (Q R : A -> Prop) (xss : list (list A)) : (forall x, Q x -> R x -> False) ->
  (exists a x b, List.concat xss = a ++ x :: b /\ Forall Q a /\ R x) <->
  exists ass xs bss, xss = ass ++ xs :: bss /\ Forall (Forall Q) ass /\ exists a x b, xs = a ++ x :: b /\ Forall Q a /\ R x.
Proof.
  intros D. split.
  - induction xss as [|xs xss IH]; intros (a & x & b & E & F & H); [now destruct a|]. cbn [List.concat] in E.
    destruct (app_eq_app _ _ _ _ E) as (l & [[-> E']|[-> E']]).
    + destruct l as [|y l].
      * cbn [app] in E'. destruct IH as (ass & ys & bss & -> & FA & K); [exists [], x, b; repeat split; auto|].
        exists ((a ++ []) :: ass), ys, bss. split; [reflexivity|]. split; [constructor; [rewrite app_nil_r; exact F|exact FA]|exact K].
      * injection E' as <- E'. exists [], (a ++ x :: l), xss. split; [reflexivity|]. split; [constructor|]. exists a, x, l. auto.
    + apply Forall_app in F as [F1 F2]. destruct IH as (ass & ys & bss & -> & FA & K); [exists l, x, b; auto|].
      exists (xs :: ass), ys, bss. split; [reflexivity|]. split; [now constructor|exact K].
  - intros (ass & xs & bss & -> & FA & a & x & b & -> & F & H). exists (List.concat ass ++ a), x, (b ++ List.concat bss).
    split; [rewrite concat_app; cbn [List.concat]; now rewrite <- !app_assoc|]. split; [|exact H]. apply Forall_app. split; [|exact F]. now apply Forall_concat.
Qed.

Lemma any_err_iff s e : parse_any s = Err e <-> exists a c b, flat s = a ++ c :: b /\ Forall parses a /\ parse_single c = Err e.
Proof.
  unfold flat. rewrite (first_in_concat parses (fun c => parse_single c = Err e)) by (intros x (p & H) H'; congruence).
  assert (X : parse_any s = Err e <-> mapM parse_all (split_pipes s) = Err e) by (unfold parse_any; destruct (mapM _ _); cbn [bind]; split; congruence).
  rewrite X, mapM_first. split.
  - intros (a & w & b & -> & F & H). exists (map (split_on 44) a), (split_on 44 w), (map (split_on 44) b). split; [now rewrite map_app|].
    split; [|now apply all_err_iff]. apply Forall_map. eapply Forall_impl; [|exact F]. intros x. apply all_ok_iff.
  - intros (ass & xs & bss & E & F & H). apply map_eq_app in E as (a & r & -> & <- & E). apply map_eq_cons in E as (w & b & -> & <- & <-).
    exists a, w, b. split; [reflexivity|]. split; [|now apply all_err_iff]. rewrite Forall_map in F. eapply Forall_impl; [|exact F]. intros x. apply all_ok_iff.
Qed.

(** ** Single clauses *)

Lemma single_err_iff c e : parse_single c = Err e <-> clause_error c e.
Proof.
  split; [apply single_err|]. intros [(-> & t & v & C & B)|[(-> & C)|(-> & N & M)]].
  - rewrite (single_clause c t v C). pose proof (clause_tree _ _ _ C) as T. destruct (outcome_cases t v) as [O|O]; [|exact O].
    apply outcome_ok in O as (L & M & _); [|exact T]. destruct B as [B|[-> B]]; [now destruct B|]. now destruct (proj1 (made_more TILDE_EQUAL v T L) M eq_refl).
  - now apply single_capital.
  - destruct (parse_single c) as [p|e] eqn:E.
    + apply single_ok in E as ([t v] & (C & _) & _). now destruct (N t v).
    + apply single_err in E as [(_ & t & v & C & _)|[(_ & C)|(-> & _)]]; [now destruct (N t v)|contradiction|reflexivity].
Qed.

Lemma parses_some c : parses c -> c <> [].
Proof. intros (p & H) ->. vm_compute in H. discriminate. Qed.

(** ** Whole strings *)

Lemma visible_any s : parse_specifier s = parse_any (visible s).
Proof. unfold parse_specifier. now rewrite clear_visible. Qed.

Lemma visible_fixed s : Forall (fun x => is_space x = false) s -> visible s = s.
Proof. induction 1 as [|x s H F IH]; [reflexivity|]. unfold visible in *. cbn [filter]. rewrite H. cbn [negb]. now rewrite IH. Qed.

Lemma visible_keeps x s : is_space x = false -> visible (x :: s) = x :: visible s.
Proof. intros H. unfold visible. cbn [filter]. now rewrite H. Qed.

Lemma visible_edge b : right_edge b -> right_edge (visible b).
Proof.
  intros [->|(x & r & -> & [->| ->])]; [now left|right; exists 44, (visible r)|right; exists 124, (visible r)]; (split; [now apply visible_keeps|auto]).
Qed.

Lemma visible_sep sep r : separates sep r -> visible sep = sep.
Proof. intros [->|[->|[-> _]]]; reflexivity. Qed.

Lemma unbroken_solid c : unbroken c -> solid_text c.
Proof. intros U. eapply Forall_impl; [|exact U]. cbn. tauto. Qed.

Lemma visible_unbroken a c b : visible (a ++ c ++ b) = a ++ c ++ b -> solid_text c -> unbroken c.
Proof.
  intros V S. assert (F : Forall (fun x => is_space x = false) (a ++ c ++ b)).
  { rewrite <- V. apply Forall_forall. intros x I. apply filter_In in I as [_ I]. now apply negb_true_iff. }
  apply Forall_app in F as [_ F]. apply Forall_app in F as [F _]. unfold unbroken, solid_text in *. rewrite Forall_forall in *. intros x I.
  destruct (S x I) as [S1 S2]. split; [exact S1|]. split; [exact S2|]. intros W. apply white_iff in W. rewrite (F x I) in W. discriminate.
Qed.

(** Where the first clause that does not parse is. *)
Lemma located (R : pstr -> Prop) s : (exists a c b, flat (visible s) = a ++ c :: b /\ Forall parses a /\ R c) <-> exists c b, unbroken c /\ right_edge b /\ R c
  /\ (respaced s (c ++ b)
      \/ exists a sep q, respaced s (a ++ sep ++ c ++ b) /\ parse_specifier a = Ok q
           /\ (sep = [44] \/ sep = [124; 124] \/ (sep = [124] /\ forall r, c ++ b <> 124 :: r))).
Proof.
  split.
  - intros (pre & c & post & E & F & H). assert (N : Forall (fun c => c <> []) pre) by (eapply Forall_impl; [|exact F]; apply parses_some).
    assert (VV : visible (visible s) = visible s).
    { apply visible_fixed, Forall_forall. intros x I. apply filter_In in I as [_ I]. now apply negb_true_iff. }
    destruct (flat_find pre N _ c post E) as (S & b & B & [[-> V]|(a & sep & V & A & D)]).
    + exists c, b. split; [apply (visible_unbroken [] c b); [cbn [app]; congruence|exact S]|]. split; [exact B|]. split; [exact H|].
      left. apply respaced_visible. congruence.
    + exists c, b. split; [apply (visible_unbroken (a ++ sep) c b); [rewrite <- app_assoc; congruence|exact S]|]. split; [exact B|]. split; [exact H|].
      right. assert (P : exists q, parse_any a = Ok q) by (apply any_ok_iff; now rewrite A). destruct P as (q & P). exists a, sep, q.
      split; [apply respaced_visible; congruence|]. split; [|exact D]. rewrite visible_any.
      assert (VA : visible a = a).
      { apply visible_fixed. assert (G : Forall (fun x => is_space x = false) (visible s)).
        { apply Forall_forall. intros x I. apply filter_In in I as [_ I]. now apply negb_true_iff. }
        rewrite V in G. now apply Forall_app in G as [G _]. }
      now rewrite VA.
  - intros (c & b & U & B & X & K). pose proof (unbroken_solid c U) as S. destruct (unbroken_parts c U) as (_ & _ & VC).
    destruct (flat_clause c S (visible b) (visible_edge b B)) as [q E]. destruct K as [K|(a & sep & p & K & P & D)]; apply respaced_visible in K.
    + rewrite visible_app, VC in K. exists [], c, q. rewrite K. auto.
    + assert (D' : separates sep (c ++ visible b)).
      { destruct D as [D|[D|[D G]]]; [now left|right; now left|]. right. right. split; [exact D|]. intros r Z. apply (G (tl (c ++ b))).
        destruct c as [|x c]; cbn [app tl] in *.
        - destruct B as [->|(x & r' & -> & Y)]; [discriminate|]. cbn [tl]. destruct Y as [->| ->]; [|reflexivity].
          rewrite visible_keeps in Z by reflexivity. discriminate.
        - injection Z as -> _. reflexivity. }
      rewrite !visible_app, VC, (visible_sep _ _ D') in K.
      assert (FA : Forall parses (flat (visible a))) by (apply any_ok_iff; exists p; now rewrite <- visible_any).
      exists (flat (visible a)), c, q. split; [|auto]. rewrite K.
      rewrite (flat_app _ _ (flat_sep sep _ D') (List.length (visible a)) (visible a) (le_n _)); [now rewrite E|].
      left. apply ends_well. intros I. rewrite Forall_forall in FA. now apply FA, parses_some in I.
Qed.

Theorem specifier_error s e : parse_specifier s = Err e <-> exists c b, unbroken c /\ right_edge b /\ clause_error c e
  /\ (respaced s (c ++ b)
      \/ exists a sep q, respaced s (a ++ sep ++ c ++ b) /\ parse_specifier a = Ok q
           /\ (sep = [44] \/ sep = [124; 124] \/ (sep = [124] /\ forall r, c ++ b <> 124 :: r))).
Proof.
  rewrite visible_any, any_err_iff, <- (located (fun c => clause_error c e)).
  split; intros (a & c & b & E & F & H); exists a, c, b; (split; [exact E|split; [exact F|now apply single_err_iff]]).
Qed.
