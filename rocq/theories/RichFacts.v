(** The rich comparisons of [Rich.v] agree with the three-way comparison. *)

From Coq Require Import List ZArith NArith String Bool Lia.
From Verif Require Import Py Segments Version Rich Orders Spec OrderFacts.
Import ListNotations.
Open Scope Z_scope.

(** All six operators answer as a three-way comparison [c] would. *)
Definition answers (x y : pyval) (c : comparison) : Prop := forall o, rich o x y = Ok (native o c).

Lemma answers_int a b : answers (VInt a) (VInt b) (Z.compare a b).
Proof. intros o. reflexivity. Qed.
Lemma answers_str s t : answers (VStr s) (VStr t) (str_cmp s t).
Proof. intros o. reflexivity. Qed.

Lemma answers_nil : answers (VTuple []) (VTuple []) Eq.
Proof. intros o. reflexivity. Qed.
Lemma answers_short y ys : answers (VTuple []) (VTuple (y :: ys)) Lt.
Proof. intros o. reflexivity. Qed.
Lemma answers_long x xs : answers (VTuple (x :: xs)) (VTuple []) Gt.
Proof. intros o. reflexivity. Qed.

Lemma rich_cons o x y xs ys : rich o (VTuple (x :: xs)) (VTuple (y :: ys)) =
  (let* e := rich OpEq x y in
   if e then rich o (VTuple xs) (VTuple ys)
   else match o with OpEq => Ok false | OpNe => Ok true | _ => rich o x y end).
Proof. reflexivity. Qed.

Lemma answers_cons x y xs ys c d : answers x y c -> (c = Eq -> answers (VTuple xs) (VTuple ys) d) ->
  answers (VTuple (x :: xs)) (VTuple (y :: ys)) (then_cmp c d).
Proof.
  intros H T o. rewrite rich_cons, (H OpEq). cbn [bind].
  destruct c; cbn [native then_cmp].
  - now apply T.
  - destruct o; try apply H; reflexivity.
  - destruct o; try apply H; reflexivity.
Qed.

Lemma answers_object k xs ys c : answers (VTuple xs) (VTuple ys) c ->
  answers (VObject k xs) (VObject k ys) c.
Proof.
  intros H o. specialize (H o). cbn [rich] in *.
  replace (class_eqb k k) with true by (destruct k as [| |[]| |]; reflexivity). exact H.
Qed.

Lemma then_eq c : then_cmp c Eq = c.
Proof. now destruct c. Qed.

Lemma answers_one k x y c : answers x y c -> answers (VObject k [x]) (VObject k [y]) c.
Proof.
  intros H. apply answers_object. rewrite <- (then_eq c). apply answers_cons; auto.
  intros _. apply answers_nil.
Qed.

Lemma answers_lex {A} (f : A -> pyval) (c : A -> A -> comparison) xs ys :
  (forall x y, answers (f x) (f y) (c x y)) ->
  answers (VTuple (map f xs)) (VTuple (map f ys)) (lex c xs ys).
Proof.
  intros H. revert ys. induction xs as [|x xs IH]; intros [|y ys]; cbn [map lex].
  - apply answers_nil.
  - apply answers_short.
  - apply answers_long.
  - replace (match c x y with Eq => lex c xs ys | Lt => Lt | Gt => Gt end)
      with (then_cmp (c x y) (lex c xs ys)) by now destruct (c x y).
    apply answers_cons; auto.
Qed.

(** The infinities, on either side. *)
Definition finite (x : pyval) : Prop := x <> VInfinity /\ x <> VNegInfinity.

Lemma answers_infinity x : finite x ->
  answers x VInfinity Lt /\ answers VInfinity x Gt /\ answers VNegInfinity x Lt /\ answers x VNegInfinity Gt.
Proof.
  intros [H1 H2]. destruct x; try congruence; repeat split; intros []; reflexivity.
Qed.
Lemma answers_infinities :
  answers VInfinity VInfinity Eq /\ answers VNegInfinity VNegInfinity Eq
  /\ answers VNegInfinity VInfinity Lt /\ answers VInfinity VNegInfinity Gt.
Proof. repeat split; intros []; reflexivity. Qed.

Lemma answers_ext {A} (f : A -> pyval) (c : A -> A -> comparison) (x y : ext A) :
  let g e := match e with NegInf => VNegInfinity | Fin a => f a | PosInf => VInfinity end in
  (forall a, finite (f a)) -> (forall a b, answers (f a) (f b) (c a b)) ->
  answers (g x) (g y) (ext_cmp c x y).
Proof.
  cbn zeta. intros F H. destruct answers_infinities as (I1 & I2 & I3 & I4).
  destruct x as [|a|], y as [|b|]; cbn [ext_cmp]; auto;
    try (now apply (answers_infinity _ (F a))); now apply (answers_infinity _ (F b)).
Qed.

(** ** Segments and versions *)

Lemma answers_epoch e f : answers (epoch_value e) (epoch_value f) (Z.compare e f).
Proof. apply answers_one, answers_int. Qed.

Lemma answers_release r s : answers (release_value r) (release_value s) (rel_cmp r s).
Proof. apply answers_one. unfold rel_cmp. apply answers_lex, answers_int. Qed.

Lemma answers_tag k t u : answers (tag_value k t) (tag_value k u) (tag_cmp t u).
Proof.
  apply answers_object. unfold tag_cmp. apply answers_cons; [apply answers_str|]. intros _.
  rewrite <- (then_eq (value t ?= value u)). apply answers_cons; [apply answers_int|]. intros _.
  apply answers_nil.
Qed.

Lemma answers_part p q : answers (local_part_value p) (local_part_value q)
  (local_part_key_cmp (local_part_key p) (local_part_key q)).
Proof.
  unfold local_part_key_cmp.
  destruct p as [x|s], q as [y|t]; cbn [local_part_value local_part_key fst snd];
    (apply answers_cons;
     [|intros _; match goal with |- answers _ _ (str_cmp ?a ?b) => rewrite <- (then_eq (str_cmp a b)) end;
       apply answers_cons; [apply answers_str|intros _; apply answers_nil]]).
  - apply answers_int.
  - now apply (answers_infinity (VInt x)).
  - now apply (answers_infinity (VInt y)).
  - apply answers_infinities.
Qed.

Lemma lex_map {A B} (f : A -> B) (c : B -> B -> comparison) xs ys :
  lex c (map f xs) (map f ys) = lex (fun a b => c (f a) (f b)) xs ys.
Proof. revert ys. induction xs as [|x xs IH]; intros [|y ys]; cbn; auto. now rewrite IH. Qed.

Lemma answers_local l m : answers (local_value l) (local_value m)
  (lex local_part_key_cmp (map local_part_key l) (map local_part_key m)).
Proof. apply answers_one. rewrite lex_map. apply answers_lex, answers_part. Qed.

Lemma finite_object k fs : finite (VObject k fs).
Proof. split; discriminate. Qed.

Lemma answers_version v w : answers (version_value v) (version_value w) (v_cmp v w).
Proof.
  apply answers_one. unfold v_cmp, key_cmp, key, compute_compare_tags, compute_compare_local, compare_key_value.
  cbn [k_epoch k_release k_pre k_post k_dev k_local].
  apply answers_cons; [apply answers_epoch|intros _].
  apply answers_cons; [apply answers_release|intros _].
  pose (g c := fun e : ext tag => match e with NegInf => VNegInfinity | Fin t => tag_value c t | PosInf => VInfinity end).
  pose (h := fun e : ext (list local_part) =>
    match e with NegInf => VNegInfinity | Fin l => local_value l | PosInf => VInfinity end).
  assert (G : forall c x y, answers (g c x) (g c y) (ext_cmp tag_cmp x y)).
  { intros c x y. apply (answers_ext (tag_value c)); [intros; apply finite_object|apply answers_tag]. }
  apply answers_cons; [|intros _].
  { assert (P : forall v, match v_pre v with
       | None => match v_post v, v_dev v with None, Some _ => VNegInfinity | _, _ => VInfinity end
       | Some t => tag_value PreTag t end
      = g PreTag match v_pre v with
       | None => match v_post v, v_dev v with None, Some _ => NegInf | _, _ => PosInf end
       | Some t => Fin t end).
    { intros []. cbn. now destruct v_pre, v_post, v_dev. }
    rewrite !P. apply G. }
  apply answers_cons; [|intros _].
  { pose proof (G PostTag (match v_post v with None => NegInf | Some t => Fin t end)
                  (match v_post w with None => NegInf | Some t => Fin t end)) as Q.
    now destruct (v_post v), (v_post w). }
  apply answers_cons; [|intros _].
  { pose proof (G DevTag (match v_dev v with None => PosInf | Some t => Fin t end)
                  (match v_dev w with None => PosInf | Some t => Fin t end)) as Q.
    now destruct (v_dev v), (v_dev w). }
  match goal with |- answers _ _ ?c => rewrite <- (then_eq c) end.
  apply answers_cons; [|intros _; apply answers_nil].
  pose proof (answers_ext local_value (fun l m => lex local_part_key_cmp (map local_part_key l) (map local_part_key m))
    (match v_local v with None => NegInf | Some l => Fin l end)
    (match v_local w with None => NegInf | Some l => Fin l end)
    (fun l => finite_object _ _) answers_local) as Q.
  now destruct (v_local v), (v_local w).
Qed.

Lemma version_operators v w :
  rich OpLt (version_value v) (version_value w) = Ok (v_lt v w)
  /\ rich OpLe (version_value v) (version_value w) = Ok (v_le v w)
  /\ rich OpGt (version_value v) (version_value w) = Ok (v_gt v w)
  /\ rich OpGe (version_value v) (version_value w) = Ok (v_ge v w)
  /\ rich OpEq (version_value v) (version_value w) = Ok (v_eq v w)
  /\ rich OpNe (version_value v) (version_value w) = Ok (v_ne v w).
Proof.
  rewrite !(answers_version v w). unfold v_lt, v_le, v_gt, v_ge, v_eq, v_ne.
  now destruct (v_cmp v w).
Qed.

(** Running the operators on the objects gives the order of [Spec.v]. *)
Lemma rich_before v w : ordinary v -> ordinary w ->
  (rich OpLt (version_value v) (version_value w) = Ok true <-> before v w)
  /\ (rich OpEq (version_value v) (version_value w) = Ok true <-> same v w).
Proof.
  intros Hv Hw. destruct (version_operators v w) as (-> & _ & _ & _ & -> & _).
  rewrite <- (lt_before v w Hv Hw), <- (eq_same v w (proj1 Hv) (proj1 Hw)).
  split; split; congruence.
Qed.

(** Infinities are the ends of any order. *)
Lemma infinity_ends x :
  rich OpLe VNegInfinity x = Ok true /\ rich OpGe x VNegInfinity = Ok true
  /\ rich OpLe x VInfinity = Ok true /\ rich OpGe VInfinity x = Ok true
  /\ (rich OpEq x VInfinity = Ok true <-> x = VInfinity)
  /\ (rich OpEq x VNegInfinity = Ok true <-> x = VNegInfinity)
  /\ forall o, (exists b, rich o x VInfinity = Ok b /\ rich (reflected o) VInfinity x = Ok b)
            /\ (exists b, rich o x VNegInfinity = Ok b /\ rich (reflected o) VNegInfinity x = Ok b).
Proof.
  destruct x; repeat split; try reflexivity; try discriminate; intros;
    try (destruct o; cbn; eauto).
Qed.

(** Versions and anything else. *)
Lemma version_other v y :
  match y with VInfinity | VNegInfinity | VObject CVersion _ => False | _ => True end ->
  rich OpEq (version_value v) y = Ok false /\ rich OpNe (version_value v) y = Ok true
  /\ rich OpLt (version_value v) y = Err TypeError /\ rich OpGt (version_value v) y = Err TypeError
  /\ rich OpLe (version_value v) y = Err TypeError /\ rich OpGe (version_value v) y = Err TypeError.
Proof. intros H. destruct y as [| | | | |[| |[]| |] ?]; try destruct H; repeat split; reflexivity. Qed.

(** ** Segments alone *)

Lemma cmp_release v r s : v_cmp (set_release v r) (set_release v s) = rel_cmp r s.
Proof.
  unfold v_cmp, key_cmp, key. cbn -[rel_compare_parts]. unfold rel_cmp.
  rewrite (cmp_refl lawful_Z). cbn [then_cmp].
  rewrite !(cmp_refl (lawful_ext _ lawful_tag)), (cmp_refl (lawful_ext _ (lawful_lex _ lawful_local_part_key))).
  cbn [then_cmp]. now rewrite then_eq.
Qed.

Lemma cmp_epoch v e f : v_cmp (set_epoch v e) (set_epoch v f) = Z.compare e f.
Proof.
  unfold v_cmp, key_cmp, key. cbn -[rel_compare_parts].
  rewrite (cmp_refl (lawful_lex _ lawful_Z)). cbn [then_cmp].
  rewrite !(cmp_refl (lawful_ext _ lawful_tag)), (cmp_refl (lawful_ext _ (lawful_lex _ lawful_local_part_key))).
  cbn [then_cmp]. now rewrite then_eq.
Qed.

Ltac same_rest :=
  unfold v_cmp, key_cmp, key; cbn -[rel_compare_parts];
  rewrite ?(cmp_refl lawful_Z), ?(cmp_refl (lawful_lex _ lawful_Z)); cbn [then_cmp];
  rewrite ?(cmp_refl (lawful_ext _ lawful_tag)), ?(cmp_refl (lawful_ext _ (lawful_lex _ lawful_local_part_key)));
  cbn [then_cmp ext_cmp]; rewrite ?then_eq.

Lemma cmp_pre v t u : v_cmp (with_pre v t) (with_pre v u) = tag_cmp t u.
Proof. now same_rest. Qed.
Lemma cmp_post v t u : v_cmp (with_post v t) (with_post v u) = tag_cmp t u.
Proof. same_rest. destruct (v_pre v); same_rest; reflexivity. Qed.
Lemma cmp_dev v t u : v_cmp (with_dev v t) (with_dev v u) = tag_cmp t u.
Proof. same_rest. destruct (v_pre v); same_rest; try reflexivity. Qed.
Lemma cmp_local v l m : v_cmp (with_local v l) (with_local v m)
  = lex local_part_key_cmp (map local_part_key l) (map local_part_key m).
Proof. now same_rest. Qed.

Lemma segments_alone o v :
  (forall e f, rich o (epoch_value e) (epoch_value f)
     = rich o (version_value (set_epoch v e)) (version_value (set_epoch v f)))
  /\ (forall r s, rich o (release_value r) (release_value s)
     = rich o (version_value (set_release v r)) (version_value (set_release v s)))
  /\ (forall t u, rich o (tag_value PreTag t) (tag_value PreTag u)
     = rich o (version_value (with_pre v t)) (version_value (with_pre v u)))
  /\ (forall t u, rich o (tag_value PostTag t) (tag_value PostTag u)
     = rich o (version_value (with_post v t)) (version_value (with_post v u)))
  /\ (forall t u, rich o (tag_value DevTag t) (tag_value DevTag u)
     = rich o (version_value (with_dev v t)) (version_value (with_dev v u)))
  /\ (forall l m, rich o (local_value l) (local_value m)
     = rich o (version_value (with_local v l)) (version_value (with_local v m))).
Proof.
  repeat split; intros; rewrite (answers_version _ _ o).
  - now rewrite cmp_epoch, (answers_epoch _ _ o).
  - now rewrite cmp_release, (answers_release _ _ o).
  - now rewrite cmp_pre, (answers_tag _ _ _ o).
  - now rewrite cmp_post, (answers_tag _ _ _ o).
  - now rewrite cmp_dev, (answers_tag _ _ _ o).
  - now rewrite cmp_local, (answers_local _ _ o).
Qed.

(** What the segments' own order is. *)
Lemma release_rich r s : r <> [] -> s <> [] -> Forall (fun x => 0 <= x) r -> Forall (fun x => 0 <= x) s ->
  (rich OpLt (release_value r) (release_value s) = Ok true <-> rel_before r s)
  /\ (rich OpEq (release_value r) (release_value s) = Ok true <-> rel_same r s).
Proof.
  intros Nr Ns Fr Fs. destruct (release_order r s Nr Ns Fr Fs) as [<- <-].
  rewrite !(answers_release r s). unfold rel_cmp.
  destruct (lex Z.compare (rel_compare_parts r) (rel_compare_parts s)); cbn; split; split; congruence.
Qed.

Lemma tag_rich t u :
  (valid_tag PreTag t = true -> valid_tag PreTag u = true ->
     rich OpLt (tag_value PreTag t) (tag_value PreTag u) = Ok true <-> tag_before PHASE_ORDER t u)
  /\ (valid_tag PostTag t = true -> valid_tag PostTag u = true ->
     rich OpLt (tag_value PostTag t) (tag_value PostTag u) = Ok true <-> tag_before POST_ORDER t u)
  /\ (valid_tag DevTag t = true -> valid_tag DevTag u = true ->
     rich OpLt (tag_value DevTag t) (tag_value DevTag u) = Ok true <-> tag_before [] t u)
  /\ forall c, rich OpEq (tag_value c t) (tag_value c u) = Ok true <-> t = u.
Proof.
  split; [|split; [|split]]; intros.
  - rewrite <- pre_order by assumption. rewrite (answers_tag _ t u). destruct (tag_cmp t u); cbn; split; congruence.
  - rewrite <- post_order by assumption. rewrite (answers_tag _ t u). destruct (tag_cmp t u); cbn; split; congruence.
  - rewrite <- dev_order by assumption. rewrite (answers_tag _ t u). destruct (tag_cmp t u); cbn; split; congruence.
  - rewrite <- (law_eq lawful_tag), (answers_tag _ t u). destruct (tag_cmp t u); cbn; split; congruence.
Qed.

Lemma local_rich l m :
  (rich OpLt (local_value l) (local_value m) = Ok true <-> dict_before part_before l m)
  /\ (rich OpEq (local_value l) (local_value m) = Ok true <-> l = m).
Proof.
  rewrite !(answers_local l m).
  pose proof (local_order (Some l) (Some m)) as H. cbn [ext_cmp compute_compare_local local_before] in H.
  assert (E : lex local_part_key_cmp (map local_part_key l) (map local_part_key m) = Eq <-> l = m).
  { rewrite (law_eq (lawful_lex _ lawful_local_part_key)). split; [apply map_key_inj|congruence]. }
  rewrite <- H, <- E.
  destruct (lex local_part_key_cmp (map local_part_key l) (map local_part_key m)); cbn; split; split; congruence.
Qed.

(** Tags of different classes do not compare. *)
Lemma tags_apart c d t u : c <> d ->
  rich OpEq (tag_value c t) (tag_value d u) = Ok false /\ rich OpLt (tag_value c t) (tag_value d u) = Err TypeError.
Proof. intros N. destruct c, d; try congruence; split; reflexivity. Qed.
