(** Equal objects have equal hashes, up to the spelling of operators. *)

From Coq Require Import List ZArith NArith String Bool Lia.
From Verif Require Import Py Segments Version VersionSets Operators Specifiers Parsers Spec Rich Hashes Caches
  Orders OrderFacts SetVersions SpecifierFacts EqualFacts SpecMeaning CacheFacts RichFacts.
Import ListNotations.

Local Opaque key.

Fixpoint pyval_members (P : pyval -> Prop) (Pi : forall z, P (VInt z)) (Ps : forall s, P (VStr s))
    (Pt : forall xs, Forall P xs -> P (VTuple xs)) (Pp : P VInfinity) (Pn : P VNegInfinity)
    (Po : forall c fs, Forall P fs -> P (VObject c fs)) (x : pyval) : P x :=
  let members := fix members xs : Forall P xs :=
    match xs with [] => Forall_nil _ | x :: xs' => Forall_cons x (pyval_members P Pi Ps Pt Pp Pn Po x) (members xs') end in
  match x with
  | VInt z => Pi z
  | VStr s => Ps s
  | VTuple xs => Pt xs (members xs)
  | VInfinity => Pp
  | VNegInfinity => Pn
  | VObject c fs => Po c fs (members fs)
  end.

Section Hash.
  Context (hz : Z -> N) (hs : pstr -> N) (mix : list N -> N).
  Notation hash := (py_hash hz hs mix).

  Fixpoint hashes (xs : list pyval) : result (list N) :=
    match xs with
    | [] => Ok []
    | x :: xs' => let* a := hash x in let* l := hashes xs' in Ok (a :: l)
    end.

  Lemma hash_tuple xs : hash (VTuple xs) = (let* l := hashes xs in Ok (mix l)).
  Proof. reflexivity. Qed.
  Lemma hash_object c fs : hash (VObject c fs) = (let* l := if fields_hashed c then hashes fs else Ok [] in Ok (mix (class_code c :: l))).
  Proof. reflexivity. Qed.

  Lemma tuple_hashes xs : Forall (fun x => forall y, rich OpEq x y = Ok true -> hash x = hash y) xs ->
    forall ys, rich OpEq (VTuple xs) (VTuple ys) = Ok true -> hashes xs = hashes ys.
  Proof.
    induction 1 as [|x xs H F IH]; intros [|y ys] E; try discriminate E; auto.
    rewrite rich_cons in E. destruct (rich OpEq x y) as [[]|] eqn:X; cbn [bind] in E; try discriminate E.
    cbn [hashes]. now rewrite (H y X), (IH ys E).
  Qed.

  Lemma class_eqb_eq c d : class_eqb c d = true -> c = d.
  Proof. destruct c as [| |[]| |], d as [| |[]| |]; auto; discriminate. Qed.

  Theorem equal_hash x : forall y, rich OpEq x y = Ok true -> hash x = hash y.
  Proof.
    induction x as [z|s|xs IH| | |c fs IH] using pyval_members; intros y E.
    - destruct y; cbn in E; try discriminate E. destruct (Z.compare_spec z z0); try discriminate E. now subst.
    - destruct y; cbn in E; try discriminate E. destruct (str_cmp s s0) eqn:X; try discriminate E. assert (Y : str_eqb s s0 = true) by (unfold str_eqb; now rewrite X). apply str_eqb_eq in Y. now subst.
    - destruct y; try discriminate E. rewrite !hash_tuple. now rewrite (tuple_hashes xs IH _ E).
    - destruct y; try discriminate E. reflexivity.
    - destruct y; try discriminate E. reflexivity.
    - destruct y as [| | | | |d gs]; try discriminate E. rewrite !hash_object.
      assert (K : class_eqb c d = true /\ rich OpEq (VTuple fs) (VTuple gs) = Ok true).
      { cbn [rich] in *. destruct (class_eqb c d); [auto|discriminate]. }
      destruct K as [K L]. apply class_eqb_eq in K. subst d. destruct (fields_hashed c); auto. now rewrite (tuple_hashes fs IH _ L).
  Qed.

  Lemma epoch_hash e : exists n, hash (epoch_value e) = Ok n.
  Proof. eexists. reflexivity. Qed.
  Lemma tag_hash c t : exists n, hash (tag_value c t) = Ok n.
  Proof. eexists. reflexivity. Qed.
  Lemma release_hash r s : hash (release_value r) = hash (release_value s).
  Proof. reflexivity. Qed.
  Lemma local_hash l m : hash (local_value l) = hash (local_value m).
  Proof. reflexivity. Qed.
  Lemma version_hash_same v w : hash (version_value v) = hash (version_value w).
  Proof. reflexivity. Qed.
  Lemma hashable v l : (exists n, hash (release_value (v_release v)) = Ok n) /\ (exists n, hash (local_value l) = Ok n) /\ exists n, hash (version_value v) = Ok n.
  Proof. repeat split; eexists; reflexivity. Qed.
End Hash.

Section Hashes.
  Context (h : op_type -> N) (mix : list N -> N).

  Lemma end_hash_eq a b : o_eq a b = true -> end_hash mix a = end_hash mix b.
  Proof. destruct a, b; auto; discriminate. Qed.

  Lemma item_hash_eq s o : item_eqb s o = true -> item_hash mix s = item_hash mix o.
  Proof.
    unfold item_eqb, item_hash. rewrite !andb_true_iff, !eqb_true_iff. intros [[[A B] C] D].
    now rewrite (end_hash_eq _ _ A), (end_hash_eq _ _ B), C, D.
  Qed.

  Theorem set_hash_eq a b : set_eqb a b = true -> set_hash mix a = set_hash mix b.
  Proof.
    destruct a as [|i|xs], b as [|j|ys]; try discriminate; auto; cbn [set_eqb set_hash]; [apply item_hash_eq|].
    intros E. enough (M : map (item_hash mix) xs = map (item_hash mix) ys) by now rewrite M. revert ys E. induction xs as [|x xs IH]; intros [|y ys] E; try discriminate; auto.
    cbn [items_eqb map] in *. apply andb_true_iff in E as [E F]. now rewrite (item_hash_eq _ _ E), (IH ys F).
  Qed.

  (** Hashes see the shape and the names of the operators. *)
  Lemma spec_hash_names s : forall u, paired (fun t _ t' _ => h t = h t') s u -> spec_hash h mix s = spec_hash h mix u.
  Proof.
    induction s as [| |t v|ss IH|ss IH] using spec_members; intros u P; inversion P as [| |? ? ? ? E|? us F|? us F]; subst; auto.
    - cbn [spec_hash]. now rewrite E.
    - cbn [spec_hash]. enough (M : map (spec_hash h mix) ss = map (spec_hash h mix) us) by now rewrite M. clear P. induction F as [|x y xs ys X F IHF]; auto. inversion IH; subst. cbn [map]. now rewrite IHF; [rewrite (H1 y X)|].
    - cbn [spec_hash]. enough (M : map (spec_hash h mix) ss = map (spec_hash h mix) us) by now rewrite M. clear P. induction F as [|x y xs ys X F IHF]; auto. inversion IH; subst. cbn [map]. now rewrite IHF; [rewrite (H1 y X)|].
  Qed.
End Hashes.

Lemma all_hashable hz hs mix v c t :
  (exists n, py_hash hz hs mix (epoch_value (v_epoch v)) = Ok n)
  /\ (exists n, py_hash hz hs mix (tag_value c t) = Ok n)
  /\ (exists n, forall w, py_hash hz hs mix (release_value (v_release w)) = Ok n)
  /\ (exists n, forall m, py_hash hz hs mix (local_value m) = Ok n)
  /\ (exists n, forall w, py_hash hz hs mix (version_value w) = Ok n).
Proof.
  split; [eexists; reflexivity|]. split; [eexists; reflexivity|]. split; [eexists; intros; reflexivity|].
  split; eexists; intros; reflexivity.
Qed.

Lemma hashes_apart hz hs mix : (forall l m, mix l = mix m -> l = m) ->
  (forall e f, py_hash hz hs mix (epoch_value e) = py_hash hz hs mix (epoch_value f) <-> hz e = hz f)
  /\ (forall c d t u, py_hash hz hs mix (tag_value c t) = py_hash hz hs mix (tag_value d u)
        <-> c = d /\ hs (phase t) = hs (phase u) /\ hz (value t) = hz (value u)).
Proof.
  intros J. split.
  - intros e f. cbn. split; [|now intros ->]. intros E. assert (K : mix [0%N; hz e] = mix [0%N; hz f]) by congruence. apply J in K. congruence.
  - intros c d t u. split; [|now intros (-> & A & B); cbn; rewrite A, B]. cbn. intros E.
    assert (K : mix [class_code (CTag c); hs (phase t); hz (value t)] = mix [class_code (CTag d); hs (phase u); hz (value u)]) by (cbn [class_code]; congruence).
    apply J in K. injection K as K1 K2 K3. split; [|auto]. now destruct c, d.
Qed.

Lemma spelling_hashes h mix :
  mix [2; h EQUAL; mix []]%N <> mix [2; h DOUBLE_EQUAL; mix []]%N ->
  exists s u p q, parse_specifier s = Ok p /\ parse_specifier u = Ok q /\ spec_eqb p q = true
    /\ spec_hash h mix p <> spec_hash h mix q.
Proof.
  intros N. exists (lit "=1"), (lit "==1"), (One EQUAL (bare 0 [1%Z])), (One DOUBLE_EQUAL (bare 0 [1%Z])).
  split; [now vm_compute|]. split; [now vm_compute|]. split; [reflexivity|]. exact N.
Qed.
