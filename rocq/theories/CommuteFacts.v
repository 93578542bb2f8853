(** Changing the versions of specifiers by a function that keeps their order. *)

From Coq Require Import List ZArith NArith String Bool Lia.
From Verif Require Import Py Segments Version VersionSets Operators Specifiers Rich Spec Orders OrderFacts SpecifierFacts GenericSets GenericFacts MixedSpec MixedFacts RenameFacts EpochSpec.
Import ListNotations.
Local Open Scope Z_scope.

(** The bound of the operator changes with its version. *)
Definition follows (f : version -> version) (t : op_type) (w : version) : Prop :=
  match t with
  | CARET => next_caret_breaking (f w) = rmap f (next_caret_breaking w)
  | TILDE => next_tilde_breaking (f w) = rmap f (next_tilde_breaking w)
  | TILDE_EQUAL => next_tilde_equal_breaking (f w) = rmap f (next_tilde_equal_breaking w)
  | WILDCARD_EQUAL | WILDCARD_DOUBLE_EQUAL | WILDCARD_NOT_EQUAL => next_wildcard_breaking (f w) = rmap (option_map f) (next_wildcard_breaking w)
  | _ => True
  end.

Section Commute.
  Context (f : version -> version) (C : in_order f).

  Lemma f_le v w : v_le (f v) (f w) = v_le v w.
  Proof. unfold v_le. now rewrite C. Qed.
  Lemma f_lt v w : v_lt (f v) (f w) = v_lt v w.
  Proof. unfold v_lt. now rewrite C. Qed.

  (** ** Operators *)

  Lemma f_between w v (u : result version) : between (f w) (f v) (rmap f u) = between w v u.
  Proof. unfold between. rewrite f_le. destruct (v_le w v), u; auto. cbn [rmap bind]. now rewrite f_lt. Qed.

  Lemma f_wildcard_matches v w : follows f WILDCARD_EQUAL w -> matches_wildcard_equal (f v) (f w) = matches_wildcard_equal v w.
  Proof.
    intros F. cbn [follows] in F. unfold matches_wildcard_equal. rewrite F. destruct (next_wildcard_breaking w) as [[u|]|]; [|reflexivity..]. exact (f_between w v (Ok u)).
  Qed.

  Theorem f_matches t v w : follows f t w -> op_matches t (f v) (f w) = op_matches t v w.
  Proof.
    destruct t; cbn [follows op_matches]; intros F;
      unfold matches_caret, matches_tilde_equal, matches_tilde, matches_equal, matches_not_equal, matches_less, matches_less_or_equal, matches_greater, matches_greater_or_equal, matches_wildcard_not_equal;
      try (rewrite F; apply f_between); try (rewrite (f_wildcard_matches v w F); reflexivity); unfold v_eq, v_ne, v_lt, v_le, v_gt, v_ge; try unfold v_eq; now rewrite ?C.
  Qed.

  Lemma f_range min max a b : range_new (option_map f min) (option_map f max) a b = rmap (rename_item f) (range_new min max a b).
  Proof.
    unfold range_new. destruct min as [m|], max as [M|]; destruct a, b; cbn; try reflexivity; fold (v_cmp (f m) (f M)); rewrite ?C; repeat (match goal with |- context [if ?x then _ else _] => destruct x end); reflexivity.
  Qed.
  Lemma f_closed v w : (let* r := range_new (Some (f v)) (Some (f w)) true false in Ok (Item r)) = rmap (renamed f) (let* r := range_new (Some v) (Some w) true false in Ok (Item r)).
  Proof. rewrite (f_range (Some v) (Some w) true false : range_new (Some (f v)) (Some (f w)) true false = _). destruct (range_new _ _ _ _); reflexivity. Qed.
  Lemma f_complement a : complement (renamed f a) = rmap (renamed f) (complement a).
  Proof. now destruct (renamed_operations f C a a) as (_ & _ & _ & _ & H). Qed.

  Lemma f_translate_wildcard w : follows f WILDCARD_EQUAL w -> translate_wildcard_equal (f w) = rmap (renamed f) (translate_wildcard_equal w).
  Proof.
    intros F. cbn [follows] in F. unfold translate_wildcard_equal. rewrite F. destruct (next_wildcard_breaking w) as [[u|]|]; cbn [rmap bind option_map]; [apply f_closed|reflexivity..].
  Qed.

  Theorem f_translate t w : follows f t w -> op_translate t (f w) = rmap (renamed f) (op_translate t w).
  Proof.
    destruct t; cbn [follows op_translate]; intros F; try reflexivity.
    - unfold translate_tilde_equal. rewrite F. destruct (next_tilde_equal_breaking w); [apply f_closed|reflexivity].
    - unfold translate_not_equal, translate_equal. cbn [bind]. pose proof (f_complement (Item (Point w))) as E. cbn [renamed rename_item] in E. rewrite E.
      destruct (complement (Item (Point w))) as [[|i|is]|]; reflexivity.
    - unfold translate_caret. rewrite F. destruct (next_caret_breaking w); [apply f_closed|reflexivity].
    - unfold translate_tilde. rewrite F. destruct (next_tilde_breaking w); [apply f_closed|reflexivity].
    - now apply f_translate_wildcard.
    - now apply f_translate_wildcard.
    - unfold translate_wildcard_not_equal. rewrite (f_translate_wildcard w F). destruct (translate_wildcard_equal w) as [a|]; [|reflexivity]. cbn [rmap bind].
      rewrite f_complement. destruct (complement a) as [[|i|is]|]; reflexivity.
  Qed.

  (** ** Specifiers *)

  Theorem f_accepts s v : (forall t w, leaf t w s -> follows f t w) -> accepts (rename_spec f s) (f v) = accepts s v.
  Proof.
    induction s as [| |t w|ss IH|ss IH] using spec_members; cbn [rename_spec accepts]; intros L; [reflexivity..|apply f_matches, L; constructor| |].
    - assert (K : forall s, In s ss -> forall t w, leaf t w s -> follows f t w) by (intros s I t w J; apply L; now apply (leaf_any _ _ s)). clear L.
      induction IH as [|s ss H _ IH]; [reflexivity|]. cbn [map any_r]. rewrite (H (K s (or_introl eq_refl))), IH; [reflexivity|]. intros x I. apply K. now right.
    - assert (K : forall s, In s ss -> forall t w, leaf t w s -> follows f t w) by (intros s I t w J; apply L; now apply (leaf_all _ _ s)). clear L.
      induction IH as [|s ss H _ IH]; [reflexivity|]. cbn [map all_r]. rewrite (H (K s (or_introl eq_refl))), IH; [reflexivity|]. intros x I. apply K. now right.
  Qed.

  Lemma f_reduce (op : vset -> vset -> result vset) ss : (forall a b, op (renamed f a) (renamed f b) = rmap (renamed f) (op a b)) ->
    Forall (fun s => specifier_to_version_set (rename_spec f s) = rmap (renamed f) (specifier_to_version_set s)) ss ->
    reduce_map op specifier_to_version_set (map (rename_spec f) ss) = rmap (renamed f) (reduce_map op specifier_to_version_set ss).
  Proof.
    intros H F.
    assert (K : forall ss, Forall (fun s => specifier_to_version_set (rename_spec f s) = rmap (renamed f) (specifier_to_version_set s)) ss -> forall a,
      reduce_from op specifier_to_version_set (renamed f a) (map (rename_spec f) ss) = rmap (renamed f) (reduce_from op specifier_to_version_set a ss)).
    { clear F. induction 1 as [|s l E _ IH]; intros a; [reflexivity|]. cbn [map reduce_from]. rewrite E. destruct (specifier_to_version_set s) as [b|]; [|reflexivity].
      cbn [rmap bind]. rewrite H. destruct (op a b) as [c|]; [apply IH|reflexivity]. }
    destruct F as [|s ss E F]; [reflexivity|]. cbn [map reduce_map]. rewrite E. destruct (specifier_to_version_set s) as [a|]; [now apply K|reflexivity].
  Qed.

  Theorem f_convert s : (forall t w, leaf t w s -> follows f t w) -> specifier_to_version_set (rename_spec f s) = rmap (renamed f) (specifier_to_version_set s).
  Proof.
    induction s as [| |t w|ss IH|ss IH] using spec_members; cbn [rename_spec specifier_to_version_set]; intros L; [reflexivity..|apply f_translate, L; constructor| |].
    - apply f_reduce; [intros a b; now destruct (renamed_operations f C a b)|]. rewrite Forall_forall in *. intros s I. apply IH; [exact I|]. intros t w J. apply L. now apply (leaf_any _ _ s).
    - apply f_reduce; [intros a b; now destruct (renamed_operations f C a b) as (_ & H & _)|]. rewrite Forall_forall in *. intros s I. apply IH; [exact I|]. intros t w J. apply L. now apply (leaf_all _ _ s).
  Qed.

  Lemma f_item i : item_to_specifier (rename_item f i) = rmap (rename_spec f) (item_to_specifier i).
  Proof.
    destruct i as [v|[m|] [M|] a b]; [reflexivity| |reflexivity..]. cbn [rename_item option_map item_to_specifier].
    unfold try_range_simple, item_version, item_is_empty, item_is_universal, item_is_point, is_empty_or_point, is_unbounded, comparable_min, comparable_max.
    cbn. fold (v_cmp (f m) (f M)). rewrite ?C. destruct (v_cmp m M), a, b; reflexivity.
  Qed.

  Theorem f_specifier a : version_set_to_specifier (renamed f a) = rmap (rename_spec f) (version_set_to_specifier a).
  Proof.
    destruct a as [|i|is]; [reflexivity|apply f_item|]. cbn [renamed version_set_to_specifier]. unfold exclude_version.
    pose proof (f_complement (Union is)) as E. cbn [renamed] in E. rewrite E.
    assert (M : mapM item_to_specifier (map (rename_item f) is) = rmap (map (rename_spec f)) (mapM item_to_specifier is)).
    { clear E. induction is as [|i is IH]; [reflexivity|]. cbn [map mapM]. rewrite f_item. destruct (item_to_specifier i); [|reflexivity]. cbn [rmap bind]. rewrite IH. now destruct (mapM _ is). }
    assert (A : forall ss, any_of (map (rename_spec f) ss) = rename_spec f (any_of ss)) by now intros [|? [|? ?]].
    destruct (complement (Union is)) as [[|[v|? ? ? ?]|l]|]; cbn [rmap bind renamed rename_item]; try reflexivity; rewrite M; destruct (mapM _ is); cbn [rmap bind]; now rewrite ?A.
  Qed.

  Theorem f_simplify s : (forall t w, leaf t w s -> follows f t w) -> simplify (rename_spec f s) = rmap (rename_spec f) (simplify s).
  Proof. intros L. unfold simplify. rewrite (f_convert s L). destruct (specifier_to_version_set s) as [a|]; [apply f_specifier|reflexivity]. Qed.
End Commute.
