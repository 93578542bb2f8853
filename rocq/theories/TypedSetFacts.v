(** Conversion between specifiers and sets of one class. *)

From Coq Require Import List ZArith NArith String Bool Lia.
From Verif Require SpecMeaning SpecifierFacts.
From Verif Require Import Py Segments Version VersionSets Operators Specifiers Rich Spec Parsers Typed TypedSpec TypedFacts SpecifierFacts GenericSets GenericFacts TypedSets MixedSpec MixedFacts.
Import ListNotations.
Local Open Scope nat_scope.
Local Opaque v_cmp.

Section One_class.
  Context (T : vtype).
  Notation V := (carry_set (Typed T)).
  Notation I := (carry_item (Typed T)).
  Notation R := (retype_spec T).
  Let C := t_cmp_same T.
  Let E := t_same_same T.

  Lemma o_range min max imin imax : t_range (option_map (Typed T) min) (option_map (Typed T) max) imin imax = rmap V (let* r := range_new min max imin imax in Ok (Item r)).
  Proof. unfold t_range. rewrite (c_range_new _ _ C). apply bind_map. reflexivity. Qed.

  Lemma o_up_to v upper : t_up_to (Typed T v) upper = rmap V (let* w := upper in let* r := range_new (Some v) (Some w) true false in Ok (Item r)).
  Proof. unfold t_up_to. destruct upper as [w|e]; [|reflexivity]. exact (o_range (Some v) (Some w) true false). Qed.

  Lemma o_wildcard v : t_translate_wildcard_equal (Typed T v) = rmap V (translate_wildcard_equal v).
  Proof.
    unfold t_translate_wildcard_equal, translate_wildcard_equal. cbn [t_version]. destruct (next_wildcard_breaking v) as [[w|]|e]; [| |reflexivity].
    - exact (o_up_to v (Ok w)).
    - exact (o_range None None false false).
  Qed.

  Lemma o_complement a : t_complement (V a) = rmap V (complement a).
  Proof. exact (c_complement _ _ _ C E a). Qed.

  Theorem o_translate t v : t_translate t (Typed T v) = rmap V (op_translate t v).
  Proof.
    destruct t; cbn [t_translate op_translate]; try exact (o_up_to v _); try reflexivity; try exact (o_wildcard v).
    - unfold translate_not_equal, translate_equal. cbn [bind]. change (GItem (GPoint (Typed T v))) with (V (Item (Point v))). rewrite o_complement. apply bind_map.
      intros [|i|is]; reflexivity.
    - unfold translate_wildcard_not_equal. rewrite o_wildcard. apply bind_map. intros e. rewrite o_complement. apply bind_map. intros [|i|is]; reflexivity.
  Qed.

  Lemma o_reduce_from f f' g g' (ss : list spec) : (forall a b, f' (V a) (V b) = rmap V (f a b)) -> Forall (fun s => g' (R s) = rmap V (g s)) ss ->
    forall acc, g_reduce_from f' g' (V acc) (map R ss) = rmap V (reduce_from f g acc ss).
  Proof.
    intros F. induction 1 as [|s ss H _ IH]; intros acc; [reflexivity|]. cbn [map g_reduce_from reduce_from]. rewrite H. apply bind_map. intros y. rewrite F. apply bind_map. exact IH.
  Qed.
  Lemma o_reduce_map f f' g g' (ss : list spec) : (forall a b, f' (V a) (V b) = rmap V (f a b)) -> Forall (fun s => g' (R s) = rmap V (g s)) ss ->
    g_reduce_map f' g' (map R ss) = rmap V (reduce_map f g ss).
  Proof.
    intros F H. destruct H as [|s ss H K]; [reflexivity|]. cbn [map g_reduce_map reduce_map]. rewrite H. apply bind_map. intros y. now apply o_reduce_from.
  Qed.

  Theorem o_to_version_set s : t_to_version_set (R s) = rmap V (specifier_to_version_set s).
  Proof.
    induction s as [| |t v|ss IH|ss IH] using spec_members; [reflexivity|reflexivity|apply o_translate| |].
    - cbn [retype_spec t_to_version_set specifier_to_version_set]. apply o_reduce_map; [exact (c_union _ _ _ C E)|]. exact IH.
    - cbn [retype_spec t_to_version_set specifier_to_version_set]. apply o_reduce_map; [exact (c_intersection _ _ _ C E)|]. exact IH.
  Qed.

  Lemma o_any_of ss : t_any_of (map R ss) = R (any_of ss).
  Proof. destruct ss as [|s [|u ss]]; reflexivity. Qed.
  Lemma o_all_of ss : t_all_of (map R ss) = R (all_of ss).
  Proof. destruct ss as [|s [|u ss]]; reflexivity. Qed.

  Lemma o_item_to_specifier i : t_item_to_specifier (I i) = rmap R (item_to_specifier i).
  Proof.
    destruct i as [v|min max x y]; [reflexivity|]. unfold t_item_to_specifier, item_to_specifier, try_range_simple. cbn [carry_item].
    change (GRange (option_map (Typed T) min) (option_map (Typed T) max) x y) with (I (Range min max x y)).
    rewrite (c_item_is_empty _ _ E), (c_item_is_universal (Typed T)), (c_item_is_point _ _ E). destruct (item_is_empty _); [reflexivity|].
    destruct (item_is_universal _); [reflexivity|]. destruct (item_is_point _).
    - rewrite (c_item_version _ _ E). destruct (item_version (Range min max x y)); reflexivity.
    - destruct min, max, x, y; reflexivity.
  Qed.

  Lemma o_items is : mapM t_item_to_specifier (map I is) = rmap (map R) (mapM item_to_specifier is).
  Proof.
    induction is as [|i is IH]; [reflexivity|]. cbn [map mapM]. rewrite o_item_to_specifier. apply bind_map. intros s. rewrite IH. apply bind_map. reflexivity.
  Qed.

  Theorem o_to_specifier a : t_to_specifier (V a) = rmap R (version_set_to_specifier a).
  Proof.
    destruct a as [|i|is]; [reflexivity|apply o_item_to_specifier|]. unfold t_to_specifier, version_set_to_specifier, exclude_version. rewrite o_complement.
    cbn [carry_set]. destruct (complement (Union is)) as [c|e]; [|reflexivity]. cbn [rmap bind].
    assert (X : (let* ss := mapM t_item_to_specifier (map I is) in Ok (t_any_of ss)) = rmap R (let* ss := mapM item_to_specifier is in Ok (any_of ss))).
    { rewrite o_items. apply bind_map. intros ss. now rewrite o_any_of. }
    destruct c as [|[v|? ? ? ?]|js]; cbn [carry_set carry_item]; try exact X. reflexivity.
  Qed.

  Theorem o_simplify s : t_simplify (R s) = rmap R (simplify s).
  Proof. unfold t_simplify, simplify. rewrite o_to_version_set. apply bind_map. exact o_to_specifier. Qed.

  Theorem o_parse s : rmap gen_set (t_parse_version_set T s) = bind (t_parse_specifier T s) t_to_version_set.
  Proof.
    unfold t_parse_version_set, t_parse_specifier, parse_version_set. destruct (parse_specifier s) as [p|e]; [|reflexivity]. cbn [bind rmap]. rewrite o_to_version_set.
    destruct (specifier_to_version_set p) as [a|e]; [|reflexivity]. cbn [rmap]. f_equal.
    destruct a as [|[v|? ? ? ?]|is]; try reflexivity. cbn. rewrite map_map. f_equal. apply map_ext. now intros [].
  Qed.
End One_class.

(** Both classes in one specifier. *)
Theorem mixed_any T U p q a b : T <> U -> specifier_to_version_set p = Ok a -> specifier_to_version_set q = Ok b -> canonical a -> canonical b -> proper a -> proper b ->
  t_to_version_set (TAnyOf [retype_spec T p; retype_spec U q]) = Err TypeError.
Proof.
  intros D P Q Ca Cb Pa Pb. cbn [t_to_version_set g_reduce_map g_reduce_from]. rewrite !o_to_version_set, P, Q. cbn [rmap bind].
  rewrite (mixed_union T U D a b Ca Cb Pa Pb). reflexivity.
Qed.

Theorem parsed_canonical s a : parse_version_set s = Ok a -> canonical a.
Proof.
  intros B. unfold parse_version_set in B. destruct (parse_specifier s) as [p|] eqn:P; [|discriminate]. cbn [bind] in B. destruct (SpecMeaning.parsed_made s p P) as [M F].
  destruct (SpecifierFacts.convert_accepts p a M F B) as [C _]. exact C.
Qed.

Theorem parsed_any T U s u p q a b : T <> U -> t_parse_specifier T s = Ok p -> t_parse_specifier U u = Ok q -> parse_version_set s = Ok a -> parse_version_set u = Ok b ->
  proper a -> proper b -> t_to_version_set (TAnyOf [p; q]) = Err TypeError.
Proof.
  intros D P Q A B Pa Pb. assert (Ca := parsed_canonical s a A). assert (Cb := parsed_canonical u b B). unfold t_parse_specifier, parse_version_set in *.
  destruct (parse_specifier s) as [p'|]; [|discriminate]. destruct (parse_specifier u) as [q'|]; [|discriminate]. injection P as <-. injection Q as <-.
  exact (mixed_any T U p' q' a b D A B Ca Cb Pa Pb).
Qed.

Theorem classless T U a : ~ proper a -> carry_set (Typed T) a = carry_set (Typed U) a.
Proof.
  unfold proper. intros N. destruct a as [|[v|[m|] [M|] [|] [|]]|is]; try reflexivity; destruct N; split; discriminate.
Qed.
