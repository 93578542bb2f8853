(** Calls made with one class of versions, among calls made with others. *)

From Coq Require Import List ZArith NArith String Bool Lia.
From Verif Require Import Py Segments Version VersionSets Operators SetStrings Specifiers Parsers Spec Orders Caches Histories
  SpecifierFacts CacheFacts Typed TypedSpec TypedFacts GenericSets GenericFacts TypedSets MixedFacts RenameFacts TypedSetFacts TypedCaches SeparateSpec SeparateFacts SeparateStates SeparateBack.
Import ListNotations.
Local Open Scope nat_scope.
Local Opaque key v_cmp v_eq t_union t_intersection t_complement t_translate t_item_to_specifier.

(** ** One class alone *)

Lemma lookup_map {K K' V V'} (same : K -> K -> bool) (same' : K' -> K' -> bool) (f : K' -> K) (g : V' -> V) k d :
  (forall a b, same (f a) (f b) = same' a b) -> lookup same (f k) (map (fun x => (f (fst x), g (snd x))) d) = option_map g (lookup same' k d).
Proof. intros E. induction d as [|[k' v] d IH]; auto. cbn [map lookup fst snd]. rewrite E. now destruct (same' k k'). Qed.

Section Alone.
  Context (h : op_type -> N) (mix : list N -> N) (T : vtype).
  Notation V := (carry_set (Typed T)).
  Notation I := (carry_item (Typed T)).
  Notation R := (retype_spec T).
  Notation args := (Arguments 0 T).

  Definition image (w : caches) : tcaches :=
    TCaches (map (fun x => (args (fst x), Typed T (snd x))) (c_version w)) (map (fun x => (args (fst x), R (snd x))) (c_specifier w))
      (map (fun x => (args (fst x), V (snd x))) (c_set w)) (map (fun x => (R (fst x), V (snd x))) (c_convert w)) (map (fun x => (V (fst x), R (snd x))) (c_revert w)).

  Definition locked {A B} (g : A -> B) (mt : tact B) (m : act A) : Prop := forall w, mt (image w) = (rmap g (fst (m w)), image (snd (m w))).

  Lemma lock_lift {A B} (g : A -> B) r r' : r = rmap g r' -> locked g (tlift r) (lift r').
  Proof. intros -> w. reflexivity. Qed.
  Lemma lock_then {A B A' B'} (g : A -> B) (g' : A' -> B') mt m kt k : locked g mt m -> (forall a, locked g' (kt (g a)) (k a)) -> locked g' (tThen mt kt) (andThen m k).
  Proof. intros M K w. unfold tThen, andThen. rewrite M. destruct (m w) as [[a|e] w']; [apply K|reflexivity]. Qed.
  Lemma lock_cached {A B K K'} (f : K' -> K) (g : A -> B) same same' get put get' put' k body body' :
    (forall a b, same (f a) (f b) = same' a b) -> (forall w, get (image w) = map (fun x => (f (fst x), g (snd x))) (get' w)) ->
    (forall l w, put (map (fun x => (f (fst x), g (snd x))) l) (image w) = image (put' l w)) -> locked g body body' ->
    locked g (tcached same get put (f k) body) (cached same' get' put' k body').
  Proof.
    intros E G P BD w. unfold tcached, cached. rewrite G, (lookup_map same same' f g k _ E). destruct (lookup same' k (get' w)) as [v|]; [reflexivity|].
    apply (lock_then g g body body'); auto. intros a w'. rewrite G. cbn [fst snd rmap]. f_equal. now rewrite <- P.
  Qed.

  Lemma args_same a b : same_arguments (args a) (args b) = str_eqb a b.
  Proof. unfold same_arguments. cbn [a_how a_type a_string]. now rewrite !Nat.eqb_refl. Qed.

  Lemma lock_reduce f f' g g' ss : (forall a b, f' (V a) (V b) = rmap V (f a b)) -> Forall (fun s => locked V (g' (R s)) (g s)) ss ->
    locked V (t_reduce_map_c f' g' (map R ss)) (reduce_map_c f g ss).
  Proof.
    intros F G. assert (X : forall ss, Forall (fun s => locked V (g' (R s)) (g s)) ss -> forall acc, locked V (t_reduce_from_c f' g' (V acc) (map R ss)) (reduce_from_c f g acc ss)).
    { clear G ss. induction 1 as [|s ss S G IH]; intros acc; [now apply lock_lift|]. cbn [map t_reduce_from_c reduce_from_c]. eapply lock_then; [exact S|]. intros a.
      eapply lock_then; [apply lock_lift, F|]. exact IH. }
    destruct G as [|s ss S G]; [now apply lock_lift|]. cbn [map t_reduce_map_c reduce_map_c]. eapply lock_then; [exact S|]. intros a. now apply X.
  Qed.

  Lemma lock_convert p : locked V (t_to_version_set_c h mix (R p)) (specifier_to_version_set_c h mix p).
  Proof.
    assert (C := t_cmp_same T). assert (E := t_same_same T).
    induction p as [| |t v|ss IH|ss IH] using spec_members;
    (match goal with |- locked _ _ (specifier_to_version_set_c _ _ ?p) =>
      apply (lock_cached R V (same_tspec h mix) (same_spec h mix) tc_convert tput_convert c_convert put_convert p); [apply same_spec_in|reflexivity|reflexivity|] end);
    try (now apply lock_lift).
    - apply lock_lift, o_translate.
    - apply (lock_reduce union t_union); [exact (c_union _ _ _ C E)|exact IH].
    - apply (lock_reduce intersection t_intersection); [exact (c_intersection _ _ _ C E)|exact IH].
  Qed.

  Lemma lock_item i : locked R (t_item_to_specifier_c mix (I i)) (item_to_specifier_c mix i).
  Proof.
    apply (lock_cached V R (same_tset mix) (same_set mix) tc_revert tput_revert c_revert put_revert (Item i)); [apply same_set_in|reflexivity|reflexivity|].
    apply lock_lift, o_item_to_specifier.
  Qed.
  Lemma lock_items is : locked (map R) (t_mapM_c (t_item_to_specifier_c mix) (map I is)) (mapM_c (item_to_specifier_c mix) is).
  Proof.
    induction is as [|i is IH]; [now apply lock_lift|]. cbn [map t_mapM_c mapM_c]. eapply lock_then; [apply lock_item|]. intros s. eapply lock_then; [exact IH|].
    intros ss. now apply lock_lift.
  Qed.
  Lemma lock_revert a : locked R (t_to_specifier_c mix (V a)) (version_set_to_specifier_c mix a).
  Proof.
    apply (lock_cached V R (same_tset mix) (same_set mix) tc_revert tput_revert c_revert put_revert a); [apply same_set_in|reflexivity|reflexivity|].
    destruct a as [|i|is]; [now apply lock_lift|apply lock_lift, o_item_to_specifier|].
    assert (O : t_complement (V (Union is)) = rmap V (complement (Union is))) by apply o_complement.
    assert (L : locked R (tThen (t_mapM_c (t_item_to_specifier_c mix) (map I is)) (fun ss => tlift (Ok (t_any_of ss)))) (andThen (mapM_c (item_to_specifier_c mix) is) (fun ss => lift (Ok (any_of ss))))).
    { eapply lock_then; [apply lock_items|]. intros ss. apply lock_lift. cbn [rmap]. now rewrite o_any_of. }
    intros w. cbn [carry_set] in *. specialize (L w). unfold tThen at 1, andThen at 1 2, tlift at 1, lift at 1 3. rewrite O. unfold exclude_version.
    destruct (complement (Union is)) as [[|[v|? ? ? ?]|?]|e]; cbn [rmap bind carry_set carry_item fst snd]; try reflexivity; exact L.
  Qed.

  Lemma lock_give {A B} (g : A -> B) wt wa mt (m : act A) : (forall a, wt (g a) = answer_in T (wa a)) -> locked g mt m -> locked (answer_in T) (tgive wt mt) (give wa m).
  Proof. intros E M. unfold tgive, give. eapply lock_then; [exact M|]. intros a. apply lock_lift. cbn. now rewrite E. Qed.

  Lemma lock_call c : locked (answer_in T) (t_do_call h mix (in_class (Classed 0 T c))) (do_call h mix c).
  Proof.
    destruct c as [s|s|s|p|a|p]; cbn [in_class c_call c_how c_class t_do_call do_call].
    - eapply lock_give; [reflexivity|]. apply (lock_cached args (Typed T) same_arguments str_eqb tc_version tput_version c_version put_version s); try reflexivity; [apply args_same|].
      now apply lock_lift.
    - eapply lock_give; [reflexivity|]. apply (lock_cached args R same_arguments str_eqb tc_specifier tput_specifier c_specifier put_specifier s); try reflexivity; [apply args_same|].
      now apply lock_lift.
    - eapply lock_give; [reflexivity|]. apply (lock_cached args V same_arguments str_eqb tc_set tput_set c_set put_set s); try reflexivity; [apply args_same|].
      eapply lock_then; [now apply lock_lift|]. exact lock_convert.
    - eapply lock_give; [reflexivity|]. apply lock_convert.
    - eapply lock_give; [reflexivity|]. apply lock_revert.
    - eapply lock_give; [reflexivity|]. unfold t_simplify_c, simplify_c. eapply lock_then; [apply lock_convert|]. exact lock_revert.
  Qed.
End Alone.

(** ** Parsing *)

Lemma same_arguments_eq x y : same_arguments x y = true -> x = y.
Proof.
  unfold same_arguments. rewrite !andb_true_iff. intros ((H & K) & S). apply Nat.eqb_eq in H. apply Nat.eqb_eq in K. apply str_eqb_eq in S. destruct x, y. cbn in *. now subst.
Qed.
Lemma same_arguments_refl x : same_arguments x x = true.
Proof. unfold same_arguments. rewrite !Nat.eqb_refl. now apply str_eqb_eq. Qed.

Section Main.
  Context (h : op_type -> N) (mix : list N -> N).
  Notation find := (lookup same_arguments).
  Notation convert := (t_to_version_set_c h mix).
  Notation revert := (t_to_specifier_c mix).
  Notation conv := (conv h mix).
  Notation meet := (meet h mix).
  Notation meet_back := (meet_back mix).

  (** What every history leaves in the dictionaries. *)
  Definition good (d : tcaches) : Prop :=
    (forall x v, find x (tc_version d) = Some v -> t_parse_version (a_type x) (a_string x) = Ok v)
    /\ (forall x p, find x (tc_specifier d) = Some p -> t_parse_specifier (a_type x) (a_string x) = Ok p)
    /\ (forall x a, find x (tc_set d) = Some a -> exists p, t_parse_specifier (a_type x) (a_string x) = Ok p /\ conv p d = Some a).

  Lemma good_version x d : good d -> fst (t_parse_version_c x d) = t_parse_version (a_type x) (a_string x) /\ good (snd (t_parse_version_c x d))
    /\ tc_convert (snd (t_parse_version_c x d)) = tc_convert d /\ tc_revert (snd (t_parse_version_c x d)) = tc_revert d.
  Proof.
    intros (G1 & G2 & G3). unfold t_parse_version_c, tcached. destruct (find x (tc_version d)) as [v|] eqn:F.
    - cbn [fst snd]. split; [symmetry; now apply G1|]. split; [split; [assumption|]; now split|]; now split.
    - unfold tThen, tlift. destruct (t_parse_version _ _) as [v|e] eqn:P; [|split; [reflexivity|]; split; [split; [assumption|]; now split|]; now split]. cbn [fst snd]. split; [reflexivity|]. split; [|now split]. split; [|now split].
      intros y w. cbn [tput_version tc_version lookup]. destruct (same_arguments y x) eqn:S; [|apply G1]. apply same_arguments_eq in S. subst y. congruence.
  Qed.
  Lemma good_specifier x d : good d -> fst (t_parse_specifier_c x d) = t_parse_specifier (a_type x) (a_string x) /\ good (snd (t_parse_specifier_c x d))
    /\ tc_convert (snd (t_parse_specifier_c x d)) = tc_convert d /\ tc_revert (snd (t_parse_specifier_c x d)) = tc_revert d.
  Proof.
    intros (G1 & G2 & G3). unfold t_parse_specifier_c, tcached. destruct (find x (tc_specifier d)) as [v|] eqn:F.
    - cbn [fst snd]. split; [symmetry; now apply G2|]. split; [split; [assumption|]; now split|]; now split.
    - unfold tThen, tlift. destruct (t_parse_specifier _ _) as [v|e] eqn:P; [|split; [reflexivity|]; split; [split; [assumption|]; now split|]; now split]. cbn [fst snd]. split; [reflexivity|]. split; [|now split]. split; [assumption|]. split; [|assumption].
      intros y w. cbn [tput_specifier tc_specifier lookup]. destruct (same_arguments y x) eqn:S; [|apply G2]. apply same_arguments_eq in S. subst y. congruence.
  Qed.

  Lemma good_convert p d : good d -> good (snd (convert p d)).
  Proof.
    intros (G1 & G2 & G3). destruct (convert_keeps h mix p d) as (K1 & K2 & K3 & _). unfold good. rewrite <- K1, <- K2, <- K3. split; [assumption|]. split; [assumption|].
    intros x a F. destruct (G3 x a F) as (q & Q & C). exists q. split; [assumption|]. now apply convert_persists.
  Qed.
  Lemma good_revert a d : good d -> good (snd (revert a d)).
  Proof.
    intros (G1 & G2 & G3). destruct (revert_keeps mix a d) as (K1 & K2 & K3 & K4). unfold good, SeparateStates.conv. rewrite <- K1, <- K2, <- K3, <- K4. auto.
  Qed.

  Definition parse_convert (x : arguments) : tact (gset typed) := tThen (tlift (t_parse_specifier (a_type x) (a_string x))) convert.

  Lemma good_set x d : good d -> fst (t_parse_version_set_c h mix x d) = fst (parse_convert x d) /\ good (snd (t_parse_version_set_c h mix x d))
    /\ tc_convert (snd (t_parse_version_set_c h mix x d)) = tc_convert (snd (parse_convert x d)) /\ tc_revert (snd (t_parse_version_set_c h mix x d)) = tc_revert (snd (parse_convert x d)).
  Proof.
    intros G. assert (G' := G). destruct G' as (G1 & G2 & G3). unfold t_parse_version_set_c, tcached. fold (parse_convert x).
    destruct (find x (tc_set d)) as [a|] eqn:F.
    - cbn [fst snd]. destruct (G3 x a F) as (p & P & C). unfold parse_convert, tThen, tlift. rewrite P, convert_eq. rewrite C. cbn [fst snd]. split; [reflexivity|]; split; [assumption|]; now split.
    - unfold parse_convert, tThen, tlift. destruct (t_parse_specifier _ _) as [p|e] eqn:P; [|split; [reflexivity|]; split; [assumption|]; now split].
      assert (K := good_convert p d G). assert (S := fun a => convert_stores h mix p a d). destruct (convert p d) as [[a|e] d']; cbn [fst snd] in *; [|split; [reflexivity|]; split; [assumption|]; now split].
      split; [reflexivity|]. split; [|now split]. destruct K as (K1 & K2 & K3). split; [assumption|]. split; [assumption|].
      intros y b. cbn [tput_set tc_set lookup]. destruct (same_arguments y x) eqn:E; [|apply K3]. apply same_arguments_eq in E. subst y. intros H. injection H as <-.
      exists p. split; [assumption|]. now apply S.
  Qed.

  Lemma give_fst {A} (wr : A -> tanswer) (m : tact A) d : fst (tgive wr m d) = rmap wr (fst (m d)).
  Proof. unfold tgive, tThen, tlift. now destruct (m d) as [[a|e] d']. Qed.
  Lemma give_snd {A} (wr : A -> tanswer) (m : tact A) d : snd (tgive wr m d) = snd (m d).
  Proof. unfold tgive, tThen, tlift. now destruct (m d) as [[a|e] d']. Qed.

  Lemma good_call c d : good d -> good (snd (t_do_call h mix c d)).
  Proof.
    intros G. destruct c as [x|x|x|p|a|p]; cbn [t_do_call]; rewrite give_snd.
    - now apply good_version.
    - now apply good_specifier.
    - now apply good_set.
    - now apply good_convert.
    - now apply good_revert.
    - unfold t_simplify_c, tThen. assert (K := good_convert p d G). destruct (convert p d) as [[a|e] d']; [now apply good_revert|exact K].
  Qed.
  Lemma good_calls cs : forall d, good d -> good (t_do_calls h mix cs d).
  Proof. induction cs as [|c cs IH]; intros d G; auto. cbn [t_do_calls]. now apply IH, good_call. Qed.
  Lemma good_empty : good no_tcaches.
  Proof. split; [|split]; intros x a F; discriminate F. Qed.

  (** Any calls, also with several classes in one specifier. *)
  Theorem any_version cs x : t_answer_after h mix cs (TParseVersion x) = t_answer_alone (TParseVersion x).
  Proof. unfold t_answer_after. cbn [t_do_call t_answer_alone]. rewrite give_fst. now rewrite (proj1 (good_version x _ (good_calls cs _ good_empty))). Qed.
  Theorem any_specifier cs x : t_answer_after h mix cs (TParseSpecifier x) = t_answer_alone (TParseSpecifier x).
  Proof. unfold t_answer_after. cbn [t_do_call t_answer_alone]. rewrite give_fst. now rewrite (proj1 (good_specifier x _ (good_calls cs _ good_empty))). Qed.

  (** ** Two classes *)

  Lemma meet_convert T d d' e e' : tc_convert d = tc_convert d' -> tc_convert e = tc_convert e' -> meet T d e -> meet T d' e'.
  Proof. unfold meet, plain_exact, SeparateStates.conv. intros -> ->. auto. Qed.
  Lemma meet_revert T d d' e e' : tc_revert d = tc_revert d' -> tc_revert e = tc_revert e' -> meet_back T d e -> meet_back T d' e'.
  Proof. unfold meet_back, back_exact, rev_of. intros -> ->. auto. Qed.

  Definition joined (T : vtype) (d e : tcaches) : Prop := meet T d e /\ meet_back T d e /\ good d /\ good e.

  Lemma joined_convert T p d e : joined T d e -> fst (convert (retype_spec T p) d) = fst (convert (retype_spec T p) e)
    /\ joined T (snd (convert (retype_spec T p) d)) (snd (convert (retype_spec T p) e)).
  Proof.
    intros (M & B & Gd & Ge). destruct (convert_along h mix T p d e M) as [E M']. split; [exact E|]. split; [exact M'|]. split; [|split; now apply good_convert].
    apply (meet_revert T d _ e _); auto; [apply (convert_keeps h mix (retype_spec T p) d)|apply (convert_keeps h mix (retype_spec T p) e)].
  Qed.
  Lemma joined_revert T a d e : joined T d e -> fst (revert (carry_set (Typed T) a) d) = fst (revert (carry_set (Typed T) a) e)
    /\ joined T (snd (revert (carry_set (Typed T) a) d)) (snd (revert (carry_set (Typed T) a) e)).
  Proof.
    intros (M & B & Gd & Ge). destruct (revert_along mix T a d e B) as [E B']. split; [exact E|]. split; [|split; [exact B'|split; now apply good_revert]].
    apply (meet_convert T d _ e _); auto; [apply (revert_keeps mix (carry_set (Typed T) a) d)|apply (revert_keeps mix (carry_set (Typed T) a) e)].
  Qed.

  (** The call in both states, however it is written in each. *)
  Lemma joined_call T n m c d w : joined T d (image T w) ->
    fst (t_do_call h mix (in_class (Classed n T c)) d) = fst (t_do_call h mix (in_class (Classed m T c)) (image T w))
    /\ joined T (snd (t_do_call h mix (in_class (Classed n T c)) d)) (snd (t_do_call h mix (in_class (Classed m T c)) (image T w))).
  Proof.
    intros J. assert (J' := J). destruct J' as (M & B & Gd & Ge). destruct c as [s|s|s|p|a|p]; cbn [in_class c_call c_how c_class t_do_call]; rewrite !give_fst, !give_snd.
    - destruct (good_version (Arguments n T s) d Gd) as (D1 & D2 & D3 & D4), (good_version (Arguments m T s) (image T w) Ge) as (E1 & E2 & E3 & E4). rewrite D1, E1.
      split; [reflexivity|]. split; [eapply meet_convert; [| |exact M]; congruence|]. split; [eapply meet_revert; [| |exact B]; congruence|now split].
    - destruct (good_specifier (Arguments n T s) d Gd) as (D1 & D2 & D3 & D4), (good_specifier (Arguments m T s) (image T w) Ge) as (E1 & E2 & E3 & E4). rewrite D1, E1.
      split; [reflexivity|]. split; [eapply meet_convert; [| |exact M]; congruence|]. split; [eapply meet_revert; [| |exact B]; congruence|now split].
    - destruct (good_set (Arguments n T s) d Gd) as (D1 & D2 & D3 & D4), (good_set (Arguments m T s) (image T w) Ge) as (E1 & E2 & E3 & E4). rewrite D1, E1.
      assert (K : fst (parse_convert (Arguments n T s) d) = fst (parse_convert (Arguments m T s) (image T w))
        /\ joined T (snd (parse_convert (Arguments n T s) d)) (snd (parse_convert (Arguments m T s) (image T w)))).
      { unfold parse_convert, tThen, tlift, t_parse_specifier. cbn [a_type a_string]. destruct (parse_specifier s) as [p|e]; [|now split]. now apply joined_convert. }
      destruct K as (K1 & M' & B' & _). rewrite K1. split; [reflexivity|]. split; [eapply meet_convert; [| |exact M']; congruence|]. split; [eapply meet_revert; [| |exact B']; congruence|now split].
    - destruct (joined_convert T p d (image T w) J) as [E J']. now rewrite E.
    - destruct (joined_revert T a d (image T w) J) as [E J']. now rewrite E.
    - unfold t_simplify_c, tThen. destruct (joined_convert T p d (image T w) J) as [E J']. assert (L := lock_convert h mix T p w).
      destruct (convert (retype_spec T p) d) as [[a|e] d'], (convert (retype_spec T p) (image T w)) as [[a'|e'] i']; cbn [fst snd] in *; try discriminate; [|injection E as <-; now split].
      injection E as <-. injection L as L _. destruct (fst (specifier_to_version_set_c h mix p w)) as [a0|e0]; [|discriminate]. cbn in L. injection L as ->.
      destruct (joined_revert T a0 d' i' J') as [E' J'']. now rewrite E'.
  Qed.

  (** A call of another class; [w] is a state that goes along with it. *)
  Lemma joined_aside T U n c d e w : T <> U -> joined U d (image U w) -> joined T d e -> joined T (snd (t_do_call h mix (in_class (Classed n U c)) d)) e.
  Proof.
    intros D JU (M & B & Gd & Ge). assert (G := good_call (in_class (Classed n U c)) d Gd). split; [|split; [|now split]]; clear G; 
      destruct c as [s|s|s|p|a|p]; cbn [in_class c_call c_how c_class t_do_call]; rewrite !give_snd.
    - destruct (good_version (Arguments n U s) d Gd) as (D1 & D2 & D3 & D4). eapply meet_convert; [| |exact M]; congruence.
    - destruct (good_specifier (Arguments n U s) d Gd) as (D1 & D2 & D3 & D4). eapply meet_convert; [| |exact M]; congruence.
    - destruct (good_set (Arguments n U s) d Gd) as (D1 & D2 & D3 & D4).
      assert (K : meet T (snd (parse_convert (Arguments n U s) d)) e).
      { unfold parse_convert, tThen, tlift, t_parse_specifier. cbn [a_type a_string]. destruct (parse_specifier s) as [p|x]; [|assumption]. now apply convert_aside. }
      eapply meet_convert; [| |exact K]; congruence.
    - now apply convert_aside.
    - eapply meet_convert; [| |exact M]; [|reflexivity]. apply (revert_keeps mix (carry_set (Typed U) a) d).
    - unfold t_simplify_c, tThen. assert (K := convert_aside h mix T U p d e D M). destruct (convert (retype_spec U p) d) as [[a|x] d']; cbn [fst snd] in *; [|assumption].
      eapply meet_convert; [| |exact K]; [|reflexivity]. apply (revert_keeps mix a d').
    - destruct (good_version (Arguments n U s) d Gd) as (D1 & D2 & D3 & D4). eapply meet_revert; [| |exact B]; congruence.
    - destruct (good_specifier (Arguments n U s) d Gd) as (D1 & D2 & D3 & D4). eapply meet_revert; [| |exact B]; congruence.
    - destruct (good_set (Arguments n U s) d Gd) as (D1 & D2 & D3 & D4).
      assert (K : tc_revert (snd (parse_convert (Arguments n U s) d)) = tc_revert d).
      { unfold parse_convert, tThen, tlift, t_parse_specifier. cbn [a_type a_string]. destruct (parse_specifier s) as [p|x]; [|reflexivity]. cbn [rmap]. symmetry. apply (convert_keeps h mix (retype_spec U p) d). }
      eapply meet_revert; [| |exact B]; congruence.
    - eapply meet_revert; [| |exact B]; [|reflexivity]. apply (convert_keeps h mix (retype_spec U p) d).
    - now apply revert_aside.
    - unfold t_simplify_c, tThen. destruct (joined_convert U p d (image U w) JU) as [E _]. assert (L := lock_convert h mix U p w). assert (Kp := convert_keeps h mix (retype_spec U p) d).
      destruct (convert (retype_spec U p) d) as [[a|x] d'], (convert (retype_spec U p) (image U w)) as [[a'|x'] i']; cbn [fst snd] in *; try discriminate.
      + injection E as <-. injection L as L _. destruct (fst (specifier_to_version_set_c h mix p w)) as [a0|e0]; [|discriminate]. cbn in L. injection L as ->.
        apply revert_aside; auto. eapply meet_revert; [| |exact B]; [|reflexivity]. apply Kp.
      + eapply meet_revert; [| |exact B]; [|reflexivity]. apply Kp.
  Qed.

  Definition all_joined (d : tcaches) (w : vtype -> caches) : Prop := forall T, joined T d (image T (w T)).

  Lemma step d w x : all_joined d w -> fst (t_do_call h mix (in_class x) d) = rmap (answer_in (c_class x)) (fst (do_call h mix (c_call x) (w (c_class x))))
    /\ all_joined (snd (t_do_call h mix (in_class x) d)) (fun T => if Nat.eqb (c_class x) T then snd (do_call h mix (c_call x) (w T)) else w T).
  Proof.
    intros J. destruct x as [n U c]. cbn [c_class c_call]. destruct (joined_call U n 0 c d (w U) (J U)) as [E K]. assert (L := lock_call h mix U c (w U)). rewrite L in E, K. cbn [fst snd] in E, K.
    split; [exact E|]. intros T. destruct (Nat.eqb U T) eqn:Q.
    - apply Nat.eqb_eq in Q. subst T. exact K.
    - apply Nat.eqb_neq in Q. apply (joined_aside T U n c d (image T (w T)) (w U)); auto.
  Qed.

  Lemma steps xs : forall d w, all_joined d w -> all_joined (t_do_calls h mix (map in_class xs) d) (fun T => do_calls h mix (calls_of T xs) (w T)).
  Proof.
    induction xs as [|x xs IH]; intros d w J; [exact J|]. cbn [map t_do_calls]. destruct (step d w x J) as [_ K]. assert (F := IH _ _ K).
    intros T. specialize (F T). cbn [calls_of]. cbn beta in F. destruct (Nat.eqb (c_class x) T); exact F.
  Qed.

  Lemma start : all_joined no_tcaches (fun _ => no_caches).
  Proof.
    intros T. split; [|split; [|split; exact good_empty]]; (split; [|split]); try (intros q a P F; discriminate F); reflexivity.
  Qed.

  Theorem separate xs x : t_answer_after h mix (map in_class xs) (in_class x) = rmap (answer_in (c_class x)) (answer_after h mix (calls_of (c_class x) xs) (c_call x)).
  Proof. unfold t_answer_after, answer_after. exact (proj1 (step _ _ x (steps xs _ _ start))). Qed.
End Main.

Lemma others h mix xs ys x y : c_class x = c_class y -> c_call x = c_call y -> calls_of (c_class x) xs = calls_of (c_class x) ys ->
  t_answer_after h mix (map in_class xs) (in_class x) = t_answer_after h mix (map in_class ys) (in_class y).
Proof. intros C D H. rewrite !separate, H, D. now rewrite C. Qed.

Lemma as_transparent h mix xs x : let cs := calls_of (c_class x) xs in Forall fair (c_call x :: cs) -> spelled_enough (c_call x :: cs) ->
  exists r, t_answer_after h mix (map in_class xs) (in_class x) = rmap (answer_in (c_class x)) r /\ agree r (answer_alone (c_call x)).
Proof. cbn zeta. intros F S. eexists. split; [apply separate|]. now apply transparent. Qed.
