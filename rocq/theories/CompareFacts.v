(** Facts about the comparison of any two objects. *)

From Coq Require Import List ZArith NArith String Bool Lia.
From Verif Require Import Py Segments Version VersionSets Operators Specifiers Spec Rich Classes Compare CompareSpec
  Orders Cuts OrderFacts RichFacts OperatorFacts SpecifierFacts CacheFacts.
Import ListNotations.

Local Opaque key.

(** ** Ranges and points *)

Definition end_key (b : ext version) : ext vkey :=
  match b with NegInf => NegInf | Fin v => Fin (key v) | PosInf => PosInf end.
Definition item_key (i : item) : ext vkey * (bool * (ext vkey * bool)) :=
  (end_key (comparable_min i), (negb (i_include_min i), (end_key (comparable_max i), i_include_max i))).
Definition item_key_cmp (x y : ext vkey * (bool * (ext vkey * bool))) : comparison :=
  then_cmp (ext_cmp key_cmp (fst x) (fst y))
  (then_cmp (bool_cmp (fst (snd x)) (fst (snd y)))
  (then_cmp (ext_cmp key_cmp (fst (snd (snd x))) (fst (snd (snd y))))
            (bool_cmp (snd (snd (snd x))) (snd (snd (snd y)))))).

Lemma lawful_item_key : lawful item_key_cmp.
Proof.
  assert (L0 : lawful (fun x y : ext vkey * bool => then_cmp (ext_cmp key_cmp (fst x) (fst y)) (bool_cmp (snd x) (snd y)))).
  { apply (lawful_then _ _ fst snd (lawful_ext _ lawful_key) lawful_bool). intros [] []; cbn; congruence. }
  assert (L1 : lawful (fun x y : bool * (ext vkey * bool) => then_cmp (bool_cmp (fst x) (fst y))
     (then_cmp (ext_cmp key_cmp (fst (snd x)) (fst (snd y))) (bool_cmp (snd (snd x)) (snd (snd y)))))).
  { apply (lawful_then _ _ fst snd lawful_bool L0). intros [] []; cbn; congruence. }
  apply (lawful_then _ _ fst snd (lawful_ext _ lawful_key) L1). intros [] []; cbn; congruence.
Qed.

Lemma b_cmp_key x y : b_cmp x y = ext_cmp key_cmp (end_key x) (end_key y).
Proof. now destruct x, y. Qed.

Lemma item_compare_key s o : item_compare s o = item_key_cmp (item_key s) (item_key o).
Proof.
  unfold item_compare, item_key_cmp, item_key. cbn [fst snd]. rewrite !b_cmp_key. unfold i_exclude_min, i_exclude_max.
  destruct (ext_cmp key_cmp (end_key (comparable_min s)) (end_key (comparable_min o))); cbn [then_cmp]; auto.
  destruct (i_include_min s), (i_include_min o); cbn [negb Bool.eqb bool_cmp then_cmp]; auto;
    (destruct (ext_cmp key_cmp (end_key (comparable_max s)) (end_key (comparable_max o))); cbn [then_cmp]; auto;
     now destruct (i_include_max s), (i_include_max o)).
Qed.

Lemma o_eq_lower m n : o_eq m n = true <-> end_key (lower_bound m) = end_key (lower_bound n).
Proof.
  destruct m as [v|], n as [w|]; cbn; split; try discriminate; auto.
  - intros E. f_equal. now apply v_eq_key.
  - intros E. apply v_eq_key. congruence.
Qed.
Lemma o_eq_upper m n : o_eq m n = true <-> end_key (upper_bound m) = end_key (upper_bound n).
Proof.
  destruct m as [v|], n as [w|]; cbn; split; try discriminate; auto.
  - intros E. f_equal. now apply v_eq_key.
  - intros E. apply v_eq_key. congruence.
Qed.

Lemma item_eqb_key s o : item_eqb s o = true <-> item_key s = item_key o.
Proof.
  unfold item_eqb, item_key. rewrite !andb_true_iff, !eqb_true_iff, o_eq_lower, o_eq_upper.
  unfold comparable_min, comparable_max. split.
  - intros [[[-> ->] ->] ->]. reflexivity.
  - intros [= -> E -> ->]. repeat split. now destruct (i_include_min s), (i_include_min o).
Qed.

Lemma item_eqb_cmp s o : item_eqb s o = is_eq (item_compare s o).
Proof.
  apply eq_true_iff_eq. rewrite item_eqb_key, item_compare_key, <- (law_eq lawful_item_key).
  destruct (item_key_cmp (item_key s) (item_key o)); cbn; split; congruence.
Qed.

Lemma item_method_cmp o s t : item_method o s t = native o (item_compare s t).
Proof.
  destruct o; cbn [item_method]; rewrite ?item_eqb_cmp; unfold item_lt, item_le, item_gt, item_ge;
    now destruct (item_compare s t).
Qed.

Lemma item_compare_flip s t : item_compare t s = CompOpp (item_compare s t).
Proof. rewrite !item_compare_key. apply (law_anti lawful_item_key). Qed.

Lemma native_flip o c : native (reflected o) (CompOpp c) = native o c.
Proof. now destruct o, c. Qed.

Lemma items_rich o s t : obj_rich o (OSet (Item s)) (OSet (Item t)) = Ok (native o (item_compare s t)).
Proof.
  assert (H : item_method (reflected o) t s = native o (item_compare s t)).
  { now rewrite item_method_cmp, item_compare_flip, native_flip. }
  destruct s, t; cbn [obj_rich]; rewrite ?H, ?item_method_cmp; reflexivity.
Qed.

(** ** Comparable objects *)

(** The three-way comparison of comparable objects. *)
Definition obj_cmp (x y : obj) : comparison :=
  match x, y with
  | OEpoch e, OEpoch f => Z.compare e f
  | ORelease r, ORelease s => rel_cmp r s
  | OTag _ t, OTag _ u => tag_cmp t u
  | OLocal l, OLocal m => lex local_part_key_cmp (map local_part_key l) (map local_part_key m)
  | OVersion v, OVersion w => v_cmp v w
  | OSet (Item s), OSet (Item t) => item_compare s t
  | _, _ => Eq
  end.

Lemma comparable_rich o x y : comparable x y -> obj_rich o x y = Ok (native o (obj_cmp x y)).
Proof.
  intros C. destruct x as [e|r|c t|l|v|t v|s|[|s|xs]]; destruct y as [f|r'|d u|m|w|u w|p|[|t'|ys]]; try destruct C; cbn [obj_cmp].
  - apply answers_epoch.
  - apply answers_release.
  - apply answers_tag.
  - apply answers_local.
  - apply answers_version.
  - apply items_rich.
Qed.

Lemma lawful_unit : lawful (fun _ _ : unit => Eq).
Proof. split; [intros [] []; tauto|reflexivity|discriminate]. Qed.

(** Comparable objects are compared by keys in some total order. *)
Lemma obj_cmp_keys x : exists (A : Type) (c : A -> A -> comparison) (f : obj -> A), lawful c /\
  forall y z, comparable x y -> comparable x z -> obj_cmp y z = c (f y) (f z).
Proof.
  destruct x as [e|r|k t|l|v|t v|s|[|s|xs]].
  - exists Z, Z.compare, (fun x => match x with OEpoch e => e | _ => 0%Z end). split; [exact lawful_Z|].
    intros y z Y Z. destruct y, z; try destruct Y; try destruct Z; reflexivity.
  - exists (list Z), (lex Z.compare), (fun x => match x with ORelease r => rel_compare_parts r | _ => [] end). split; [exact (lawful_lex _ lawful_Z)|].
    intros y z Y Z. destruct y, z; try destruct Y; try destruct Z; reflexivity.
  - exists tag, tag_cmp, (fun x => match x with OTag _ t => t | _ => t end). split; [exact lawful_tag|].
    intros y z Y Z. destruct y, z; try destruct Y; try destruct Z; reflexivity.
  - exists (list (ext Z * pstr)), (lex local_part_key_cmp), (fun x => match x with OLocal l => map local_part_key l | _ => [] end).
    split; [exact (lawful_lex _ lawful_local_part_key)|].
    intros y z Y Z. destruct y, z; try destruct Y; try destruct Z; reflexivity.
  - exists vkey, key_cmp, (fun x => match x with OVersion v => key v | _ => key v end). split; [exact lawful_key|].
    intros y z Y Z. destruct y, z; try destruct Y; try destruct Z; reflexivity.
  - exists unit, (fun _ _ => Eq), (fun _ => tt). split; [exact lawful_unit|]. intros y z [].
  - exists unit, (fun _ _ => Eq), (fun _ => tt). split; [exact lawful_unit|]. intros y z [].
  - exists unit, (fun _ _ => Eq), (fun _ => tt). split; [exact lawful_unit|]. intros y z [].
  - exists (ext vkey * (bool * (ext vkey * bool)))%type, item_key_cmp,
      (fun x => match x with OSet (Item i) => item_key i | _ => item_key s end). split; [exact lawful_item_key|].
    intros y z Y Z. destruct y as [| | | | | | |[]], z as [| | | | | | |[]]; try destruct Y; try destruct Z; apply item_compare_key.
  - exists unit, (fun _ _ => Eq), (fun _ => tt). split; [exact lawful_unit|]. intros y z [].
Qed.

Lemma comparable_refl x y : comparable x y -> comparable x x.
Proof. destruct x as [| | | | | | |[]]; cbn; auto; destruct y as [| | | | | | |[]]; auto. Qed.
Lemma comparable_sym x y : comparable x y -> comparable y x.
Proof. destruct x as [| | | | | | |[]], y as [| | | | | | |[]]; cbn; auto. Qed.
Lemma comparable_trans x y z : comparable x y -> comparable y z -> comparable x z.
Proof. destruct x as [| | | | | | |[]], y as [| | | | | | |[]]; intros H; try destruct H; destruct z as [| | | | | | |[]]; auto. Qed.

Theorem one_comparison x y : comparable x y -> exists c, forall o, obj_rich o x y = Ok (native o c).
Proof. intros C. exists (obj_cmp x y). intros o. now apply comparable_rich. Qed.

Definition said (o : rop) (x y : obj) : Prop := obj_rich o x y = Ok true.

Lemma said_cmp o x y : comparable x y -> said o x y <-> native o (obj_cmp x y) = true.
Proof. intros C. unfold said. rewrite (comparable_rich o x y C). split; congruence. Qed.

Theorem order_laws x y z : comparable x y -> comparable y z ->
  (said OpLe x y <-> said OpLt x y \/ said OpEq x y)
  /\ (said OpLt x y <-> said OpLe x y /\ ~ said OpLe y x)
  /\ (said OpEq x y <-> said OpLe x y /\ said OpLe y x)
  /\ (said OpLe x y \/ said OpLe y x)
  /\ (said OpLe x y -> said OpLe y z -> said OpLe x z)
  /\ (said OpLt x y -> said OpLe y z -> said OpLt x z)
  /\ (said OpLe x y -> said OpLt y z -> said OpLt x z).
Proof.
  intros XY YZ. pose proof (comparable_trans x y z XY YZ) as XZ. pose proof (comparable_sym x y XY) as YX.
  pose proof (comparable_refl x y XY) as XX.
  rewrite !said_cmp by assumption.
  destruct (obj_cmp_keys x) as (A & c & f & L & K).
  rewrite (K x y), (K y x), (K y z), (K x z) by assumption.
  generalize (f x) (f y) (f z). intros a b d. clear - L.
  pose proof (law_anti L a b) as F. rewrite F.
  destruct (c a b) eqn:AB; cbn [CompOpp native]; repeat split; try tauto; try discriminate; intros; auto;
    try (now destruct H); try discriminate.
  - apply (Orders.cmp_eq L) in AB. now subst.
  - apply (Orders.cmp_eq L) in AB. now subst.
  - destruct (c b d) eqn:BD; try discriminate.
    + apply (Orders.cmp_eq L) in BD. subst. now rewrite AB.
    + now rewrite (law_trans L a b d AB BD).
  - destruct (c b d) eqn:BD; try discriminate.
    + apply (Orders.cmp_eq L) in BD. subst. now rewrite AB.
    + now rewrite (law_trans L a b d AB BD).
  - destruct (c b d) eqn:BD; try discriminate. now rewrite (law_trans L a b d AB BD).
Qed.

(** ** Objects that are not *)

Lemma tag_class_dec (c d : tag_class) : {c = d} + {c <> d}.
Proof. decide equality. Qed.

Lemma comparable_dec x y : comparable x y \/ ~ comparable x y.
Proof.
  destruct x as [| |c ?| | | | |[]], y as [| |d ?| | | | |[]]; cbn; auto.
  destruct (tag_class_dec c d); auto.
Qed.

Theorem incomparable_raises o x y : ~ comparable x y -> ordering o ->
  (a_range x \/ a_range y -> obj_rich o x y = Err AttributeError)
  /\ (~ a_range x -> ~ a_range y -> obj_rich o x y = Err TypeError).
Proof.
  intros N O. destruct x as [| |c ?| | | | |[|[]|]], y as [| |d ?| | | | |[|[]|]]; cbn [comparable a_range] in *; try (now elim N);
    split; try tauto; intros; destruct o; try (now elim O); try reflexivity; try (destruct c; reflexivity).
  all: destruct c, d; try (now elim N); reflexivity.
Qed.

(** ** Equality *)

Lemma tied_cmp v w : tied v w <-> v_cmp v w = Eq.
Proof.
  unfold tied, v_lt. rewrite (v_cmp_key w v), (v_cmp_key v w), (law_anti lawful_key (key v) (key w)).
  destruct (key_cmp (key v) (key w)); cbn; split; try discriminate; try (intros []; discriminate); auto.
Qed.
Lemma tied_eq v w : v_eq v w = true <-> tied v w.
Proof. rewrite tied_cmp. unfold v_eq. destruct (v_cmp v w); cbn; split; congruence. Qed.

Lemma tied_ends_eq m n : o_eq m n = true <-> tied_ends m n.
Proof. destruct m, n; cbn; try apply tied_eq; split; try discriminate; tauto. Qed.

Lemma tied_items_eq s t : item_eqb s t = true <-> tied_items s t.
Proof.
  unfold item_eqb. rewrite !andb_true_iff, !eqb_true_iff, !tied_ends_eq.
  destruct s as [v|m n b c], t as [w|m' n' b' c']; cbn [i_min i_max i_include_min i_include_max]; split.
  - intros [[[A B] C] D]. now constructor.
  - intros H. inversion H; subst. auto.
  - intros [[[A B] C] D]. subst. now constructor.
  - intros H. inversion H; subst. auto.
  - intros [[[A B] C] D]. subst. now constructor.
  - intros H. inversion H; subst. auto.
  - intros [[[A B] C] D]. subst. now constructor.
  - intros H. inversion H; subst. auto.
Qed.

Lemma items_eqb_forall xs ys : items_eqb xs ys = true <-> Forall2 (fun s t => item_eqb s t = true) xs ys.
Proof.
  revert ys. induction xs as [|x xs IH]; intros [|y ys]; cbn [items_eqb].
  - split; auto.
  - split; [discriminate|intros H; inversion H].
  - split; [discriminate|intros H; inversion H].
  - rewrite andb_true_iff, IH. split; [intros []; now constructor|intros H; inversion H; auto].
Qed.

Lemma items_eqb_key xs ys : items_eqb xs ys = true <-> map item_key xs = map item_key ys.
Proof.
  revert ys. induction xs as [|x xs IH]; intros [|y ys]; cbn [items_eqb map]; try (split; congruence).
  rewrite andb_true_iff, IH, item_eqb_key. split; [intros [A B]; now rewrite A, B|].
  intros H. split; [exact (f_equal (fun l => hd (item_key x) l) H)|exact (f_equal (@tl _) H)].
Qed.

Lemma tied_unions_eq xs ys : items_eqb xs ys = true <-> Forall2 tied_items xs ys.
Proof.
  rewrite items_eqb_forall. split; intros H; induction H; constructor; auto; now apply tied_items_eq.
Qed.

Lemma same_operator_eq t u : op_eqb t u = true <-> same_operator t u.
Proof.
  split.
  - destruct t, u; try discriminate; intros _; constructor.
  - intros []; [apply op_eqb_refl|..]; reflexivity.
Qed.

Lemma tied_specs_eq s u : spec_eqb s u = true <-> tied_specs s u.
Proof.
  revert u. induction s as [| |t v|ss IH|ss IH] using spec_members; intros u; destruct u as [| |t' v'|us|us];
    try (split; [discriminate|intros H; inversion H]).
  - split; [constructor|reflexivity].
  - split; [constructor|reflexivity].
  - cbn [spec_eqb]. rewrite andb_true_iff, same_operator_eq, tied_eq. split; [intros []; now constructor|intros H; inversion H; auto].
  - rewrite spec_eqb_any. split.
    + intros H. constructor. revert IH. induction H as [|s u ss us E H J]; intros IH; constructor; inversion IH; subst; auto. now apply H2.
    + intros H. inversion H as [| | |ss' us' F|]; subst. clear H. revert IH. induction F as [|s u ss us E H J]; intros IH; constructor; inversion IH; subst; auto. now apply H2.
  - rewrite spec_eqb_all. split.
    + intros H. constructor. revert IH. induction H as [|s u ss us E H J]; intros IH; constructor; inversion IH; subst; auto. now apply H2.
    + intros H. inversion H as [| | | |ss' us' F]; subst. clear H. revert IH. induction F as [|s u ss us E H J]; intros IH; constructor; inversion IH; subst; auto. now apply H2.
Qed.

(** What [==] answers. *)
Definition obj_eq (x y : obj) : bool :=
  match x, y with
  | OOperator t v, OOperator u w => op_eqb t u && v_eq v w
  | OSpec s, OSpec u => spec_eqb s u
  | OSet Empty, OSet Empty => true
  | OSet (Union xs), OSet (Union ys) => items_eqb xs ys
  | OTag c _, OTag d _ => if tag_class_dec c d then is_eq (obj_cmp x y) else false
  | OEpoch _, OEpoch _ | ORelease _, ORelease _ | OLocal _, OLocal _ | OVersion _, OVersion _ => is_eq (obj_cmp x y)
  | OSet (Item _), OSet (Item _) => is_eq (obj_cmp x y)
  | _, _ => false
  end.

Lemma native_eq c : native OpEq c = is_eq c.
Proof. now destruct c. Qed.
Lemma native_ne c : native OpNe c = negb (is_eq c).
Proof. now destruct c. Qed.

Lemma obj_rich_eq x y : obj_rich OpEq x y = Ok (obj_eq x y) /\ obj_rich OpNe x y = Ok (negb (obj_eq x y)).
Proof.
  destruct (comparable_dec x y) as [C|C].
  - rewrite !(fun o => comparable_rich o x y C), native_eq, native_ne.
    destruct x as [| |c ?| | | | |[]], y as [| |d ?| | | | |[]]; try destruct C; cbn [obj_eq]; auto.
    destruct (tag_class_dec c c); [auto|now elim n].
  - destruct x as [| |c ?| | | | |[|[]|]], y as [| |d ?| | | | |[|[]|]]; cbn [comparable] in C; try (now elim C); try (now split); try (destruct c; now split).
    cbn [obj_eq]. destruct (tag_class_dec c d) as [->|N]; [now elim C|]. destruct c, d; try (now elim N); now split.
Qed.

Lemma native_eq_ok o c b : Ok (native o c) = Ok b -> native o c = b.
Proof. congruence. Qed.

Lemma obj_eq_tied x y : obj_eq x y = true <-> tied_objects x y.
Proof.
  assert (E : forall c, is_eq c = true <-> c = Eq) by (intros []; cbn; split; congruence).
  destruct x as [e|r|c t|l|v|t v|s|[|s|xs]], y as [f|r'|d u|m|w|u w|p|[|t'|ys]]; cbn [obj_eq obj_cmp];
    try (split; [discriminate|intros H; inversion H]).
  - rewrite E, (law_eq lawful_Z). split; [intros ->; constructor|intros H; now inversion H].
  - rewrite E, <- (cmp_release (Version 0 [0%Z] None None None None) r r'). cbn [set_release v_epoch v_pre v_post v_dev v_local]. rewrite <- tied_cmp.
    split; [now constructor|intros H; now inversion H].
  - destruct (tag_class_dec c d) as [->|N].
    + rewrite E, (law_eq lawful_tag). split; [intros ->; constructor|intros H; now inversion H].
    + split; [discriminate|intros H; inversion H; now elim N].
  - rewrite E, <- (cmp_local (Version 0 [0%Z] None None None None) l m). cbn [with_local set_local v_epoch v_release v_pre v_post v_dev]. rewrite <- tied_cmp.
    split; [now constructor|intros H; now inversion H].
  - rewrite E, <- tied_cmp. split; [now constructor|intros H; now inversion H].
  - rewrite andb_true_iff, same_operator_eq, tied_eq. split; [intros []; now constructor|intros H; now inversion H].
  - rewrite tied_specs_eq. split; [now constructor|intros H; now inversion H].
  - split; [constructor|reflexivity].
  - rewrite <- item_eqb_cmp, tied_items_eq. split; [now constructor|intros H; now inversion H].
  - rewrite tied_unions_eq. split; [now constructor|intros H; now inversion H].
Qed.

Theorem equality x y : (exists b, obj_rich OpEq x y = Ok b /\ obj_rich OpNe x y = Ok (negb b))
  /\ (obj_rich OpEq x y = Ok true <-> tied_objects x y).
Proof.
  destruct (obj_rich_eq x y) as [A B]. split; [eauto|]. rewrite A, <- obj_eq_tied. split; congruence.
Qed.

Lemma eq_cases x y : obj_eq x y = true ->
  comparable x y /\ obj_cmp x y = Eq \/
  match x, y with
  | OOperator t v, OOperator u w => op_eqb t u = true /\ v_eq v w = true
  | OSpec s, OSpec u => spec_eqb s u = true
  | OSet Empty, OSet Empty => True
  | OSet (Union xs), OSet (Union ys) => items_eqb xs ys = true
  | _, _ => False
  end.
Proof.
  assert (E : forall c, is_eq c = true <-> c = Eq) by (intros []; cbn; split; congruence).
  destruct x as [e|r|c t|l|v|t v|s|[|s|xs]], y as [f|r'|d u|m|w|u w|p|[|t'|ys]]; cbn [obj_eq comparable]; try discriminate; rewrite ?E; auto.
  - destruct (tag_class_dec c d); [|discriminate]. rewrite E. auto.
  - rewrite andb_true_iff. auto.
Qed.

Lemma obj_cmp_eq x y : comparable x y -> obj_cmp x y = Eq -> obj_eq x y = true.
Proof.
  intros C E. destruct x as [e|r|c t|l|v|t v|s|[|s|xs]], y as [f|r'|d u|m|w|u w|p|[|t'|ys]]; try destruct C; cbn [obj_eq]; try (now rewrite E).
  destruct (tag_class_dec c c) as [_|N]; [now rewrite E|now elim N].
Qed.

Lemma obj_cmp_flip x y : comparable x y -> obj_cmp y x = CompOpp (obj_cmp x y).
Proof.
  intros C. destruct (obj_cmp_keys x) as (A & c & f & L & K). pose proof (comparable_refl x y C). rewrite (K x y), (K y x) by assumption. apply (law_anti L).
Qed.

Theorem equivalence x y z : said OpEq x x /\ (said OpEq x y -> said OpEq y x) /\ (said OpEq x y -> said OpEq y z -> said OpEq x z).
Proof.
  assert (S : forall x y, said OpEq x y <-> obj_eq x y = true).
  { intros a b. unfold said. rewrite (proj1 (obj_rich_eq a b)). split; congruence. }
  rewrite !S. split; [|split].
  - destruct (comparable_dec x x) as [C|C].
    + apply obj_cmp_eq; auto. destruct (obj_cmp_keys x) as (A & c & f & L & K). rewrite (K x x) by assumption. apply (cmp_refl L).
    + destruct x as [e|r|c t|l|v|t v|s|[|s|xs]]; cbn [comparable] in C; try (now elim C); cbn [obj_eq].
      * rewrite op_eqb_refl. now apply v_eq_key.
      * apply spec_eqb_refl.
      * reflexivity.
      * now apply items_eqb_key.
  - intros H. destruct (eq_cases x y H) as [[C E]|M].
    + apply obj_cmp_eq; [now apply comparable_sym|]. now rewrite (obj_cmp_flip x y C), E.
    + destruct x as [e|r|c t|l|v|t v|s|[|s|xs]], y as [f|r'|d u|m|w|u w|p|[|t'|ys]]; try contradiction M; cbn [obj_eq]; auto.
      * destruct M as [M M']. apply andb_true_iff. split; [now apply op_eqb_sym|]. now rewrite v_eq_sym.
      * now apply spec_eqb_sym.
      * apply items_eqb_key. symmetry. now apply items_eqb_key.
  - intros H J. destruct (eq_cases x y H) as [[C E]|M].
    + destruct (eq_cases y z J) as [[D F]|N].
      * pose proof (comparable_trans x y z C D). apply obj_cmp_eq; auto.
        destruct (obj_cmp_keys x) as (A & c & f & L & K). pose proof (comparable_refl x y C).
        rewrite (K x y) in E by assumption. rewrite (K y z) in F by assumption. rewrite (K x z) by assumption.
        apply (law_eq L) in E, F. apply (law_eq L). congruence.
      * destruct x as [e|r|c t|l|v|t v|s|[|s|xs]], y as [f|r'|d u|m|w|u w|p|[|t'|ys]]; try destruct C; destruct N.
    + destruct x as [e|r|c t|l|v|t v|s|[|s|xs]], y as [f|r'|d u|m|w|u w|p|[|t'|ys]]; try (now destruct M);
        destruct z as [g|r''|d' u'|m'|w'|u' w'|p'|[|t''|zs]]; try discriminate J; cbn [obj_eq] in *; auto.
      * apply andb_true_iff in J as [J J']. destruct M as [M M']. apply andb_true_iff. split; [eapply op_eqb_trans; eassumption|].
        apply v_eq_key in J', M'. apply v_eq_key. congruence.
      * eapply spec_eqb_trans; eassumption.
      * apply items_eqb_key in J, M. apply items_eqb_key. congruence.
Qed.

(** Both sides always agree, errors included. *)
Theorem mirrored o x y : obj_rich (reflected o) y x = obj_rich o x y.
Proof.
  assert (Q : obj_eq y x = obj_eq x y).
  { apply eq_true_iff_eq. destruct (equivalence x y x) as (_ & S1 & _), (equivalence y x y) as (_ & S2 & _).
    unfold said in *. rewrite (proj1 (obj_rich_eq x y)), (proj1 (obj_rich_eq y x)) in *. split; intros H; [rewrite H in S2; specialize (S2 eq_refl)|rewrite H in S1; specialize (S1 eq_refl)]; congruence. }
  destruct o; try (cbn [reflected]; rewrite ?(proj1 (obj_rich_eq x y)), ?(proj1 (obj_rich_eq y x)), ?(proj2 (obj_rich_eq x y)), ?(proj2 (obj_rich_eq y x)); now rewrite Q).
  all: destruct (comparable_dec x y) as [C|C];
    [rewrite (comparable_rich _ _ _ C), (comparable_rich _ _ _ (comparable_sym _ _ C)), (obj_cmp_flip x y C); now rewrite native_flip|].
  all: assert (N : ~ comparable y x) by (intros D; now apply C, comparable_sym).
  all: match goal with |- obj_rich (reflected ?o) _ _ = _ =>
    destruct (incomparable_raises o x y C I) as [A B]; destruct (incomparable_raises (reflected o) y x N I) as [A' B'] end.
  all: destruct x as [| | | | | | |[]], y as [| | | | | | |[]]; cbn [a_range] in *;
    first [rewrite A, A' by tauto; reflexivity | rewrite B, B' by tauto; reflexivity].
Qed.

(** Equal objects are of one class, or a range and a point. *)
Theorem equal_class x y : tied_objects x y -> class_of x = class_of y \/ a_range x /\ a_range y.
Proof. intros []; auto; [now inversion H; auto|right; split; exact I]. Qed.
