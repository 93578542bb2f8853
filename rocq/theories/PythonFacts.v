(** Proofs that the modelled built-in operations are as Python documents them. *)

From Coq Require Import List ZArith NArith String Bool Lia.
From Verif Require Import Py Orders Operators Grammar ParseFacts PepSpec PepFacts PythonSpec.
Import ListNotations.
Open Scope Z_scope.

(** ** Comparison *)

Section Lex.
  Context {A : Type} (c : A -> A -> Datatypes.comparison).
  Hypothesis ceq : forall x y, c x y = Eq <-> x = y.
  Hypothesis copp : forall x y, c y x = CompOpp (c x y).

  Lemma lex_eq xs : forall ys, Py.lex c xs ys = Eq <-> xs = ys.
  Proof using ceq.
    induction xs as [|x xs IH]; intros [|y ys]; cbn [Py.lex]; try (split; [discriminate|discriminate]); [tauto|].
    destruct (c x y) eqn:E.
    - apply ceq in E as ->. rewrite IH. split; [now intros ->|now intros [= ->]].
    - split; [discriminate|]. intros [= -> ->]. enough (c y y = Eq) by congruence. now apply ceq.
    - split; [discriminate|]. intros [= -> ->]. enough (c y y = Eq) by congruence. now apply ceq.
  Qed.

  Lemma lex_lt xs : forall ys, Py.lex c xs ys = Lt <-> before (fun x y => c x y = Lt) xs ys.
  Proof using ceq.
    induction xs as [|x xs IH]; intros ys.
    - destruct ys as [|y ys]; cbn [Py.lex]; split; try discriminate; auto.
      + intros [(y & q & E)|(p & x & y & q & r & E & _)]; [discriminate|]. now destruct p.
      + intros _. left. now exists y, ys.
    - destruct ys as [|y ys]; cbn [Py.lex].
      { split; [discriminate|]. intros [(y & q & E)|(p & a & b & q & r & _ & E & _)]; [discriminate|now destruct p]. }
      destruct (c x y) eqn:E.
      + apply ceq in E as ->. rewrite IH. split.
        * intros [(b & q & ->)|(p & a & b & q & r & -> & -> & L)]; [left; now exists b, q|right; now exists (y :: p), a, b, q, r].
        * intros [(b & q & H)|(p & a & b & q & r & H1 & H2 & L)]; [injection H as ->; left; now exists b, q|].
          destruct p as [|e p]; cbn [app] in H1, H2; injection H1; injection H2; intros; subst.
          -- match goal with H : c ?x ?x = Lt |- _ => enough (c x x = Eq) by congruence; now apply ceq end.
          -- right. now exists p, a, b, q, r.
      + split; [|reflexivity]. intros _. right. now exists [], x, y, xs, ys.
      + split; [discriminate|]. intros [(b & q & H)|(p & a & b & q & r & H1 & H2 & L)].
        * injection H as -> _. enough (c x x = Eq) by congruence. now apply ceq.
        * destruct p as [|e p]; cbn [app] in H1, H2; injection H1; injection H2; intros; subst; [congruence|].
          match goal with H : c ?x ?x = Gt |- _ => enough (c x x = Eq) by congruence; now apply ceq end.
  Qed.

  Lemma lex_gt xs : forall ys, Py.lex c xs ys = Gt <-> Py.lex c ys xs = Lt.
  Proof using copp.
    induction xs as [|x xs IH]; intros [|y ys]; cbn [Py.lex]; try (split; discriminate); [tauto|].
    rewrite (copp x y). destruct (c x y); cbn [CompOpp]; [apply IH|split; discriminate|tauto].
  Qed.
End Lex.

Lemma str_cmp_eq s t : str_cmp s t = Eq <-> s = t.
Proof. apply lex_eq. exact N.compare_eq_iff. Qed.

Lemma str_eqb_iff s t : str_eqb s t = true <-> s = t.
Proof. rewrite <- str_cmp_eq. unfold str_eqb. destruct (str_cmp s t); split; try discriminate; auto. Qed.

Lemma str_cmp_lt s t : str_cmp s t = Lt <-> before N.lt s t.
Proof. unfold str_cmp. rewrite (lex_lt N.compare N.compare_eq_iff). reflexivity. Qed.

Lemma str_cmp_gt s t : str_cmp s t = Gt <-> before N.lt t s.
Proof. rewrite <- str_cmp_lt. unfold str_cmp. apply lex_gt. intros. apply N.compare_antisym. Qed.

(** ** Lookup *)

Lemma str_in_iff s set : str_in s set = true <-> In s set.
Proof.
  unfold str_in. rewrite existsb_exists. split.
  - intros (t & I & E). apply str_eqb_iff in E as ->. exact I.
  - intros I. exists s. split; [exact I|]. now apply str_eqb_iff.
Qed.

Lemma dict_get_some {A} (d : list (pstr * A)) k v : dict_get d k = Some v <-> first_entry d k v.
Proof.
  unfold first_entry. induction d as [|[k' v'] d IH]; cbn [dict_get].
  - split; [discriminate|]. intros (a & b & E & _). now destruct a.
  - destruct (str_eqb k' k) eqn:E.
    + apply str_eqb_iff in E as ->. split.
      * intros [= ->]. exists [], d. split; [reflexivity|intros []].
      * intros (a & b & H & N). destruct a as [|[k'' v''] a]; injection H; intros; subst; [reflexivity|]. destruct N. now left.
    + assert (D : k' <> k) by (intros ->; rewrite (proj2 (str_eqb_iff k k) eq_refl) in E; discriminate). rewrite IH. split.
      * intros (a & b & -> & N). exists ((k', v') :: a), b. split; [reflexivity|]. cbn. intros [H|H]; auto.
      * intros (a & b & H & N). destruct a as [|[k'' v''] a]; injection H; intros; subst; [now destruct D|]. exists a, b. split; [reflexivity|].
        intros I. apply N. now right.
Qed.

Lemma dict_get_none {A} (d : list (pstr * A)) k : dict_get d k = None <-> ~ In k (map fst d).
Proof.
  induction d as [|[k' v'] d IH]; cbn [dict_get map fst In]; [tauto|].
  destruct (str_eqb k' k) eqn:E.
  - apply str_eqb_iff in E as ->. split; [discriminate|]. intros N. destruct N. now left.
  - assert (D : k' <> k) by (intros ->; rewrite (proj2 (str_eqb_iff k k) eq_refl) in E; discriminate). rewrite IH. tauto.
Qed.

(** ** Comprehensions *)

Lemma mapM_ok {A B} (f : A -> result B) xs ys : mapM f xs = Ok ys <-> Forall2 (fun x y => f x = Ok y) xs ys.
Proof.
  revert ys. induction xs as [|x xs IH]; intros ys; cbn [mapM].
  - split; [intros [= <-]; constructor|]. now inversion 1.
  - destruct (f x) as [y|e] eqn:E; cbn [bind].
    + destruct (mapM f xs) as [zs|e]; cbn [bind].
      * split; [intros [= <-]; constructor; [exact E|now apply IH]|]. inversion 1; subst. assert (zs = l') by (apply (proj2 (IH l')) in H4; congruence). congruence.
      * split; [discriminate|]. inversion 1; subst. apply IH in H4. discriminate.
    + split; [discriminate|]. inversion 1; subst. congruence.
Qed.

Lemma mapM_err {A B} (f : A -> result B) xs e :
  mapM f xs = Err e <-> exists a x b ys, xs = a ++ x :: b /\ Forall2 (fun x y => f x = Ok y) a ys /\ f x = Err e.
Proof.
  induction xs as [|x xs IH]; cbn [mapM].
  - split; [discriminate|]. intros (a & x & b & ys & E & _). now destruct a.
  - destruct (f x) as [y|e'] eqn:E; cbn [bind].
    + assert (X : (let* ys := mapM f xs in Ok (y :: ys)) = Err e <-> mapM f xs = Err e) by (destruct (mapM f xs); cbn [bind]; split; congruence).
      rewrite X, IH. split.
      * intros (a & z & b & ys & -> & F & R). exists (x :: a), z, b, (y :: ys). repeat split; auto.
      * intros (a & z & b & ys & H & F & R). destruct a as [|x' a]; injection H; intros; subst; [congruence|].
        inversion F; subst. now exists a, z, b, l'.
    + split.
      * intros [= ->]. exists [], x, xs, []. repeat split; auto.
      * intros (a & z & b & ys & H & F & R). destruct a as [|x' a]; injection H; intros; subst; [congruence|]. inversion F; subst. congruence.
Qed.

(** ** Indices and slices *)

Lemma names_norm {A} (xs : list A) i k : names_place (List.length xs) i k <-> (k < List.length xs)%nat /\ norm_index xs i = Z.of_nat k.
Proof. unfold names_place, norm_index, len. destruct (Z.ltb_spec i 0); lia. Qed.

Lemma get_iff {A} (xs : list A) i a : py_get xs i = Ok a <-> exists k, names_place (List.length xs) i k /\ nth_error xs k = Some a.
Proof.
  split.
  - unfold py_get. destruct (Z.ltb_spec (norm_index xs i) 0) as [|L]; [discriminate|].
    destruct (nth_error xs _) as [b|] eqn:E; [|discriminate]. intros [= ->]. exists (Z.to_nat (norm_index xs i)). split; [|exact E].
    apply names_norm. split; [|lia]. apply nth_error_Some. congruence.
  - intros (k & P & E). apply names_norm in P as [_ P]. unfold py_get. rewrite P.
    destruct (Z.ltb_spec (Z.of_nat k) 0); [lia|]. rewrite Nat2Z.id, E. reflexivity.
Qed.

Lemma get_err {A} (xs : list A) i e : py_get xs i = Err e <-> e = IndexError /\ forall k, ~ names_place (List.length xs) i k.
Proof.
  split.
  - intros H. split.
    + unfold py_get in H. destruct (_ <? 0); [congruence|]. destruct (nth_error _ _); congruence.
    + intros k P. pose proof (proj1 P) as L. apply nth_error_Some in L. destruct (nth_error xs k) as [a|] eqn:E; [|congruence].
      enough (py_get xs i = Ok a) by congruence. apply get_iff. now exists k.
  - intros [-> N]. destruct (py_get xs i) as [a|e] eqn:E.
    + apply get_iff in E as (k & P & _). destruct (N k P).
    + f_equal. unfold py_get in E. destruct (_ <? 0); [congruence|]. destruct (nth_error _ _); congruence.
Qed.

Lemma update_at {A} (a b : list A) x y : update (a ++ x :: b) (List.length a) y = a ++ y :: b.
Proof. induction a as [|z a IH]; cbn [app List.length update]; [reflexivity|]. now rewrite IH. Qed.

Lemma split_at {A} (xs : list A) k : (k < List.length xs)%nat -> exists a x b, xs = a ++ x :: b /\ List.length a = k.
Proof.
  intros L. apply nth_error_Some in L. destruct (nth_error xs k) as [x|] eqn:E; [|congruence].
  apply nth_error_split in E as (a & b & -> & <-). now exists a, x, b.
Qed.

Lemma set_iff {A} (xs ys : list A) i y :
  py_set xs i y = Ok ys <-> exists a x b, xs = a ++ x :: b /\ names_place (List.length xs) i (List.length a) /\ ys = a ++ y :: b.
Proof.
  unfold py_set, len. split.
  - destruct (_ || _)%bool eqn:E; [discriminate|]. intros [= <-]. apply Bool.orb_false_iff in E as [E1 E2].
    apply Z.ltb_ge in E1. apply Z.leb_gt in E2. destruct (split_at xs (Z.to_nat (norm_index xs i))) as (a & x & b & H & L); [lia|].
    exists a, x, b. split; [exact H|]. split; [apply names_norm; lia|]. rewrite <- L, H. apply update_at.
  - intros (a & x & b & H & P & ->). apply names_norm in P as [L P]. rewrite P.
    destruct (Z.ltb_spec (Z.of_nat (List.length a)) 0); [lia|]. destruct (Z.leb_spec (Z.of_nat (List.length xs)) (Z.of_nat (List.length a))); [lia|].
    cbn [orb]. rewrite Nat2Z.id, H. now rewrite update_at.
Qed.

Lemma set_err {A} (xs : list A) i y e : py_set xs i y = Err e <-> e = IndexError /\ forall k, ~ names_place (List.length xs) i k.
Proof.
  split.
  - intros H. split.
    + unfold py_set in H. destruct (_ || _)%bool; congruence.
    + intros k P. destruct (split_at xs k (proj1 P)) as (a & x & b & E & L).
      enough (py_set xs i y = Ok (a ++ y :: b)) by congruence. apply set_iff. exists a, x, b. rewrite L. split; [exact E|split; [exact P|reflexivity]].
  - intros [-> N]. destruct (py_set xs i y) as [ys|e] eqn:E.
    + apply set_iff in E as (a & x & b & _ & P & _). destruct (N _ P).
    + f_equal. unfold py_set in E. destruct (_ || _)%bool; congruence.
Qed.

Lemma slices {A} (xs : list A) i : py_upto xs i ++ py_from xs i = xs /\ Z.of_nat (List.length (py_upto xs i)) = slice_bound (List.length xs) i.
Proof.
  unfold py_upto, py_from. split; [apply firstn_skipn|]. rewrite firstn_length. unfold norm_index, slice_bound, len. destruct (Z.ltb_spec i 0); lia.
Qed.

(** ** Numbers *)

Lemma str_uint_forall s : forall d, str_uint s = Some d -> Forall digit s.
Proof.
  induction s as [|c s IH]; intros d; cbn [str_uint]; [constructor|].
  destruct (str_uint s) as [d'|]; [|discriminate]. intros H. constructor; [|exact (IH d' eq_refl)].
  unfold digit. clear IH. destruct c as [|p]; [discriminate|].
  do 6 (destruct p as [p|p|]; try discriminate H; try lia).
Qed.

Lemma int_iff s z : py_int s = Ok z <-> digits s /\ number s = z.
Proof.
  split.
  - intros H. enough (D : digits s). { split; [exact D|]. rewrite (py_int_digits s D) in H. congruence. }
    destruct s as [|c s]; [discriminate|]. split; [discriminate|]. unfold py_int in H. destruct (str_uint (c :: s)) as [d|] eqn:E; [|discriminate].
    exact (str_uint_forall _ d E).
  - intros [D <-]. now apply py_int_digits.
Qed.

Lemma int_err s e : py_int s = Err e <-> e = ValueError /\ ~ digits s.
Proof.
  split.
  - intros H. split.
    + unfold py_int in H. destruct s; [congruence|]. destruct (str_uint _); congruence.
    + intros D. rewrite (py_int_digits s D) in H. discriminate.
  - intros [-> N]. destruct (py_int s) as [z|e] eqn:E; [apply int_iff in E as [D _]; now destruct N|].
    f_equal. unfold py_int in E. destruct s; [congruence|]. destruct (str_uint _); congruence.
Qed.

Lemma str_int_iff z s : str_int z = s <->
  (0 <= z /\ numeral s /\ number s = z) \/ (z < 0 /\ exists t, s = 45%N :: t /\ numeral t /\ number t = - z).
Proof.
  assert (P : forall z s, 0 <= z -> str_int z = s <-> numeral s /\ number s = z).
  { intros y t Y. split.
    - intros <-. split; [now apply numeral_int|]. now apply str_int_digits.
    - intros [M E]. destruct (int_numeral t M) as (x & X & <-). rewrite (proj2 (str_int_digits x X)) in E. now subst. }
  destruct (Z.le_gt_cases 0 z) as [L|L].
  - rewrite (P z s L). split; [tauto|]. intros [H|(H & _)]; [tauto|lia].
  - assert (E : str_int z = 45%N :: str_int (- z)) by (destruct z; [lia|lia|reflexivity]). rewrite E. split.
    + intros <-. right. split; [lia|]. exists (str_int (- z)). split; [reflexivity|]. apply P; [lia|reflexivity].
    + intros [(H & _)|(_ & t & -> & H)]; [lia|]. f_equal. apply P; [lia|exact H].
Qed.

Lemma is_digit_iff c : is_digit c = true <-> In c (lit "0123456789").
Proof.
  unfold is_digit. rewrite Bool.andb_true_iff, !N.leb_le. cbn. lia.
Qed.

Lemma check_int_iff s : check_int s = true <-> s <> [] /\ forall c, In c s -> In c (lit "0123456789").
Proof.
  assert (X : forallb is_digit s = true <-> forall c, In c s -> In c (lit "0123456789")).
  { rewrite forallb_forall. split; intros H c I; apply is_digit_iff; auto. }
  destruct s as [|c s]; [split; [discriminate|intros [N _]; now destruct N]|]. unfold check_int. rewrite X. split; [now split|tauto].
Qed.

(** ** Joining and splitting *)

Lemma split_join_any c ws : ws <> [] -> (forall w, In w ws -> ~ In c w) -> split_on c (join [c] ws) = ws.
Proof.
  induction ws as [|w ws IH]; [now destruct 1|]. intros _ F.
  assert (W : forall v r, ~ In c v -> split_on c (v ++ c :: r) = v :: split_on c r).
  { induction v as [|x v IHv]; intros r N; cbn [app split_on]; [now rewrite N.eqb_refl|].
    destruct (N.eqb_spec x c) as [->|D]; [destruct N; now left|]. rewrite IHv; [reflexivity|]. intros I. apply N. now right. }
  assert (W0 : forall v, ~ In c v -> split_on c v = [v]).
  { induction v as [|x v IHv]; intros N; cbn [split_on]; [reflexivity|].
    destruct (N.eqb_spec x c) as [->|D]; [destruct N; now left|]. rewrite IHv; [reflexivity|]. intros I. apply N. now right. }
  destruct ws as [|v ws].
  - apply W0, F. now left.
  - change (join [c] (w :: v :: ws)) with (w ++ c :: join [c] (v :: ws)). rewrite W by (apply F; now left).
    f_equal. apply IH; [discriminate|]. intros u I. apply F. now right.
Qed.

Lemma split_on_parts c s : split_on c s <> [] /\ (forall w, In w (split_on c s) -> ~ In c w) /\ join [c] (split_on c s) = s.
Proof.
  induction s as [|x s (N & F & E)]; cbn [split_on].
  - repeat split; [discriminate|]. intros w [<-|[]] [].
  - destruct (N.eqb_spec x c) as [->|D].
    + split; [discriminate|]. split; [intros w [<-|I]; [intros []|now apply F]|].
      destruct (split_on c s) as [|w ws]; [now destruct N|]. change (join [c] ([] :: w :: ws)) with (c :: join [c] (w :: ws)). now rewrite E.
    + destruct (split_on c s) as [|w ws]; [now destruct N|]. split; [discriminate|]. split.
      * intros v [<-|I]; [|apply F; now right]. intros [->|I]; [now destruct D|]. exact (F w (or_introl eq_refl) I).
      * rewrite <- E. destruct ws as [|v ws]; reflexivity.
Qed.

Lemma split_iff c s ws : split_on c s = ws <-> ws <> [] /\ (forall w, In w ws -> ~ In c w) /\ join [c] ws = s.
Proof.
  split; [intros <-; apply split_on_parts|]. intros (N & F & <-). now apply split_join_any.
Qed.

(** ** Blanks *)

Lemma is_space_iff c : is_space c = true <-> In c spaces.
Proof.
  unfold is_space, spaces. rewrite !Bool.orb_true_iff, !Bool.andb_true_iff, !N.leb_le, !N.eqb_eq. cbn [In]. lia.
Qed.

Lemma drop_iff p s t : drop_while p s = t <-> bare_start (fun c => p c = true) t /\ exists a, s = a ++ t /\ forall c, In c a -> p c = true.
Proof.
  split.
  - intros <-. induction s as [|c s IH]; cbn [drop_while].
    + split; [intros c r; discriminate|]. exists []. split; [reflexivity|intros c []].
    + destruct (p c) eqn:E.
      * destruct IH as (B & a & H & F). split; [exact B|]. exists (c :: a). split; [cbn [app]; congruence|]. intros d [<-|I]; auto.
      * split; [intros d r [= <- <-]; congruence|]. exists []. split; [reflexivity|intros d []].
  - intros (B & a & -> & F). induction a as [|c a IH]; cbn [app drop_while].
    + destruct t as [|c t]; [reflexivity|]. cbn [drop_while]. destruct (p c) eqn:E; [|reflexivity]. now destruct (B c t eq_refl).
    + rewrite (F c (or_introl eq_refl)). apply IH. intros d I. apply F. now right.
Qed.

Lemma bare_rev p s : bare_start p (rev s) <-> bare_end p s.
Proof.
  split.
  - intros B c r ->. apply (B c (rev r)). now rewrite rev_app_distr.
  - intros B c r H. apply (B c (rev r)). rewrite <- (rev_involutive s), H. reflexivity.
Qed.

Lemma rstrip_iff p s t : rstrip_by p s = t <-> bare_end (fun c => p c = true) t /\ exists b, s = t ++ b /\ forall c, In c b -> p c = true.
Proof.
  unfold rstrip_by. assert (X : rev (drop_while p (rev s)) = t <-> drop_while p (rev s) = rev t).
  { split; [intros <-; now rewrite rev_involutive|intros ->; apply rev_involutive]. }
  rewrite X, drop_iff, bare_rev. split; intros (B & a & H & F); (split; [exact B|]); exists (rev a).
  - split; [|intros c I; apply F; now apply in_rev]. rewrite <- (rev_involutive s), H, rev_app_distr, rev_involutive. reflexivity.
  - split; [|intros c I; apply F; now apply in_rev]. rewrite H, rev_app_distr. reflexivity.
Qed.

Lemma strip_by_iff p s t : strip_by p s = t <->
  bare_start (fun c => p c = true) t /\ bare_end (fun c => p c = true) t
  /\ exists a b, s = a ++ t ++ b /\ forall c, In c (a ++ b) -> p c = true.
Proof.
  unfold strip_by. split.
  - intros H. destruct (proj1 (drop_iff p s _) eq_refl) as (B & a & E & F). apply rstrip_iff in H as (Z & b & H & G).
    split; [intros c r ->; exact (B c (r ++ b) H)|]. split; [exact Z|]. exists a, b. split; [congruence|].
    intros c I. apply in_app_iff in I as [I|I]; auto.
  - intros (B & Z & a & b & -> & F). destruct t as [|c t].
    + assert (X : drop_while p (a ++ [] ++ b) = []).
      { apply drop_iff. split; [intros c r; discriminate|]. exists (a ++ b). split; [cbn [app]; now rewrite app_nil_r|exact F]. }
      rewrite X. reflexivity.
    + assert (X : drop_while p (a ++ (c :: t) ++ b) = (c :: t) ++ b).
      { apply drop_iff. split; [intros d r [= <- <-]; exact (B c t eq_refl)|]. exists a. split; [reflexivity|]. intros d I. apply F, in_app_iff. now left. }
      rewrite X. apply rstrip_iff. split; [exact Z|]. exists b. split; [reflexivity|]. intros d I. apply F, in_app_iff. now right.
Qed.

Lemma lstrip_drop s : lstrip s = drop_while is_space s.
Proof. induction s as [|c s IH]; [reflexivity|]. cbn [lstrip drop_while]. now rewrite IH. Qed.

Lemma strip_iff s t : strip s = t <->
  bare_start (fun c => In c spaces) t /\ bare_end (fun c => In c spaces) t
  /\ exists a b, s = a ++ t ++ b /\ blank a /\ blank b.
Proof.
  assert (X : strip s = strip_by is_space s) by (unfold strip, strip_by, rstrip_by; now rewrite !lstrip_drop).
  rewrite X, strip_by_iff. split; intros (B & Z & a & b & H & F).
  - split; [intros c r E I; apply (B c r E); now apply is_space_iff|]. split; [intros c r E I; apply (Z c r E); now apply is_space_iff|].
    exists a, b. split; [exact H|]. split; intros c I; apply is_space_iff, F, in_app_iff; auto.
  - split; [intros c r E I; apply (B c r E); now apply is_space_iff|]. split; [intros c r E I; apply (Z c r E); now apply is_space_iff|].
    exists a, b. split; [exact H|]. intros c I. apply is_space_iff. apply in_app_iff in I as [I|I]; [exact (proj1 F c I)|exact (proj2 F c I)].
Qed.

Lemma split_go_blank g : blank g -> forall r, split_ws_go (g ++ r) [] = split_ws_go r [].
Proof.
  induction g as [|c g IH]; intros B r; [reflexivity|]. cbn [app split_ws_go].
  rewrite (proj2 (is_space_iff c)) by (apply B; now left). apply IH. intros d I. apply B. now right.
Qed.

Lemma split_go_word w : (forall c, In c w -> ~ In c spaces) -> forall r cur, split_ws_go (w ++ r) cur = split_ws_go r (rev w ++ cur).
Proof.
  induction w as [|c w IH]; intros V r cur; [reflexivity|]. cbn [app split_ws_go rev].
  destruct (is_space c) eqn:E; [apply is_space_iff in E; destruct (V c (or_introl eq_refl) E)|].
  rewrite IH by (intros d I; apply V; now right). rewrite <- app_assoc. reflexivity.
Qed.

Lemma spaced_split s ws : spaced s ws -> split_ws s = ws.
Proof.
  unfold split_ws. induction 1 as [g B|g w r ws B N V R S IH].
  - rewrite <- (app_nil_r g), split_go_blank by exact B. reflexivity.
  - rewrite split_go_blank by exact B. rewrite split_go_word by exact V. rewrite app_nil_r.
    assert (M : rev w <> []) by (intros M; apply N; rewrite <- (rev_involutive w), M; reflexivity).
    destruct R as [-> | (c & r' & -> & C)].
    + cbn [split_ws_go] in IH |- *. destruct (rev w) as [|x t] eqn:E; [now destruct M|]. rewrite <- E, rev_involutive. now rewrite <- IH.
    + cbn [split_ws_go] in IH |- *. rewrite (proj2 (is_space_iff c) C) in *. destruct (rev w) as [|x t] eqn:E; [now destruct M|].
      rewrite <- E, rev_involutive. now rewrite IH.
Qed.

Lemma spaced_exists s : exists ws, spaced s ws.
Proof.
  induction s as [|c s (ws & IH)].
  - exists []. constructor. intros c [].
  - destruct (in_dec N.eq_dec c spaces) as [C|C].
    + exists ws. inversion IH as [g B|g w r ws' B N V R S]; subst.
      * constructor. intros d [<-|I]; auto.
      * apply (spaced_word (c :: g)); auto. intros d [<-|I]; auto.
    + inversion IH as [g B|g w r ws' B N V R S]; subst.
      * exists [[c]]. change (c :: s) with ([] ++ [c] ++ s). constructor; auto; [intros d []|discriminate|intros d [<-|[]]; exact C|].
        destruct s as [|d s]; [now left|]. right. exists d, s. split; [reflexivity|]. apply B. now left.
      * destruct g as [|d g].
        -- exists ((c :: w) :: ws'). change (c :: [] ++ w ++ r) with ([] ++ (c :: w) ++ r). constructor; auto; [discriminate|].
           intros d [<-|I]; auto.
        -- exists ([c] :: w :: ws'). change (c :: (d :: g) ++ w ++ r) with ([] ++ [c] ++ ((d :: g) ++ w ++ r)).
           constructor; auto; [intros e []|discriminate|intros e [<-|[]]; exact C|].
           right. exists d, (g ++ w ++ r). split; [reflexivity|]. apply B. now left.
Qed.

Lemma split_ws_iff s ws : split_ws s = ws <-> spaced s ws.
Proof.
  split; [|apply spaced_split]. intros <-. destruct (spaced_exists s) as [ws S]. now rewrite (spaced_split s ws S).
Qed.

(** ** Replacing pairs *)

Lemma double_run c n : forall s, (forall r, s <> c :: r) -> replace_double c (repeat c (S n) ++ s) = repeat c (S (Nat.div2 n)) ++ replace_double c s.
Proof.
  induction n as [n IH] using (well_founded_induction Wf_nat.lt_wf). intros s D. destruct n as [|[|n]].
  - cbn [repeat app Nat.div2]. destruct s as [|x s]; [reflexivity|]. cbn [replace_double]. rewrite N.eqb_refl. cbn [andb].
    destruct (N.eqb_spec x c) as [->|]; [now destruct (D s)|reflexivity].
  - cbn [repeat app Nat.div2 replace_double]. rewrite N.eqb_refl. reflexivity.
  - change (repeat c (S (S (S n))) ++ s) with (c :: c :: repeat c (S n) ++ s). cbn [replace_double]. rewrite N.eqb_refl. cbn [andb].
    rewrite IH by (auto; lia). reflexivity.
Qed.

Lemma double_other c x s : x <> c -> replace_double c (x :: s) = x :: replace_double c s.
Proof. intros D. destruct s as [|y s]; [reflexivity|]. cbn [replace_double]. apply N.eqb_neq in D. now rewrite D. Qed.

Lemma halved_double c s t : halved c s t -> replace_double c s = t.
Proof.
  induction 1 as [|n s t D H IH|x s t D H IH]; [reflexivity|rewrite double_run by exact D; now rewrite IH|].
  rewrite double_other by exact D. now rewrite IH.
Qed.

Lemma halved_exists c s : exists t, halved c s t.
Proof.
  induction s as [|x s (t & IH)]; [exists []; constructor|]. destruct (N.eq_dec x c) as [->|D].
  - inversion IH as [|n s' t' F H|y s' t' F H]; subst.
    + exists (repeat c (S (Nat.div2 0)) ++ []). apply (halved_run c 0 []); [discriminate|constructor].
    + exists (repeat c (S (Nat.div2 (S n))) ++ t'). apply (halved_run c (S n) s'); auto.
    + exists (repeat c (S (Nat.div2 0)) ++ y :: t'). apply (halved_run c 0 (y :: s')); [congruence|exact IH].
  - exists (x :: t). now constructor.
Qed.

Lemma double_iff c s t : replace_double c s = t <-> halved c s t.
Proof.
  split; [|apply halved_double]. intros <-. destruct (halved_exists c s) as [t H]. now rewrite (halved_double c s t H).
Qed.
