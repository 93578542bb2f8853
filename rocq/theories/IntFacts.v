(** [int(str)] accepts what the specification says, and segments read back. *)

From Coq Require Import List ZArith NArith Bool Lia String.
From Verif Require Import Py Segments Operators Grammar ParseFacts SpecText SpecParse Ints IntSpec.
Import ListNotations.
Open Scope Z_scope.

(** ** Digits *)

Inductive plain_run : pstr -> list N -> Prop :=
| plain_last c : digit c -> plain_run [c] [(c - 48)%N]
| plain_next c s ds : digit c -> plain_run s ds -> plain_run (c :: s) ((c - 48)%N :: ds)
| plain_under c s ds : digit c -> plain_run s ds -> plain_run (c :: 95%N :: s) ((c - 48)%N :: ds).

Definition from (n : Z) (ds : list N) : Z := fold_left (fun n d => 10 * n + Z.of_N d) ds n.

Lemma is_digit_iff c : is_digit c = true <-> digit c.
Proof. unfold is_digit, digit. rewrite andb_true_iff, !N.leb_le. tauto. Qed.

Lemma int_digits_run s ds : plain_run s ds -> forall n, int_digits n s = Ok (from n ds).
Proof.
  assert (V : forall c n, digit c -> 10 * n + (Z.of_N c - 48) = 10 * n + Z.of_N (c - 48)) by (unfold digit; lia).
  induction 1 as [c D|c s ds D R IH|c s ds D R IH]; intros n; cbn [int_digits]; rewrite (proj2 (is_digit_iff c) D), (V c n D).
  - reflexivity.
  - destruct R as [c' D'|c' s' ds' D' R'|c' s' ds' D' R']; cbv zeta; rewrite (proj2 (N.eqb_neq c' 95)) by (unfold digit in D'; lia); apply IH.
  - cbv zeta. rewrite N.eqb_refl. apply IH.
Qed.

Lemma int_digits_ok k : forall s, (List.length s <= k)%nat -> forall n z, int_digits n s = Ok z -> exists ds, plain_run s ds.
Proof.
  induction k as [|k IH]; intros [|c s] L n z; cbn in L; try lia; try discriminate. cbn [int_digits].
  destruct (is_digit c) eqn:D; [|discriminate]. apply is_digit_iff in D. cbv zeta. destruct s as [|d s]; [eexists; now constructor|].
  destruct (N.eqb_spec d 95) as [->|N]; intros H.
  - apply IH in H as (ds & R); [|cbn in L; lia]. eexists. apply plain_under; eauto.
  - apply IH in H as (ds & R); [|cbn in *; lia]. eexists. apply plain_next; eauto.
Qed.
Lemma int_digits_err n s e : int_digits n s = Err e -> e = ValueError.
Proof.
  assert (K : forall k s, (List.length s <= k)%nat -> forall n, int_digits n s = Err e -> e = ValueError); [|exact (K _ s (le_n _) n)].
  clear. induction k as [|k IH]; intros [|c s] L n; cbn in L; try lia; cbn [int_digits]; try congruence.
  destruct (is_digit c); [|congruence]. cbv zeta. destruct s as [|d s]; [discriminate|]. destruct (d =? 95)%N; apply IH; cbn in *; lia.
Qed.

Lemma plain_run_ends s ds : plain_run s ds -> exists c t d, s = c :: t /\ digit c /\ (exists p, s = p ++ [d]) /\ digit d.
Proof.
  induction 1 as [c D|c s ds D R IH|c s ds D R IH].
  - exists c, [], c. split; [reflexivity|]. split; [exact D|]. split; [now exists []|exact D].
  - destruct IH as (c' & t & d & _ & _ & (p & ->) & D'). exists c, (p ++ [d]), d. split; [reflexivity|]. split; [exact D|]. split; [|exact D']. now exists (c :: p).
  - destruct IH as (c' & t & d & _ & _ & (p & ->) & D'). exists c, (95%N :: p ++ [d]), d. split; [reflexivity|]. split; [exact D|]. split; [|exact D'].
    now exists (c :: 95%N :: p).
Qed.

(** ** Stripping *)

Lemma drop_while_split p s : exists a, s = a ++ drop_while p s /\ Forall (fun c => p c = true) a.
Proof.
  induction s as [|c s (a & E & F)]; [exists []; auto|]. cbn [drop_while]. destruct (p c) eqn:P; [|exists []; auto].
  exists (c :: a). cbn. split; [now rewrite <- E|now constructor].
Qed.
Lemma drop_while_app p a t : Forall (fun c => p c = true) a -> drop_while p (a ++ t) = drop_while p t.
Proof. induction 1 as [|c a P F IH]; auto. cbn [app drop_while]. now rewrite P. Qed.
Lemma drop_while_stop p c t : p c = false -> drop_while p (c :: t) = c :: t.
Proof. intros H. cbn. now rewrite H. Qed.

Lemma strip_split p s : exists a b, s = a ++ strip_by p s ++ b /\ Forall (fun c => p c = true) a /\ Forall (fun c => p c = true) b.
Proof.
  unfold strip_by, rstrip_by. destruct (drop_while_split p s) as (a & E & F). destruct (drop_while_split p (rev (drop_while p s))) as (b & E' & F').
  exists a, (rev b). split; [|split; [exact F|now apply Forall_rev]]. rewrite <- rev_app_distr, <- E', rev_involutive. exact E.
Qed.
Lemma strip_core p a t b c d q : Forall (fun c => p c = true) a -> Forall (fun c => p c = true) b -> t = c :: q -> p c = false ->
  (exists r, t = r ++ [d]) -> p d = false -> strip_by p (a ++ t ++ b) = t.
Proof.
  intros A B E C (r & E') D. unfold strip_by, rstrip_by. rewrite drop_while_app by exact A.
  replace (drop_while p (t ++ b)) with (t ++ b) by (rewrite E; cbn; now rewrite C).
  rewrite rev_app_distr, drop_while_app by now apply Forall_rev. rewrite E' at 1. rewrite rev_app_distr. cbn [rev app].
  rewrite drop_while_stop by exact D. rewrite E'. cbn [rev]. now rewrite rev_involutive.
Qed.

(** ** ASCII *)

Definition translated (u : unicode) : pstr -> pstr -> Prop := Forall2 (fun c a => ascii_char u c = Some a).

Lemma ascii_string_iff u s : forall a, ascii_string u s = Some a <-> translated u s a.
Proof.
  induction s as [|c s IH]; intros a; cbn [ascii_string].
  - split; [intros [= <-]; constructor|]. intros H. inversion H. reflexivity.
  - split.
    + destruct (ascii_char u c) as [x|] eqn:X; [|discriminate]. destruct (ascii_string u s) as [t|]; [|discriminate]. intros [= <-].
      constructor; [exact X|now apply IH].
    + intros H. inversion H as [|? x ? t X T]; subst. rewrite X. apply IH in T. now rewrite T.
Qed.

Lemma some_inj {A} (x y : A) : Some x = Some y -> x = y.
Proof. congruence. Qed.

Section Sane.
  Variable u : unicode.
  Hypothesis U : sane u.

  Lemma is_space_low c : (c < 127)%N -> ascii_space c = true <-> int_space c.
  Proof.
    intros L. unfold ascii_space, int_space, is_space. rewrite !orb_true_iff, !andb_true_iff, !N.leb_le, !N.eqb_eq. lia.
  Qed.
  Lemma is_space_high c : (127 <= c)%N -> is_space c = true <-> int_space c.
  Proof. intros L. unfold int_space. split; [intros H; split; [exact H|lia]|tauto]. Qed.
  Lemma digit_not_space c : digit c -> ascii_space c = false.
  Proof. intros D. apply not_true_iff_false. unfold ascii_space. rewrite !orb_true_iff, !andb_true_iff, !N.leb_le, !N.eqb_eq. unfold digit in D. lia. Qed.

  Lemma char_space c a : ascii_char u c = Some a -> ascii_space a = true <-> int_space c.
  Proof.
    unfold ascii_char. destruct (N.ltb_spec c 127) as [L|L]; [intros [= <-]; now apply is_space_low|].
    destruct (is_space c) eqn:S; [intros [= <-]; rewrite <- is_space_high by exact L; now rewrite S|].
    destruct (decimal u c) as [d|] eqn:D; [|discriminate]. intros X. apply some_inj in X as <-. destruct (proj1 U c d D) as (_ & L' & _).
    rewrite <- is_space_high, S by exact L. split; [|discriminate]. intros H. rewrite digit_not_space in H; [discriminate|]. unfold digit. lia.
  Qed.
  Lemma char_digit c a : ascii_char u c = Some a -> digit a -> decimal_value u c (a - 48).
  Proof.
    unfold ascii_char, digit, decimal_value. destruct (N.ltb_spec c 127) as [L|L]; [intros [= <-]; left; lia|].
    destruct (is_space c) eqn:S; [intros [= <-]; lia|].
    destruct (decimal u c) as [d|] eqn:D; [|discriminate]. intros X _. apply some_inj in X as <-. destruct (proj1 U c d D) as (L1 & L2 & _). right. split; [exact L1|f_equal; lia].
  Qed.
  Lemma value_char c d : decimal_value u c d -> ascii_char u c = Some (d + 48)%N /\ (d < 10)%N.
  Proof.
    unfold ascii_char. intros [[L ->]|[L D]].
    - rewrite (proj2 (N.ltb_lt c 127)) by lia. split; [f_equal|]; lia.
    - destruct (proj1 U c d D) as (_ & L2 & O). rewrite (proj2 (N.ltb_ge c 127)), (proj2 U c O), D by lia. split; [f_equal; lia|exact L2].
  Qed.
  Lemma space_char c : int_space c -> exists a, ascii_char u c = Some a /\ ascii_space a = true.
  Proof.
    intros S. unfold ascii_char. destruct (N.ltb_spec c 127) as [L|L]; [exists c; split; [reflexivity|now apply is_space_low]|].
    rewrite (proj2 (is_space_high c L) S). now exists 32%N.
  Qed.
  (** Signs and underscores are themselves. *)
  Lemma char_mark c a : ascii_char u c = Some a -> a = 43%N \/ a = 45%N \/ a = 95%N -> c = a.
  Proof.
    unfold ascii_char. destruct (N.ltb_spec c 127) as [L|L]; [congruence|]. destruct (is_space c); [intros [= <-] [H|[H|H]]; discriminate|].
    destruct (decimal u c) as [d|] eqn:D; [|discriminate]. intros X. apply some_inj in X as <-. destruct (proj1 U c d D) as (_ & L2 & _). lia.
  Qed.

  Lemma run_translated s ds : digit_run u s ds -> exists a, translated u s a /\ plain_run a ds.
  Proof.
    assert (V : forall c d, decimal_value u c d -> exists a, ascii_char u c = Some a /\ digit a /\ d = (a - 48)%N).
    { intros c d H. apply value_char in H as [H L]. exists (d + 48)%N. split; [exact H|]. unfold digit. lia. }
    induction 1 as [c d D|c d s ds D R (t & T & P)|c d s ds D R (t & T & P)]; destruct (V c d D) as (a & E & A & ->).
    - exists [a]. split; [constructor; [exact E|constructor]|now constructor].
    - exists (a :: t). split; [now constructor|now constructor].
    - exists (a :: 95%N :: t). split; [constructor; [exact E|now constructor]|now constructor].
  Qed.
  Lemma translated_run a ds : plain_run a ds -> forall s, translated u s a -> digit_run u s ds.
  Proof.
    induction 1 as [a D|a t ds D R IH|a t ds D R IH]; intros s T.
    - inversion T as [|c ? s' ? E T']; subst. inversion T'; subst. constructor. now apply char_digit.
    - inversion T as [|c ? s' ? E T']; subst. apply run_next; [now apply char_digit|now apply IH].
    - inversion T as [|c ? s' ? E T']; subst. inversion T' as [|c' ? s'' ? E' T'']; subst. apply char_mark in E' as ->; [|auto].
      apply run_under; [now apply char_digit|now apply IH].
  Qed.

  Lemma spaces_translated s : Forall int_space s -> exists a, translated u s a /\ Forall (fun c => ascii_space c = true) a.
  Proof.
    induction 1 as [|c s S F (a & T & A)]; [exists []; split; constructor|]. destruct (space_char c S) as (x & E & X).
    exists (x :: a). split; now constructor.
  Qed.
  Lemma translated_spaces s a : translated u s a -> Forall (fun c => ascii_space c = true) a -> Forall int_space s.
  Proof. induction 1 as [|c x s a E T IH]; intros F; inversion F; subst; constructor; auto. now apply (char_space c x E). Qed.

  Lemma int_of_text s z : int_text u s z -> int_of u s = Ok z.
  Proof.
    intros (a & sign & body & b & ds & -> & A & B & R & Z).
    destruct (spaces_translated a A) as (a' & TA & A'). destruct (spaces_translated b B) as (b' & TB & B').
    destruct (run_translated body ds R) as (t & T & P). destruct (plain_run_ends t ds P) as (c & q & d & E & C & (r & Er) & D).
    assert (S : translated u sign sign).
    { destruct Z as [[[->| ->] _]|[-> _]]; [constructor|constructor; [reflexivity|constructor]|constructor; [reflexivity|constructor]]. }
    unfold int_of. assert (X : ascii_string u (a ++ sign ++ body ++ b) = Some (a' ++ (sign ++ t) ++ b')).
    { apply ascii_string_iff. rewrite <- app_assoc. repeat (apply Forall2_app; [assumption|]). assumption. }
    rewrite X. clear X. pose proof (digit_not_space c C) as NC. pose proof (digit_not_space d D) as ND.
    assert (G : forall h q', sign ++ t = h :: q' -> ascii_space h = false -> strip_by ascii_space (a' ++ (sign ++ t) ++ b') = h :: q').
    { intros h q' Eh Nh. rewrite <- Eh. apply (strip_core ascii_space a' (sign ++ t) b' h d q'); auto. exists (sign ++ r). rewrite <- app_assoc. now rewrite Er. }
    destruct Z as [[[->| ->] ->]|[-> ->]].
    - rewrite (G c q E NC). rewrite !(proj2 (N.eqb_neq c _)) by (unfold digit in C; lia). rewrite <- E. now apply int_digits_run.
    - rewrite (G 43%N t eq_refl eq_refl). cbn [N.eqb Pos.eqb]. now apply int_digits_run.
    - rewrite (G 45%N t eq_refl eq_refl). cbn [N.eqb Pos.eqb]. now rewrite (int_digits_run t ds P).
  Qed.

  Lemma text_of_int s z : int_of u s = Ok z -> int_text u s z.
  Proof.
    unfold int_of. destruct (ascii_string u s) as [a|] eqn:A; [|discriminate]. apply ascii_string_iff in A.
    destruct (strip_split ascii_space a) as (x & y & E & X & Y). rewrite E in A.
    apply Forall2_app_inv_r in A as (sx & s1 & Tx & T1 & ->). apply Forall2_app_inv_r in T1 as (st & sy & Tt & Ty & ->).
    apply translated_spaces in Tx, Ty; auto.
    destruct (strip_by ascii_space _) as [|c t]; [discriminate|]. inversion Tt as [|c0 ? s0 ? Ec Tt']; subst.
    assert (D : forall s t n w, translated u s t -> int_digits n t = Ok w -> exists ds, digit_run u s ds /\ w = from n ds).
    { clear - U. intros s t n w T H. destruct (int_digits_ok _ t (le_n _) n w H) as (ds & R). exists ds. split; [now apply (translated_run t)|].
      rewrite (int_digits_run t ds R) in H. congruence. }
    destruct (N.eqb_spec c 43) as [->|N1]; [|destruct (N.eqb_spec c 45) as [->|N2]].
    - apply char_mark in Ec as ->; [|auto]. intros H. destruct (D _ _ _ _ Tt' H) as (ds & R & ->). exists sx, [43%N], s0, sy, ds. auto 10.
    - apply char_mark in Ec as ->; [|auto]. destruct (int_digits 0 t) as [w|] eqn:H; [|discriminate]. intros [= <-].
      destruct (D _ _ _ _ Tt' H) as (ds & R & ->). exists sx, [45%N], s0, sy, ds. auto 10.
    - intros H. destruct (D _ _ _ _ Tt H) as (ds & R & ->). exists sx, [], (c0 :: s0), sy, ds. auto 10.
  Qed.
  Lemma int_of_iff s z : int_of u s = Ok z <-> int_text u s z.
  Proof. split; [apply text_of_int|apply int_of_text]. Qed.
End Sane.

Lemma int_of_err u s e : int_of u s = Err e -> e = ValueError.
Proof.
  unfold int_of. destruct (ascii_string u s) as [a|]; [|congruence]. destruct (strip_by ascii_space a) as [|c t]; [congruence|].
  destruct (c =? 43)%N; [apply int_digits_err|]. destruct (c =? 45)%N; [|apply int_digits_err].
  destruct (int_digits 0 t) eqn:E; [discriminate|]. cbn. intros [= <-]. eapply int_digits_err, E.
Qed.

Lemma Forall2_weaken {A B} (P Q : A -> B -> Prop) l m : (forall x y, P x y -> Q x y) -> Forall2 P l m -> Forall2 Q l m.
Proof. intros H. induction 1; constructor; auto. Qed.

(** ** Epochs and releases *)

Lemma from_number s n : Forall digit s -> from n (map (fun c => c - 48)%N s) = fold_left step s n.
Proof.
  intros F. unfold from. revert n. induction F as [|c s D F IH]; intros n; [reflexivity|]. cbn [map fold_left]. rewrite IH. f_equal. unfold step, digit in *. lia.
Qed.
Lemma digits_run u s : digits s -> digit_run u s (map (fun c => c - 48)%N s).
Proof.
  intros [N F]. induction F as [|c s D F IH]; [congruence|]. assert (V : decimal_value u c (c - 48)) by (left; unfold digit in D; split; [lia|reflexivity]).
  destruct s as [|d s]; [now apply run_last|]. apply run_next; [exact V|]. apply IH. discriminate.
Qed.
Lemma digits_text u s : digits s -> int_text u s (number s).
Proof.
  intros D. exists [], [], s, [], (map (fun c => c - 48)%N s). cbn [app]. rewrite app_nil_r. split; [reflexivity|]. split; [constructor|]. split; [constructor|].
  split; [now apply digits_run|]. left. split; [now left|]. change (number s = from 0 (map (fun c => (c - 48)%N) s)). now rewrite from_number by apply D.
Qed.
Lemma int_string u z : int_text u (str_int z) z.
Proof.
  destruct (Z_lt_le_dec z 0) as [L|L].
  - destruct (str_int_digits (- z)) as [D E]; [lia|]. destruct z as [| |p]; try lia. cbn [Z.opp] in *.
    exists [], [45%N], (str_int (Zpos p)), [], (map (fun c => c - 48)%N (str_int (Zpos p))). split; [rewrite app_nil_r; reflexivity|].
    split; [constructor|]. split; [constructor|]. split; [now apply digits_run|]. right. split; [reflexivity|].
    change (Zneg p = - from 0 (map (fun c => (c - 48)%N) (str_int (Zpos p)))). rewrite from_number by apply D.
    unfold number in E. change (fun n c => 10 * n + (Z.of_N c - 48)) with step in E. rewrite E. reflexivity.
  - destruct (str_int_digits z L) as [D E]. rewrite <- E at 2. now apply digits_text.
Qed.

Lemma run_no_dot u s ds : digit_run u s ds -> Forall (fun c => c <> 46%N) s.
Proof.
  assert (V : forall c d, decimal_value u c d -> c <> 46%N) by (intros c d [[H _]|[H _]]; lia).
  induction 1; repeat constructor; eauto; discriminate.
Qed.
Lemma text_no_dot u s z : int_text u s z -> Forall (fun c => c <> 46%N) s.
Proof.
  assert (S : forall a, Forall int_space a -> Forall (fun c => c <> 46%N) a).
  { intros a F. eapply Forall_impl; [|exact F]. intros c [H _] ->. discriminate H. }
  intros (a & sign & body & b & ds & -> & A & B & R & Z). apply Forall_app. split; [auto|]. apply Forall_app. split.
  - destruct Z as [[[->| ->] _]|[-> _]]; repeat constructor; discriminate.
  - apply Forall_app. split; [eapply run_no_dot, R|auto].
Qed.

Lemma join_dots ws : forall w, join [46%N] (w :: ws) = w ++ List.concat (map (cons 46%N) ws).
Proof.
  induction ws as [|x ws IH]; intros w; [cbn; now rewrite app_nil_r|]. cbn [map List.concat]. rewrite <- app_comm_cons, <- IH. reflexivity.
Qed.
Lemma split_join ws : ws <> [] -> Forall (Forall (fun c => c <> 46%N)) ws -> split_on 46 (join [46%N] ws) = ws.
Proof.
  destruct ws as [|w ws]; [congruence|]. intros _ F. inversion F; subst. rewrite join_dots. apply split_on_cons.
  - eapply Forall_impl; [|eassumption]. intros c. apply N.eqb_neq.
  - eapply Forall_impl; [|eassumption]. intros x. apply Forall_impl. intros c. apply N.eqb_neq.
Qed.
Lemma join_split s : join [46%N] (split_on 46 s) = s.
Proof.
  induction s as [|c s IH]; [reflexivity|]. cbn [split_on]. destruct (N.eqb_spec c 46) as [->|N].
  - destruct (split_on 46 s) as [|w ws] eqn:E; [|cbn [join app] in *; now rewrite IH].
    exfalso. destruct s; cbn [split_on] in E; [discriminate|]. destruct (n =? 46)%N; [discriminate|]. destruct (split_on 46 s); discriminate.
  - destruct (split_on 46 s) as [|w ws] eqn:E.
    + exfalso. destruct s; cbn [split_on] in E; [discriminate|]. destruct (n =? 46)%N; [discriminate|]. destruct (split_on 46 s); discriminate.
    + destruct ws; cbn [join app] in *; now rewrite IH.
Qed.
Lemma split_nonempty s : split_on 46 s <> [].
Proof. destruct s; cbn [split_on]; [discriminate|]. destruct (n =? 46)%N; [discriminate|]. destruct (split_on 46 s); discriminate. Qed.

Lemma release_parse_iff u s r : sane u -> release_parse u s = Ok r <-> r <> [] /\ exists ws, s = join (lit ".") ws /\ Forall2 (int_text u) ws r.
Proof.
  intros U. unfold release_parse. change (lit ".") with [46%N]. split.
  - intros H. destruct (mapM (int_of u) (split_on 46 s)) as [ps|] eqn:E; [|discriminate]. cbn [bind] in H.
    assert (X : ps <> [] /\ ps = r) by (destruct ps; [discriminate|]; split; [discriminate|]; cbn in H; congruence). destruct X as [X <-]. split; [exact X|].
    exists (split_on 46 s). split; [now rewrite join_split|]. apply mapM_ok_iff in E. eapply Forall2_weaken; [|exact E]. intros w z. now apply text_of_int.
  - intros (N & ws & -> & F).
    assert (W : ws <> []) by (intros ->; inversion F; congruence).
    assert (D : Forall (Forall (fun c => c <> 46%N)) ws).
    { clear - F. induction F as [|w z ws r H F IH]; constructor; auto. eapply text_no_dot, H. }
    rewrite split_join by assumption. assert (M : mapM (int_of u) ws = Ok r).
    { apply mapM_ok_iff. eapply Forall2_weaken; [|exact F]. intros w z. now apply int_of_text. }
    rewrite M. cbn [bind]. now destruct r.
Qed.
Lemma release_parse_err u s e : release_parse u s = Err e -> e = ValueError.
Proof.
  unfold release_parse. destruct (mapM (int_of u) (split_on 46 s)) as [ps|e'] eqn:E; cbn [bind].
  - destruct ps; cbn; congruence.
  - intros [= <-]. apply mapM_err in E. apply Exists_exists in E as (x & _ & H). eapply int_of_err, H.
Qed.
Lemma release_round u r : sane u -> r <> [] -> release_parse u (rel_to_string r) = Ok r.
Proof.
  intros U N. apply release_parse_iff; [exact U|]. split; [exact N|]. exists (map str_int r). split; [reflexivity|].
  clear N. induction r as [|z r IH]; constructor; [apply int_string|exact IH].
Qed.

(** Within versions [py_int] is enough. *)
Lemma int_of_digits u s : sane u -> Forall digit s -> int_of u s = py_int s.
Proof.
  intros U F. destruct s as [|c s]; [reflexivity|]. assert (D : digits (c :: s)) by (split; [discriminate|exact F]).
  rewrite py_int_digits by exact D. apply int_of_text; [exact U|]. now apply digits_text.
Qed.
Lemma split_forall P s : Forall P s -> Forall (Forall P) (split_on 46 s).
Proof.
  induction 1 as [|c s H F IH]; [repeat constructor|]. cbn [split_on]. destruct (c =? 46)%N; [now constructor|].
  destruct (split_on 46 s); [repeat constructor; exact H|]. inversion IH; subst. constructor; auto.
Qed.
Lemma split_dotless s : Forall (Forall (fun c => c <> 46%N)) (split_on 46 s).
Proof.
  induction s as [|c s IH]; [repeat constructor|]. cbn [split_on]. destruct (N.eqb_spec c 46); [now constructor|].
  destruct (split_on 46 s); [repeat constructor; assumption|]. inversion IH; subst. constructor; auto.
Qed.
Lemma release_simple u s : sane u -> Forall (fun c => digit c \/ c = 46%N) s -> release_parse u s = rel_from_string s.
Proof.
  intros U F. unfold release_parse, rel_from_string. f_equal. apply mapM_ext.
  pose proof (split_forall _ s F) as A. pose proof (split_dotless s) as B. rewrite Forall_forall in *. intros w I. apply int_of_digits; [exact U|].
  specialize (A w I). specialize (B w I). rewrite Forall_forall in *. intros c Ic. destruct (A c Ic); [assumption|]. now apply B in Ic.
Qed.

(** ** Local segments *)

Lemma all_digits_iff u s : all_digits u s = true <-> digits_only u s.
Proof.
  unfold all_digits, digits_only. destruct s as [|c s]; [split; [discriminate|intros [H _]; congruence]|]. rewrite forallb_forall, Forall_forall.
  assert (E : forall c, is_digit c || (127 <? c)%N && other_digit u c = true <-> (48 <= c <= 57)%N \/ (127 < c)%N /\ other_digit u c = true).
  { intros d. rewrite orb_true_iff, andb_true_iff, N.ltb_lt, is_digit_iff. reflexivity. }
  split; [intros H; split; [discriminate|]; intros d I; now apply E, H|]. intros [_ H] d I. now apply E, H.
Qed.
Lemma part_parse_ok u s p : part_parse u s = Ok p -> digits_only u s /\ (exists z, p = LInt z /\ int_of u s = Ok z) \/ ~ digits_only u s /\ p = LStr s.
Proof.
  unfold part_parse. destruct (all_digits u s) eqn:A.
  - apply all_digits_iff in A. destruct (int_of u s) as [z|]; [|discriminate]. cbn. intros [= <-]. left. eauto.
  - intros [= <-]. right. split; [|reflexivity]. rewrite <- all_digits_iff, A. discriminate.
Qed.

Definition undot (c : N) : N := if (c =? 45)%N || (c =? 95)%N then 46%N else c.
Lemma undot_iff c : undot c = 46%N <-> separator c.
Proof.
  unfold undot, separator. destruct (N.eqb_spec c 45) as [->|]; [tauto|]. destruct (N.eqb_spec c 95) as [->|]; [tauto|]. cbn [orb]. tauto.
Qed.
Lemma undot_id s : Forall (fun c => ~ separator c) s -> map undot s = s.
Proof.
  induction 1 as [|c s H F IH]; [reflexivity|]. cbn [map]. rewrite IH. f_equal. unfold undot, separator in *.
  destruct (N.eqb_spec c 45) as [->|]; [tauto|]. destruct (N.eqb_spec c 95) as [->|]; [tauto|]. reflexivity.
Qed.

(** Pieces: one more than separators. *)
Definition dots (s : pstr) : nat := List.length (filter (fun c => (c =? 46)%N) s).
Lemma split_length s : List.length (split_on 46 s) = S (dots s).
Proof.
  unfold dots. induction s as [|c s IH]; [reflexivity|]. cbn [split_on filter]. destruct (c =? 46)%N; cbn [List.length]; [now rewrite IH|].
  destruct (split_on 46 s); cbn in *; lia.
Qed.
Lemma dots_app s t : dots (s ++ t) = (dots s + dots t)%nat.
Proof. unfold dots. now rewrite filter_app, app_length. Qed.
Lemma dots_zero s : dots s = 0%nat -> Forall (fun c => c <> 46%N) s.
Proof.
  unfold dots. induction s as [|c s IH]; [constructor|]. cbn [filter]. destruct (N.eqb_spec c 46); [discriminate|]. intros H. constructor; auto.
Qed.
Lemma undot_none s : Forall (fun c => c <> 46%N) (map undot s) -> Forall (fun c => ~ separator c) s.
Proof. intros F. rewrite Forall_map in F. eapply Forall_impl; [|exact F]. cbn. intros c H S. now apply H, undot_iff. Qed.
Lemma map_join f ws : f 46%N = 46%N -> map f (join [46%N] ws) = join [46%N] (map (map f) ws).
Proof.
  intros E. induction ws as [|w [|x ws] IH]; [reflexivity|reflexivity|]. change (join [46%N] (w :: x :: ws)) with (w ++ [46%N] ++ join [46%N] (x :: ws)).
  rewrite !map_app, IH. cbn [map]. rewrite E. reflexivity.
Qed.
Lemma join_pieces ws : ws <> [] -> List.length (split_on 46 (join [46%N] ws)) = List.length ws -> Forall (Forall (fun c => c <> 46%N)) ws.
Proof.
  intros N. rewrite split_length. assert (K : S (dots (join [46%N] ws)) = (List.length ws + list_sum (map dots ws))%nat).
  { induction ws as [|w ws IH]; [congruence|]. destruct ws as [|x ws].
    - cbn [join List.length map list_sum fold_right]. unfold list_sum. cbn [fold_right]. lia.
    - change (join [46%N] (w :: x :: ws)) with (w ++ [46%N] ++ join [46%N] (x :: ws)). rewrite !dots_app.
      change (dots [46%N]) with 1%nat. specialize (IH ltac:(discriminate)). cbn [map list_sum List.length fold_right] in *. unfold list_sum in *. cbn [fold_right] in *. lia. }
  rewrite K. intros H. assert (Z : list_sum (map dots ws) = 0%nat) by lia. clear - Z. induction ws as [|w ws IH]; [constructor|].
  unfold list_sum in Z. cbn [map fold_right] in Z. constructor; [apply dots_zero; lia|]. apply IH. unfold list_sum. lia.
Qed.

Lemma nonneg_text z : Forall (fun c => ~ separator c) (str_int z) <-> 0 <= z.
Proof.
  split.
  - intros F. destruct (Z_lt_le_dec z 0) as [L|L]; [|exact L]. destruct z; try lia. cbn [str_int] in F. inversion F as [|? ? H _]. exfalso. apply H. unfold separator. auto.
  - intros L. destruct (str_int_digits z L) as [[_ D] _]. eapply Forall_impl; [|exact D]. intros c H. unfold digit, separator in *. lia.
Qed.

Lemma local_round u l : sane u -> l <> [] -> local_parse u (local_to_string l) = Ok l <-> Forall (readable u) l.
Proof.
  intros U N. unfold local_parse, local_to_string, split_separators. fold undot. change (fun c => if (c =? 45)%N || (c =? 95)%N then 46%N else c) with undot.
  change (lit ".") with [46%N]. rewrite map_join by reflexivity. rewrite map_map.
  set (ws := map (fun x => map undot (local_part_str x)) l). assert (W : ws <> []) by (destruct l; [congruence|discriminate]).
  assert (B : forall ps, (let* parts := Ok ps in local_new parts) = Ok l <-> ps = l).
  { intros ps. cbn [bind]. split; [destruct ps; cbn; congruence|]. intros ->. now destruct l. }
  split.
  - intros H. destruct (mapM (part_parse u) (split_on 46 (join [46%N] ws))) as [ps|] eqn:E; [|discriminate]. apply B in H. subst ps. apply mapM_ok_iff in E.
    assert (L : List.length (split_on 46 (join [46%N] ws)) = List.length ws).
    { unfold ws at 2. rewrite map_length. revert E. generalize (split_on 46 (join [46%N] ws)). clear. intros xs E. induction E; cbn [List.length]; congruence. }
    pose proof (join_pieces ws W L) as D. rewrite split_join in E by assumption. clear - U E D. unfold ws in *.
    induction l as [|p l IH]; [constructor|]. cbn [map] in *. inversion E as [|? ? ? ? E1 E2]; subst. inversion D as [|? ? D1 D2]; subst. constructor; [|now apply IH].
    apply undot_none in D1. rewrite (undot_id _ D1) in E1. destruct p as [z|s]; cbn [local_part_str readable] in *; [now apply nonneg_text|].
    apply part_parse_ok in E1 as [(_ & z & X & _)|[X _]]; [discriminate|]. split; assumption.
  - intros F. assert (D : Forall (Forall (fun c => ~ separator c)) (map local_part_str l)).
    { rewrite Forall_map. eapply Forall_impl; [|exact F]. intros [z|s]; cbn; [apply nonneg_text|tauto]. }
    assert (Ews : ws = map local_part_str l).
    { unfold ws. clear - D. induction l as [|p l IH]; [reflexivity|]. cbn [map] in *. inversion D; subst. rewrite IH, undot_id by assumption. reflexivity. }
    rewrite split_join; [|exact W|].
    + assert (M : mapM (part_parse u) ws = Ok l); [|rewrite M; now apply B]. rewrite Ews. apply mapM_ok_iff.
      clear - U F. induction F as [|p l R F IH]; [constructor|]. cbn [map]. constructor; [|exact IH]. unfold part_parse. destruct p as [z|s]; cbn [local_part_str readable] in *.
      * destruct (str_int_digits z R) as [[X Y] _].
        assert (A : all_digits u (str_int z) = true) by (apply all_digits_iff; split; [exact X|]; eapply Forall_impl; [|exact Y]; intros c H; now left).
        rewrite A, (int_of_text u U _ z (int_string u z)). reflexivity.
      * destruct (all_digits u s) eqn:A; [|reflexivity]. apply all_digits_iff in A. tauto.
    + rewrite Ews. eapply Forall_impl; [|exact D]. intros w. apply Forall_impl. intros c H ->. apply H. unfold separator. auto.
Qed.

(** Any string: the pieces between separators; some digits have no value. *)
Lemma digits_int u s : sane u -> digits_only u s -> (exists z, int_of u s = Ok z /\ 0 <= z) <-> Forall (fun c => digit c \/ decimal u c <> None) s.
Proof.
  intros U [N F]. split.
  - intros (z & H & _). apply text_of_int in H; [|exact U]. destruct H as (a & sign & body & b & ds & -> & A & B & R & Z).
    assert (S : forall a, Forall int_space a -> Forall (fun c => (48 <= c <= 57)%N \/ (127 < c)%N /\ other_digit u c = true) a -> a = []).
    { intros [|c l] X Y; [reflexivity|]. inversion X as [|? ? [X1 _] _]; inversion Y as [|? ? [Y1|[_ Y1]] _]; subst.
      - exfalso. unfold is_space in X1. rewrite !orb_true_iff, !andb_true_iff, !N.leb_le, !N.eqb_eq in X1. lia.
      - rewrite (proj2 U c Y1) in X1. discriminate. }
    rewrite !Forall_app in F. destruct F as (Fa & Fs & Fb & Fc). rewrite (S a A Fa), (S b B Fc), app_nil_r.
    assert (sign = []) as ->. { destruct Z as [[[->| ->] _]|[-> _]]; [reflexivity|..]; inversion Fs as [|? ? [X|[X _]] _]; lia. }
    cbn [app]. clear - R Fb. induction R as [c d V|c d s ds V R IH|c d s ds V R IH]; inversion Fb; subst.
    + constructor; [destruct V as [[V _]|[_ V]]; [left; exact V|right; congruence]|constructor].
    + constructor; [destruct V as [[V _]|[_ V]]; [left; exact V|right; congruence]|auto].
    + match goal with H : Forall _ (95%N :: _) |- _ => inversion H as [|? ? [X|[X _]] _]; lia end.
  - intros G. assert (R : exists ds, digit_run u s ds).
    { clear F. induction G as [|c s H G IH]; [congruence|]. assert (V : exists d, decimal_value u c d).
      { destruct H as [H|H]; [exists (c - 48)%N; left; split; [exact H|reflexivity]|]. destruct (decimal u c) as [d|] eqn:D; [|congruence].
        exists d. right. split; [apply (proj1 U c d D)|exact D]. }
      destruct V as (d & V). destruct s as [|c' s]; [exists [d]; now apply run_last|]. destruct IH as (ds & R); [discriminate|]. exists (d :: ds). now apply run_next. }
    destruct R as (ds & R). exists (in_decimal ds). split.
    + apply int_of_text; [exact U|]. exists [], [], s, [], ds. cbn [app]. rewrite app_nil_r. auto 10.
    + assert (K : forall n, 0 <= n -> 0 <= fold_left (fun n d => 10 * n + Z.of_N d) ds n); [|apply K; lia].
      clear. induction ds as [|d ds IH]; intros n H; cbn [fold_left]; [exact H|]. apply IH. lia.
Qed.

Lemma undot_non c : ~ separator c -> undot c = c.
Proof. intros H. pose proof (undot_id [c] ltac:(repeat constructor; exact H)) as E. cbn in E. congruence. Qed.
Lemma split_pieces s ws : split_on 46 (map undot s) = ws <-> pieces s ws.
Proof.
  split.
  - revert ws. induction s as [|c s IH]; intros ws; cbn [map split_on]; [intros <-; apply piece_last; constructor|].
    destruct (N.eqb_spec (undot c) 46) as [E|E].
    + intros <-. apply (piece_next []); [constructor|now apply undot_iff|now apply IH].
    + assert (S : ~ separator c) by (rewrite <- undot_iff; exact E). specialize (IH _ eq_refl).
      destruct (split_on 46 (map undot s)) as [|w ws']; [inversion IH|]. intros <-. rewrite (undot_non c S). inversion IH; subst.
      * apply piece_last. now constructor.
      * rewrite app_comm_cons. apply piece_next; [now constructor|assumption|assumption].
  - induction 1 as [w F|w c s ws F S P IH].
    + rewrite undot_id by exact F. apply (split_join [w]); [discriminate|]. repeat constructor. eapply Forall_impl; [|exact F]. intros c H ->. apply H. now left.
    + rewrite map_app, undot_id by exact F. cbn [map]. rewrite (proj2 (undot_iff c) S). rewrite split_on_app.
      * cbn [split_on]. rewrite N.eqb_refl, app_nil_r. now rewrite IH.
      * eapply Forall_impl; [|exact F]. intros d H. apply N.eqb_neq. intros ->. apply H. now left.
Qed.

Lemma part_parse_iff u s p : sane u -> part_parse u s = Ok p <-> part_text u s p.
Proof.
  intros U. unfold part_text. split.
  - intros H. apply part_parse_ok in H as [[D (z & E & H)]|H]; [left|now right]. split; [exact D|]. exists z. split; [exact E|]. now apply text_of_int.
  - unfold part_parse. intros [[D (z & -> & H)]|[D ->]].
    + apply all_digits_iff in D. rewrite D, (int_of_text u U s z H). reflexivity.
    + destruct (all_digits u s) eqn:A; [|reflexivity]. now apply all_digits_iff in A.
Qed.
Lemma local_parse_iff u s l : sane u -> local_parse u s = Ok l <-> exists ws, pieces s ws /\ Forall2 (part_text u) ws l.
Proof.
  intros U. unfold local_parse, split_separators. change (fun c => if (c =? 45)%N || (c =? 95)%N then 46%N else c) with undot. split.
  - intros H. destruct (mapM (part_parse u) (split_on 46 (map undot s))) as [ps|] eqn:E; [|discriminate]. cbn [bind] in H.
    assert (ps = l) as -> by (destruct ps; cbn in H; congruence). apply mapM_ok_iff in E. exists (split_on 46 (map undot s)). split; [now apply split_pieces|].
    eapply Forall2_weaken; [|exact E]. intros w p. now apply part_parse_iff.
  - intros (ws & P & F). rewrite (proj2 (split_pieces s ws) P). assert (M : mapM (part_parse u) ws = Ok l).
    { apply mapM_ok_iff. eapply Forall2_weaken; [|exact F]. intros w p. now apply part_parse_iff. }
    rewrite M. cbn [bind]. destruct l; [|reflexivity]. inversion F; subst. inversion P.
Qed.
Lemma local_parse_fails u s : sane u -> (exists e, local_parse u s = Err e) <-> exists ws w, pieces s ws /\ In w ws /\ digits_only u w /\ Exists (odd_digit u) w.
Proof.
  intros U. assert (K : forall w, digits_only u w -> (exists z, int_of u w = Ok z) <-> ~ Exists (odd_digit u) w).
  { intros w D. split.
    - intros (z & H) X. assert (P : 0 <= z).
      { apply text_of_int in H; [|exact U]. destruct H as (a & sign & body & b & ds & -> & _ & _ & _ & Z). destruct Z as [[_ ->]|[-> _]].
        - assert (Q : forall n, 0 <= n -> 0 <= fold_left (fun n d => 10 * n + Z.of_N d) ds n); [|apply Q; lia].
          clear. induction ds as [|d ds IH]; intros n H; cbn [fold_left]; [exact H|]. apply IH. lia.
        - destruct D as [_ D]. rewrite !Forall_app in D. destruct D as (_ & D & _). inversion D as [|? ? [Y|[Y _]] _]; lia. }
      pose proof (proj1 (digits_int u w U D) (ex_intro _ z (conj H P))) as F. rewrite Forall_forall in F. apply Exists_exists in X as (c & I & N1 & N2). destruct (F c I); [|contradiction]. apply N1. assumption.
    - intros X. destruct (proj2 (digits_int u w U D)) as (z & H & _); [|eauto]. rewrite Forall_forall. intros c I.
      destruct (decimal u c) eqn:E; [right; discriminate|left]. unfold digit. destruct (is_digit c) eqn:G; [now apply is_digit_iff in G|]. exfalso. apply X.
      apply Exists_exists. exists c. split; [exact I|]. split; [|exact E]. intros Y. apply is_digit_iff in Y. congruence. }
  unfold local_parse, split_separators. change (fun c => if (c =? 45)%N || (c =? 95)%N then 46%N else c) with undot. split.
  - intros (e & H). exists (split_on 46 (map undot s)). destruct (mapM (part_parse u) (split_on 46 (map undot s))) as [ps|e'] eqn:E; cbn [bind] in H.
    + exfalso. destruct ps; [|discriminate H]. apply mapM_ok_iff in E. pose proof (proj1 (split_pieces s _) eq_refl) as P. inversion E as [X|]. rewrite <- X in P. inversion P.
    + apply mapM_err in E. apply Exists_exists in E as (w & I & H'). exists w. split; [now apply split_pieces|]. split; [exact I|].
      unfold part_parse in H'. destruct (all_digits u w) eqn:A; [|discriminate]. apply all_digits_iff in A. split; [exact A|].
      destruct (Exists_dec (odd_digit u) w) as [X|X]; [|exact X|].
      * intros c. unfold odd_digit. destruct (decimal u c); [right; intros [_ Y]; discriminate|]. destruct (is_digit c) eqn:G.
        -- right. intros [Y _]. apply Y. now apply is_digit_iff.
        -- left. split; [|reflexivity]. intros Y. apply is_digit_iff in Y. congruence.
      * apply (K w A) in X as (z & X). rewrite X in H'. discriminate.
  - intros (ws & w & P & I & D & X). apply split_pieces in P. rewrite P. destruct (mapM (part_parse u) ws) as [ps|e] eqn:E; [|cbn [bind]; eauto].
    exfalso. apply mapM_ok_iff in E. clear P. induction E as [|w' p ws ps H E IH]; [inversion I|]. destruct I as [->|I]; [|auto].
    apply part_parse_ok in H as [[_ (z & _ & H)]|[N _]]; [|contradiction]. now apply (proj1 (K w D)); [exists z|].
Qed.
Lemma local_parse_err u s e : local_parse u s = Err e -> e = ValueError.
Proof.
  unfold local_parse. destruct (mapM (part_parse u) (split_separators s)) as [ps|e'] eqn:E; cbn [bind].
  - destruct ps; cbn; congruence.
  - intros [= <-]. apply mapM_err in E. apply Exists_exists in E as (x & _ & H). unfold part_parse in H. destruct (all_digits u x); [|discriminate].
    destruct (int_of u x) eqn:G; [discriminate|]. cbn in H. injection H as <-. eapply int_of_err, G.
Qed.

Lemma local_simple u s : sane u -> Forall (fun c => (c < 128)%N) s -> local_parse u s = local_from_string s.
Proof.
  intros U F. unfold local_parse, local_from_string. f_equal. apply mapM_ext. unfold split_separators.
  assert (G : Forall (fun c => (c < 128)%N) (map (fun c => if (c =? 45)%N || (c =? 95)%N then 46%N else c) s)).
  { rewrite Forall_map. eapply Forall_impl; [|exact F]. cbn beta. intros c H. destruct ((c =? 45) || (c =? 95))%N; [reflexivity|exact H]. }
  pose proof (split_forall _ _ G) as A. rewrite Forall_forall in *. intros w I. specialize (A w I). unfold part_parse, local_part_of.
  assert (B : all_digits u w = check_int w).
  { unfold all_digits, check_int. destruct w as [|c w]; [reflexivity|]. apply eq_true_iff_eq. rewrite !forallb_forall. rewrite Forall_forall in A.
    assert (X : forall d, In d (c :: w) -> is_digit d || (127 <? d)%N && other_digit u d = is_digit d).
    { intros d J. specialize (A d J). destruct (127 <? d)%N eqn:L; [apply N.ltb_lt in L; lia|]. now rewrite andb_false_l, orb_false_r. }
    split; intros H d J; [rewrite <- X|rewrite X]; auto. }
  rewrite B. destruct (check_int w) eqn:C; [|reflexivity]. rewrite int_of_digits; [reflexivity|exact U|].
  unfold check_int in C. destruct w as [|c w]; [discriminate|]. rewrite forallb_forall in C. rewrite Forall_forall. intros d J. now apply is_digit_iff, C.
Qed.
