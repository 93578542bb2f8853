(** The patterns are matched in a number of steps linear in the length of the
    string. *)

From Coq Require Import List ZArith NArith String Bool Arith Lia.
From Verif Require Import Py Segments Regex Patterns Parsers SpecText Steps.
Import ListNotations.
Local Open Scope nat_scope.

(** ** The steps find what the matcher finds *)

Definition is_some {A} (o : option A) : bool := match o with Some _ => true | None => false end.

Definition step_loop (r : re) (k : pstr -> bool * nat) : nat -> pstr -> bool * nat :=
  fix go (n : nat) (s : pstr) : bool * nat :=
    match n with
    | O => tick (k s)
    | S n' => tick (orelse (steps r s (fun s' => if (List.length s' <? List.length s)%nat then go n' s' else (false, 1%nat))) (k s))
    end.

Definition match_loop (r : re) (k : pstr -> caps -> option caps) : nat -> pstr -> caps -> option caps :=
  fix go (m : nat) (s : pstr) (cs : caps) : option caps :=
  match m with
  | O => k s cs
  | S m' =>
      match mt r s cs (fun s' cs' =>
              if (List.length s' <? List.length s)%nat then go m' s' cs' else None) with
      | Some x => Some x
      | None => k s cs
      end
  end.

Lemma steps_match r : forall s cs k k', (forall s cs, fst (k s) = is_some (k' s cs)) -> fst (steps r s k) = is_some (mt r s cs k').
Proof.
  induction r as [|p|a IHa b IHb|a IHa b IHb|a IHa|a IHa|g a IHa]; intros s cs k k' K; cbn [steps mt tick fst].
  - apply K.
  - destruct s as [|c s]; [reflexivity|]. destruct (p c); [apply K|reflexivity].
  - apply IHa. intros s' cs'. now apply IHb.
  - unfold orelse. rewrite (IHa s cs k k' K). destruct (mt a s cs k') eqn:E; cbn [is_some].
    + rewrite (IHa s cs k k' K), E. reflexivity.
    + cbn [fst]. now apply IHb.
  - unfold orelse. rewrite (IHa s cs k k' K). destruct (mt a s cs k') eqn:E; cbn [is_some].
    + rewrite (IHa s cs k k' K), E. reflexivity.
    + cbn [fst]. apply K.
  - change (fst (step_loop a k (List.length s) s) = is_some (match_loop a k' (List.length s) s cs)).
    generalize (List.length s) at 1 2. intros n. revert s cs. induction n as [|n IH]; intros s cs; cbn [step_loop match_loop tick fst]; [apply K|].
    assert (H : fst (steps a s (fun s' => if (List.length s' <? List.length s)%nat then step_loop a k n s' else (false, 1%nat)))
      = is_some (mt a s cs (fun s' cs' => if (List.length s' <? List.length s)%nat then match_loop a k' n s' cs' else None))).
    { apply IHa. intros s' cs'. destruct (_ <? _); [apply IH|reflexivity]. }
    unfold orelse. fold (step_loop a k). rewrite H. destruct (mt a s cs _) eqn:E; cbn [is_some] in *; [exact H|]. cbn [fst]. apply K.
  - apply IHa. intros s' cs'. apply K.
Qed.

Theorem fullmatch_found r s : fst (fullmatch_steps r s) = true <-> fullmatch r s <> None.
Proof.
  unfold fullmatch_steps, fullmatch. rewrite (steps_match r s [] _ (fun s' cs => match s' with [] => Some cs | _ => None end)).
  - destruct (mt r s [] _); cbn [is_some]; split; congruence.
  - intros [|] cs; reflexivity.
Qed.

(** ** Steps when every continuation fails *)

Fixpoint total (r : re) (f : pstr -> nat) (s : pstr) : nat :=
  match r with
  | Eps => S (f s)
  | Chr p => match s with [] => 1 | c :: s' => if p c then S (f s') else 1 end
  | Cat r1 r2 => S (total r1 (total r2 f) s)
  | Alt r1 r2 => S (total r1 f s + total r2 f s)
  | Opt r1 => S (total r1 f s + f s)
  | Star r1 =>
      (fix go (n : nat) (s : pstr) : nat :=
         match n with
         | O => S (f s)
         | S n' => S (total r1 (fun s' => if (List.length s' <? List.length s)%nat then go n' s' else 1) s + f s)
         end) (List.length s) s
  | Grp g r1 => S (total r1 f s)
  end.

Definition total_loop (r : re) (f : pstr -> nat) : nat -> pstr -> nat :=
  fix go (n : nat) (s : pstr) : nat :=
    match n with
    | O => S (f s)
    | S n' => S (total r (fun s' => if (List.length s' <? List.length s)%nat then go n' s' else 1) s + f s)
    end.

Lemma total_star r f s : total (Star r) f s = total_loop r f (List.length s) s.
Proof. reflexivity. Qed.

Lemma total_mono r : forall f g s, (forall s, f s <= g s) -> total r f s <= total r g s.
Proof.
  induction r as [|p|a IHa b IHb|a IHa b IHb|a IHa|a IHa|h a IHa]; intros f g s H.
  - cbn [total]. specialize (H s). lia.
  - cbn [total]. destruct s as [|c s]; auto. destruct (p c); auto. specialize (H s). lia.
  - cbn [total]. apply le_n_S, IHa. intros s'. now apply IHb.
  - cbn [total]. specialize (IHa f g s H). specialize (IHb f g s H). lia.
  - cbn [total]. specialize (IHa f g s H). specialize (H s). lia.
  - rewrite !total_star. generalize (List.length s). intros n. revert s. induction n as [|n IH]; intros s; cbn [total_loop].
    + specialize (H s). lia.
    + assert (X : total a (fun s' => if List.length s' <? List.length s then total_loop a f n s' else 1) s
        <= total a (fun s' => if List.length s' <? List.length s then total_loop a g n s' else 1) s).
      { apply IHa. intros s'. destruct (_ <? _); auto. }
      fold (total_loop a f). fold (total_loop a g). specialize (H s). lia.
  - cbn [total]. now apply le_n_S, IHa.
Qed.

Lemma steps_total r : forall s k, snd (steps r s k) <= total r (fun s => snd (k s)) s.
Proof.
  assert (O : forall x y, snd (orelse x y) <= snd x + snd y) by (intros [[|] x] [m y]; unfold orelse; cbn [fst snd]; lia).
  induction r as [|p|a IHa b IHb|a IHa b IHb|a IHa|a IHa|h a IHa]; intros s k.
  - reflexivity.
  - cbn [steps total]. destruct s as [|c s]; auto. destruct (p c); auto.
  - cbn [steps total tick snd]. apply le_n_S. eapply Nat.le_trans; [apply IHa|]. apply total_mono. intros s'. apply IHb.
  - cbn [steps total tick snd]. apply le_n_S. eapply Nat.le_trans; [apply O|]. apply Nat.add_le_mono; [apply IHa|apply IHb].
  - cbn [steps total tick snd]. apply le_n_S. eapply Nat.le_trans; [apply O|]. apply Nat.add_le_mono; [apply IHa|reflexivity].
  - rewrite total_star. change (steps (Star a) s k) with (step_loop a k (List.length s) s).
    generalize (List.length s). intros n. revert s. induction n as [|n IH]; intros s; cbn [total_loop step_loop tick snd]; [reflexivity|].
    fold (step_loop a k). fold (total_loop a (fun s => snd (k s))).
    apply le_n_S. eapply Nat.le_trans; [apply O|]. apply Nat.add_le_mono; [|reflexivity].
    eapply Nat.le_trans; [apply IHa|]. apply total_mono. intros s'. destruct (_ <? _); auto.
  - cbn [steps total tick snd]. apply le_n_S, IHa.
Qed.

(** ** Linear bounds *)

(** A cost that is linear in what is left. *)
Definition lin (A B : nat) (f : pstr -> nat) : Prop := forall s, f s <= A * List.length s + B.

(** What is left where a number was cut short: digits, or a dot and digits. *)
Definition cut (s : pstr) : Prop :=
  match s with
  | c :: s' => is_digit c = true \/ (c = 46%N /\ match s' with d :: _ => is_digit d = true | [] => False end)
  | [] => False
  end.

Definition quick (c : nat) (f : pstr -> nat) : Prop := forall s, cut s -> f s <= c.

(** Expressions keeping costs linear, provided that a cut costs little, or
    whatever a cut costs. *)
Definition linear (r : re) : Prop := forall c A B, exists A' B', forall f, lin A B f -> quick c f -> lin A' B' (total r f).
Definition always_linear (r : re) : Prop := forall A B, exists A' B', forall f, lin A B f -> lin A' B' (total r f).

(** Expressions keeping cuts cheap, and those that fail at a cut. *)
Definition cheap (r : re) : Prop := forall c, exists c', forall f, quick c f -> quick c' (total r f).
Definition blocked (r : re) : Prop := exists c, forall f, quick c (total r f).

Lemma blocked_cheap r : blocked r -> cheap r.
Proof. intros [c H] d. exists c. intros f _. apply H. Qed.

Lemma always r : always_linear r -> linear r.
Proof. intros H c A B. destruct (H A B) as (A' & B' & X). exists A', B'. auto. Qed.

Lemma lin_weak A B A' B' f : A <= A' -> B <= B' -> lin A B f -> lin A' B' f.
Proof. intros H1 H2 F s. specialize (F s). nia. Qed.

Lemma always_chr p : always_linear (Chr p).
Proof.
  intros A B. exists A, (S B). intros f F s. cbn [total]. destruct s as [|c s]; [lia|]. destruct (p c); cbn [List.length]; [|lia].
  specialize (F s). nia.
Qed.

Lemma always_eps : always_linear Eps.
Proof. intros A B. exists A, (S B). intros f F s. cbn [total]. specialize (F s). lia. Qed.

Lemma always_cat a b : always_linear a -> always_linear b -> always_linear (Cat a b).
Proof.
  intros H1 H2 A B. destruct (H2 A B) as (A' & B' & X). destruct (H1 A' B') as (A'' & B'' & Y). exists A'', (S B'').
  intros f F s. cbn [total]. specialize (Y _ (X f F) s). lia.
Qed.

Lemma always_alt a b : always_linear a -> always_linear b -> always_linear (Alt a b).
Proof.
  intros H1 H2 A B. destruct (H2 A B) as (A' & B' & X). destruct (H1 A B) as (A'' & B'' & Y). exists (A' + A''), (S (B' + B'')).
  intros f F s. cbn [total]. specialize (Y f F s). specialize (X f F s). nia.
Qed.

Lemma always_opt a : always_linear a -> always_linear (Opt a).
Proof.
  intros H A B. destruct (H A B) as (A' & B' & X). exists (A + A'), (S (B + B')).
  intros f F s. cbn [total]. specialize (F s) as G. specialize (X f F s). nia.
Qed.

Lemma always_grp g a : always_linear a -> always_linear (Grp g a).
Proof. intros H A B. destruct (H A B) as (A' & B' & X). exists A', (S B'). intros f F s. cbn [total]. specialize (X f F s). lia. Qed.

Lemma always_word w : always_linear (word w).
Proof.
  induction w as [|c w IH]; [apply always_eps|]. cbn [word]. destruct w; [apply always_chr|]. apply always_cat; [apply always_chr|exact IH].
Qed.

Lemma always_alts ws : always_linear (alts ws).
Proof.
  induction ws as [|w ws IH]; [apply always_eps|]. cbn [alts]. destruct ws; [apply always_word|]. apply always_alt; [apply always_word|exact IH].
Qed.

Lemma linear_cat a b : linear a -> linear b -> cheap b -> linear (Cat a b).
Proof.
  intros H1 H2 H3 c A B. destruct (H3 c) as [c' Z]. destruct (H2 c A B) as (A' & B' & X). destruct (H1 c' A' B') as (A'' & B'' & Y).
  exists A'', (S B''). intros f F Q s. cbn [total]. specialize (Y _ (X f F Q) (Z f Q) s). lia.
Qed.

Lemma linear_after a b : always_linear a -> linear b -> linear (Cat a b).
Proof.
  intros H1 H2 c A B. destruct (H2 c A B) as (A' & B' & X). destruct (H1 A' B') as (A'' & B'' & Y).
  exists A'', (S B''). intros f F Q s. cbn [total]. specialize (Y _ (X f F Q) s). lia.
Qed.

(** A linear expression before one that fails at cuts. *)
Lemma always_blocked a b : linear a -> always_linear b -> blocked b -> always_linear (Cat a b).
Proof.
  intros H1 H2 [c Z] A B. destruct (H2 A B) as (A' & B' & X). destruct (H1 c A' B') as (A'' & B'' & Y).
  exists A'', (S B''). intros f F s. cbn [total]. specialize (Y _ (X f F) (Z f) s). lia.
Qed.

Lemma linear_alt a b : linear a -> linear b -> linear (Alt a b).
Proof.
  intros H1 H2 c A B. destruct (H2 c A B) as (A' & B' & X). destruct (H1 c A B) as (A'' & B'' & Y). exists (A' + A''), (S (B' + B'')).
  intros f F Q s. cbn [total]. specialize (Y f F Q s). specialize (X f F Q s). nia.
Qed.

Lemma linear_opt a : linear a -> linear (Opt a).
Proof.
  intros H c A B. destruct (H c A B) as (A' & B' & X). exists (A + A'), (S (B + B')).
  intros f F Q s. cbn [total]. specialize (F s) as G. specialize (X f F Q s). nia.
Qed.

Lemma linear_grp g a : linear a -> linear (Grp g a).
Proof. intros H c A B. destruct (H c A B) as (A' & B' & X). exists A', (S B'). intros f F Q s. cbn [total]. specialize (X f F Q s). lia. Qed.

Lemma cheap_opt a : cheap a -> cheap (Opt a).
Proof. intros H c. destruct (H c) as [c' X]. exists (S (c' + c)). intros f Q s C. cbn [total]. specialize (X f Q s C). specialize (Q s C). lia. Qed.

Lemma cheap_alt a b : cheap a -> cheap b -> cheap (Alt a b).
Proof. intros H1 H2 c. destruct (H1 c) as [c1 X]. destruct (H2 c) as [c2 Y]. exists (S (c1 + c2)). intros f Q s C. cbn [total]. specialize (X f Q s C). specialize (Y f Q s C). lia. Qed.

Lemma cheap_cat a b : cheap a -> cheap b -> cheap (Cat a b).
Proof. intros H1 H2 c. destruct (H2 c) as [c1 X]. destruct (H1 c1) as [c2 Y]. exists (S c2). intros f Q s C. cbn [total]. specialize (Y _ (X f Q) s C). lia. Qed.

Lemma blocked_cat a b : blocked a -> blocked (Cat a b).
Proof. intros [c H]. exists (S c). intros f s C. cbn [total]. specialize (H (total b f) s C). lia. Qed.

Lemma blocked_then a b : cheap a -> blocked b -> blocked (Cat a b).
Proof. intros H1 [c H2]. destruct (H1 c) as [c' X]. exists (S c'). intros f s C. cbn [total]. specialize (X _ (H2 f) s C). lia. Qed.

Lemma blocked_alt a b : blocked a -> blocked b -> blocked (Alt a b).
Proof. intros [c1 H1] [c2 H2]. exists (S (c1 + c2)). intros f s C. cbn [total]. specialize (H1 f s C). specialize (H2 f s C). lia. Qed.

Lemma blocked_grp g a : blocked a -> blocked (Grp g a).
Proof. intros [c H]. exists (S c). intros f s C. cbn [total]. specialize (H f s C). lia. Qed.

(** A character that is neither a digit nor a dot. *)
Lemma blocked_chr p : (forall c, is_digit c = true -> p c = false) -> p 46%N = false -> blocked (Chr p).
Proof.
  intros D P. exists 1. intros f [|c s] C; [destruct C|]. cbn [total]. destruct C as [C|[-> _]]; [now rewrite (D c C)|now rewrite P].
Qed.

Lemma digit_range c : is_digit c = true -> (48 <= c <= 57)%N.
Proof. unfold is_digit. rewrite andb_true_iff, !N.leb_le. auto. Qed.

Lemma lower_digit c : is_digit c = true -> lower c = c.
Proof.
  intros D. apply digit_range in D. unfold lower.
  repeat match goal with
  | |- context[(?a <=? ?b)%N] => destruct (N.leb_spec a b); try lia
  | |- context[(?a =? ?b)%N] => destruct (N.eqb_spec a b); try lia
  end; reflexivity.
Qed.

(** A separator may be the dot of a cut, with a digit after it. *)
Lemma cheap_sep : cheap SEPARATOR.
Proof.
  intros c. exists (S (S c)). intros f Q [|x s] C; [destruct C|]. cbn [total SEPARATOR]. destruct C as [C|[-> C]].
  - replace (is_sep x) with false; [lia|]. apply digit_range in C. unfold is_sep. symmetry. rewrite !orb_false_iff, !N.eqb_neq. lia.
  - change (is_sep 46) with true. cbv iota. destruct s as [|d s]; [destruct C|]. specialize (Q (d :: s)). cbn [cut] in Q. specialize (Q (or_introl C)). lia.
Qed.

Definition letterish (a : N) : bool := ((97 <=? a) && (a <=? 122))%N.

Lemma blocked_ci a : letterish a = true -> blocked (ci a).
Proof.
  unfold letterish. rewrite andb_true_iff, !N.leb_le. intros A. apply blocked_chr.
  - intros c D. rewrite (lower_digit c D). apply digit_range in D. apply N.eqb_neq. lia.
  - change (lower 46) with 46%N. apply N.eqb_neq. lia.
Qed.

Lemma blocked_char a : negb (is_digit a) && negb (a =? 46)%N = true -> blocked (Patterns.chr a).
Proof.
  rewrite andb_true_iff, !negb_true_iff. intros [H1 H2]. apply blocked_chr; [|exact H2].
  intros c D. apply N.eqb_neq. intros ->. congruence.
Qed.

Lemma blocked_word w : match w with c :: _ => letterish c = true | [] => False end -> blocked (word w).
Proof.
  destruct w as [|c w]; [contradiction|]. intros L. cbn [word]. destruct w; [now apply blocked_ci|]. apply blocked_cat. now apply blocked_ci.
Qed.

Lemma blocked_alts ws : ws <> [] -> Forall (fun w => match w with c :: _ => letterish c = true | [] => False end) ws -> blocked (alts ws).
Proof.
  intros N H. induction H as [|w ws W H IH]; [contradiction|]. cbn [alts]. destruct ws as [|w' ws]; [now apply blocked_word|].
  apply blocked_alt; [now apply blocked_word|]. now apply IH.
Qed.

(** ** Repetitions of one character *)

Fixpoint prefix (p : N -> bool) (s : pstr) : nat :=
  match s with
  | c :: s' => if p c then S (prefix p s') else 0
  | [] => 0
  end.

Definition after (p : N -> bool) (s : pstr) : pstr := skipn (prefix p s) s.

Lemma prefix_le p s : prefix p s + List.length (after p s) = List.length s.
Proof.
  unfold after. induction s as [|c s IH]; [reflexivity|]. cbn [prefix]. destruct (p c); cbn [skipn List.length]; [|lia]. lia.
Qed.

(** [f] is [c] at most where the next character is one more. *)
Lemma run_bound p f c : (forall x s, p x = true -> f (x :: s) <= c) ->
  forall n s, n = List.length s -> total_loop (Chr p) f n s <= (c + 3) * prefix p s + 2 + f (after p s).
Proof.
  intros Q n. induction n as [|n IH]; intros s E.
  - destruct s; [|discriminate]. cbn. lia.
  - destruct s as [|x s]; [discriminate|]. injection E as E. cbn [total_loop total].
    unfold after. cbn [prefix]. destruct (p x) eqn:P.
    + replace (List.length s <? List.length (x :: s)) with true by (symmetry; apply Nat.ltb_lt; cbn; lia).
      fold (total_loop (Chr p) f). cbn [skipn]. fold (after p s). specialize (IH s E). specialize (Q x s P). nia.
    + cbn [skipn]. lia.
Qed.

Lemma plus_bound p f c : (forall x s, p x = true -> f (x :: s) <= c) ->
  forall s, total (Plus (Chr p)) f s <= match prefix p s with O => 2 | n => (c + 3) * n + 4 + f (after p s) end.
Proof.
  intros Q [|x s]; [cbn; lia|]. unfold Plus, after. cbn [total prefix]. destruct (p x) eqn:P; [|lia].
  change ((fix go (n : nat) (s0 : pstr) {struct n} : nat :=
         match n with
         | O => S (f s0)
         | S n' => S (match s0 with [] => 1 | c0 :: s' => if p c0 then S (if List.length s' <? List.length s0 then go n' s' else 1) else 1 end + f s0)
         end) (List.length s) s) with (total_loop (Chr p) f (List.length s) s).
  pose proof (run_bound p f c Q _ s eq_refl). cbn [skipn]. fold (after p s). nia.
Qed.

(** Runs of one kind of characters, with another kind between them. *)
Definition blocks (p q : N -> bool) : re := Cat (Plus (Chr p)) (Star (Cat (Chr q) (Plus (Chr p)))).

(** What is left where blocks are cut short. *)
Definition block_cut (p q : N -> bool) (s : pstr) : Prop :=
  match s with
  | c :: s' => p c = true \/ (q c = true /\ match s' with d :: _ => p d = true | [] => False end)
  | [] => False
  end.

Lemma star_bound p q f c A B : (forall x, p x = true -> q x = false) -> (forall s, block_cut p q s -> f s <= c) -> lin A B f ->
  forall n s, n = List.length s -> forall m, n <= m ->
  total_loop (Cat (Chr q) (Plus (Chr p))) f m s <= (A + 3 * c + 30) * List.length s + B + 30.
Proof.
  intros D Q F n. induction n as [n IH] using lt_wf_ind. intros s E m M.
  assert (R : forall x s m, p x = true -> total_loop (Cat (Chr q) (Plus (Chr p))) f m (x :: s) <= c + 4).
  { intros x s' m' P. assert (C : f (x :: s') <= c) by (apply Q; cbn; auto). destruct m' as [|m']; cbn [total_loop total]; [lia|]. rewrite (D x P). lia. }
  destruct m as [|m].
  { destruct s; [|cbn in E; lia]. cbn [total_loop]. specialize (F []). cbn in *. lia. }
  cbn [total_loop]. destruct s as [|x s].
  { cbn [total]. specialize (F []). cbn in *. lia. }
  fold (total_loop (Cat (Chr q) (Plus (Chr p))) f).
  set (g := fun s' => if List.length s' <? List.length (x :: s) then total_loop (Cat (Chr q) (Plus (Chr p))) f m s' else 1).
  change (S (total (Cat (Chr q) (Plus (Chr p))) g (x :: s) + f (x :: s)) <= (A + 3 * c + 30) * List.length (x :: s) + B + 30).
  change (total (Cat (Chr q) (Plus (Chr p))) g (x :: s)) with (S (if q x then S (total (Plus (Chr p)) g s) else 1)).
  destruct (q x) eqn:X.
  2: { specialize (F (x :: s)). nia. }
  assert (G : forall y u, p y = true -> g (y :: u) <= c + 4).
  { intros y u P. unfold g. destruct (_ <? _); [now apply R|lia]. }
  pose proof (plus_bound p g (c + 4) G s) as PB. destruct (prefix p s) as [|L] eqn:PL.
  - specialize (F (x :: s)). nia.
  - assert (Y : f (x :: s) <= c).
    { apply Q. cbn [block_cut]. right. split; [exact X|]. destruct s as [|d s]; [discriminate|]. cbn [prefix] in PL. destruct (p d); [reflexivity|discriminate]. }
    pose proof (prefix_le p s) as PLE. rewrite PL in PLE.
    assert (Z : g (after p s) <= (A + 3 * c + 30) * List.length (after p s) + B + 30).
    { unfold g. destruct (_ <? _); [|lia]. cbn [List.length] in *. apply (IH (List.length (after p s))); lia. }
    cbn [List.length] in *. nia.
Qed.

Lemma blocks_bound p q f c A B : (forall x, p x = true -> q x = false) -> (forall s, block_cut p q s -> f s <= c) -> lin A B f ->
  lin (A + 7 * c + 100) (B + 100) (total (blocks p q) f).
Proof.
  intros D Q F s.
  set (g := fun s => total_loop (Cat (Chr q) (Plus (Chr p))) f (List.length s) s).
  change (S (total (Plus (Chr p)) g s) <= (A + 7 * c + 100) * List.length s + (B + 100)).
  assert (G : forall y u, p y = true -> g (y :: u) <= c + 4).
  { intros y u P. unfold g. assert (C : f (y :: u) <= c) by (apply Q; cbn; auto). cbn [List.length total_loop total]. rewrite (D y P). lia. }
  pose proof (plus_bound p g (c + 4) G s) as PB. destruct (prefix p s) as [|L] eqn:PL; [nia|].
  pose proof (prefix_le p s) as PLE. rewrite PL in PLE.
  assert (Z : g (after p s) <= (A + 3 * c + 30) * List.length (after p s) + B + 30) by (apply (star_bound p q f c A B D Q F (List.length (after p s))); lia).
  nia.
Qed.

Lemma linear_digits : linear DIGITS.
Proof.
  intros c A B. exists (A + c + 3), (B + 4). intros f F Q s.
  pose proof (plus_bound is_digit f c (fun x s H => Q (x :: s) (or_introl H)) s) as H. unfold DIGITS.
  destruct (prefix is_digit s) as [|L] eqn:P; [lia|]. pose proof (prefix_le is_digit s) as PL. rewrite P in PL. specialize (F (after is_digit s)). nia.
Qed.

(** ** Numbers *)

Lemma dot_only x : is_digit x = true -> (46 =? x)%N = false.
Proof. intros D. apply digit_range in D. apply N.eqb_neq. lia. Qed.

Lemma linear_release : linear (Cat DIGITS (Star (Cat (Patterns.chr 46) DIGITS))).
Proof.
  intros c A B. exists (A + 7 * c + 100), (B + 100). intros f F Q.
  apply (blocks_bound is_digit (N.eqb 46) f c A B dot_only); [|exact F].
  intros s C. apply Q. destruct s as [|x s]; [exact C|]. destruct C as [C|[C D]]; [now left|]. apply N.eqb_eq in C. right. auto.
Qed.

Lemma always_opt_sep : always_linear (Opt SEPARATOR).
Proof. apply always_opt, always_chr. Qed.

Lemma cheap_opt_sep : cheap (Opt SEPARATOR).
Proof. apply cheap_opt, cheap_sep. Qed.

Lemma linear_value g : linear (Opt (Cat (Opt SEPARATOR) (Grp g DIGITS))).
Proof. apply linear_opt, linear_after; [apply always_opt_sep|]. apply linear_grp, linear_digits. Qed.

Lemma linear_plain_value : linear (Opt (Cat (Opt SEPARATOR) DIGITS)).
Proof. apply linear_opt, linear_after; [apply always_opt_sep|]. apply linear_digits. Qed.

(** ** Tags *)

Lemma blocked_phases ws : In ws [PRE_PHASES; POST_PHASES; DEV_PHASES] -> blocked (alts ws).
Proof.
  intros [<-|[<-|[<-|[]]]]; (apply blocked_alts; [discriminate|]); repeat (apply Forall_cons; [reflexivity|]); apply Forall_nil.
Qed.

Section Tag.
  Variable ws : list pstr.
  Hypothesis W : In ws [PRE_PHASES; POST_PHASES; DEV_PHASES].

  Lemma linear_tag g gp gv : linear (Cat (Opt SEPARATOR) (Grp g (Cat (Grp gp (alts ws)) (Opt (Cat (Opt SEPARATOR) (Grp gv DIGITS)))))).
  Proof.
    apply linear_after; [apply always_opt_sep|]. apply linear_grp, linear_after; [apply always_grp, always_alts|]. apply linear_value.
  Qed.

  Lemma blocked_tag g gp gv : blocked (Cat (Opt SEPARATOR) (Grp g (Cat (Grp gp (alts ws)) (Opt (Cat (Opt SEPARATOR) (Grp gv DIGITS)))))).
  Proof. apply blocked_then; [apply cheap_opt_sep|]. apply blocked_grp, blocked_cat, blocked_grp. now apply blocked_phases. Qed.

  Lemma linear_plain_tag : linear (cats [Opt SEPARATOR; alts ws; Opt (Cat (Opt SEPARATOR) DIGITS)]).
  Proof.
    cbn [cats]. apply linear_after; [apply always_opt_sep|]. apply linear_after; [apply always_alts|]. apply linear_plain_value.
  Qed.

  Lemma blocked_plain_tag : blocked (cats [Opt SEPARATOR; alts ws; Opt (Cat (Opt SEPARATOR) DIGITS)]).
  Proof. cbn [cats]. apply blocked_then; [apply cheap_opt_sep|]. apply blocked_cat. now apply blocked_phases. Qed.

  Lemma always_wild_tag : always_linear (cats [Opt SEPARATOR; alts ws; Opt SEPARATOR; WILDCARD]).
  Proof.
    cbn [cats]. apply always_cat; [apply always_opt_sep|]. apply always_cat; [apply always_alts|]. apply always_cat; [apply always_opt_sep|].
    apply always_alt; apply always_chr.
  Qed.

  Lemma blocked_wild_tag : blocked (cats [Opt SEPARATOR; alts ws; Opt SEPARATOR; WILDCARD]).
  Proof. cbn [cats]. apply blocked_then; [apply cheap_opt_sep|]. apply blocked_cat. now apply blocked_phases. Qed.
End Tag.

Lemma always_v : always_linear P_V.
Proof. apply always_opt, always_chr. Qed.

Lemma always_epoch g : always_linear (Opt (Cat (Grp g DIGITS) (Patterns.chr 33))).
Proof. apply always_opt, always_blocked; [apply linear_grp, linear_digits|apply always_chr|now apply blocked_char]. Qed.

Lemma always_plain_epoch : always_linear (Opt (Cat DIGITS (Patterns.chr 33))).
Proof. apply always_opt, always_blocked; [apply linear_digits|apply always_chr|now apply blocked_char]. Qed.

Lemma linear_pre : linear P_PRE.
Proof. apply linear_opt, linear_tag. Qed.
Lemma cheap_pre : cheap P_PRE.
Proof. apply cheap_opt, blocked_cheap, blocked_tag. cbn. auto. Qed.

Lemma linear_dev : linear P_DEV.
Proof. apply linear_opt, linear_tag. Qed.
Lemma cheap_dev : cheap P_DEV.
Proof. apply cheap_opt, blocked_cheap, blocked_tag. cbn. auto. Qed.

Lemma linear_post : linear P_POST.
Proof.
  apply linear_opt, linear_alt; [|apply linear_tag]. apply linear_after; [apply always_chr|]. apply linear_grp, linear_digits.
Qed.
Lemma cheap_post : cheap P_POST.
Proof.
  apply cheap_opt, blocked_cheap, blocked_alt; [|apply blocked_tag; cbn; auto]. apply blocked_cat. now apply blocked_char.
Qed.

(** ** Versions *)

Lemma linear_public : linear PUBLIC_VERSION /\ cheap (cats [P_PRE; P_POST; P_DEV]).
Proof.
  assert (C : cheap (cats [P_PRE; P_POST; P_DEV])).
  { cbn [cats]. apply cheap_cat; [apply cheap_pre|]. apply cheap_cat; [apply cheap_post|apply cheap_dev]. }
  split; [|exact C]. unfold PUBLIC_VERSION. cbn [cats].
  apply linear_after; [apply always_v|]. apply linear_after; [apply always_epoch|].
  apply linear_cat; [apply linear_grp, linear_release| |exact C].
  apply linear_cat; [apply linear_pre| |apply cheap_cat; [apply cheap_post|apply cheap_dev]].
  apply linear_cat; [apply linear_post|apply linear_dev|apply cheap_dev].
Qed.

(** The end of the string. *)
Definition ended (s : pstr) : nat := 1.

Lemma lin_ended : lin 0 1 ended.
Proof. intros s. unfold ended. lia. Qed.

Lemma quick_ended : quick 1 ended.
Proof. intros s _. reflexivity. Qed.

Lemma alnum_not_sep x : is_alnum x = true -> is_sep x = false.
Proof.
  intros A. unfold is_sep. rewrite !orb_false_iff, !N.eqb_neq. unfold is_alnum, is_alpha in A. rewrite orb_true_iff, andb_true_iff, !N.leb_le in A.
  assert (X : forall a, a = 46%N \/ a = 45%N \/ a = 95%N -> x <> a); [|auto 10].
  intros a H ->. destruct A as [[A1 A2]|A]; [destruct H as [-> | [-> | ->]]; cbn in A1, A2; lia|]. apply digit_range in A. lia.
Qed.

Lemma local_bound : exists A B c, lin A B (total P_LOCAL ended) /\ quick c (total P_LOCAL ended).
Proof.
  set (r := Grp G_LOCAL (blocks is_alnum is_sep)).
  assert (L : exists A B, lin A B (total r ended)).
  { exists (0 + 7 * 1 + 100), (S (1 + 100)). intros s. change (total r ended s) with (S (total (blocks is_alnum is_sep) ended s)).
    pose proof (blocks_bound is_alnum is_sep ended 1 0 1 alnum_not_sep (fun s _ => le_n 1) lin_ended s). lia. }
  destruct L as (A & B & L). destruct (always_chr (N.eqb 43) A B) as (A' & B' & X). specialize (X _ L).
  assert (Q : blocked (Cat (Patterns.chr 43) r)) by (apply blocked_cat; now apply blocked_char).
  destruct Q as [c Q]. exists A', (B' + 3), (c + 2).
  assert (E : forall s, total P_LOCAL ended s = S (total (Cat (Patterns.chr 43) r) ended s + 1)) by reflexivity.
  split; intros s.
  - rewrite E. change (total (Cat (Patterns.chr 43) r) ended s) with (S (total (Chr (N.eqb 43)) (total r ended) s)). specialize (X s). lia.
  - intros C. rewrite E. specialize (Q ended s C). lia.
Qed.

(** Costs at the end of a whole expression. *)
Definition bounded (r : re) : Prop := exists A B, lin A B (total r ended).

Lemma linear_bounded r : linear r -> bounded r.
Proof. intros H. destruct (H 1 0 1) as (A & B & X). exists A, B. apply X; [exact lin_ended|exact quick_ended]. Qed.

Lemma bounded_version : bounded VERSION.
Proof.
  destruct local_bound as (A & B & c & L & Q). destruct linear_public as [P _]. destruct (P c A B) as (A' & B' & X).
  exists A', (S B'). intros s. unfold VERSION. cbn [total]. specialize (X _ L Q s). lia.
Qed.

Lemma bounded_group g r : bounded r -> bounded (Grp g r).
Proof. intros (A & B & H). exists A, (S B). intros s. cbn [total]. specialize (H s). lia. Qed.

Lemma bounded_after a r : always_linear a -> bounded r -> bounded (Cat a r).
Proof. intros X (A & B & H). destruct (X A B) as (A' & B' & Y). exists A', (S B'). intros s. cbn [total]. specialize (Y _ H s). lia. Qed.

(** ** Wildcards *)

Lemma always_wildcard : always_linear WILDCARD.
Proof. apply always_alt; apply always_chr. Qed.

Lemma blocked_wildcard : blocked WILDCARD.
Proof. apply blocked_alt; [now apply blocked_ci|now apply blocked_char]. Qed.

(** A dot before a wildcard. *)
Lemma blocked_dot_wildcard : blocked (Cat (Patterns.chr 46) WILDCARD).
Proof.
  destruct blocked_wildcard as [c H]. exists (S (S c) + 1). intros f [|x s] C; [destruct C|].
  change (total (Cat (Patterns.chr 46) WILDCARD) f (x :: s)) with (S (if (46 =? x)%N then S (total WILDCARD f s) else 1)).
  destruct C as [C|[-> C]]; [rewrite (dot_only x C); lia|]. change (46 =? 46)%N with true. cbv iota.
  destruct s as [|d s]; [destruct C|]. specialize (H f (d :: s) (or_introl C)). lia.
Qed.

Lemma always_w_post : always_linear W_POST.
Proof. apply always_alt; [apply always_cat; [apply always_chr|apply always_wildcard]|apply always_wild_tag]. Qed.

Lemma blocked_w_post : blocked W_POST.
Proof. apply blocked_alt; [apply blocked_cat; now apply blocked_char|apply blocked_wild_tag; cbn; auto]. Qed.

Lemma always_w_dev : always_linear W_DEV.
Proof. apply always_wild_tag. Qed.

Lemma blocked_w_dev : blocked W_DEV.
Proof. apply blocked_wild_tag. cbn. auto. Qed.

Lemma linear_w_post_opt : linear W_POST_OPT.
Proof.
  apply linear_opt, linear_alt; [|apply linear_plain_tag]. apply linear_after; [apply always_chr|apply linear_digits].
Qed.

Lemma cheap_w_post_opt : cheap W_POST_OPT.
Proof. apply cheap_opt, blocked_cheap, blocked_alt; [apply blocked_cat; now apply blocked_char|apply blocked_plain_tag; cbn; auto]. Qed.

Lemma always_w_rest : always_linear (Alt W_POST (Cat W_POST_OPT W_DEV)).
Proof. apply always_alt; [apply always_w_post|]. apply always_blocked; [apply linear_w_post_opt|apply always_w_dev|apply blocked_w_dev]. Qed.

Lemma blocked_w_rest : blocked (Alt W_POST (Cat W_POST_OPT W_DEV)).
Proof. apply blocked_alt; [apply blocked_w_post|]. apply blocked_then; [apply cheap_w_post_opt|apply blocked_w_dev]. Qed.

Lemma linear_w_pre_opt : linear W_PRE_OPT.
Proof. apply linear_opt, linear_plain_tag. Qed.

Lemma cheap_w_pre_opt : cheap W_PRE_OPT.
Proof. apply cheap_opt, blocked_cheap, blocked_plain_tag. cbn. auto. Qed.

Lemma always_w_release : always_linear W_RELEASE.
Proof.
  apply always_blocked; [apply linear_release| |].
  - apply always_alt; [apply always_cat; [apply always_chr|apply always_wildcard]|]. apply always_alt; [apply always_wild_tag|].
    apply always_blocked; [apply linear_w_pre_opt|apply always_w_rest|apply blocked_w_rest].
  - apply blocked_alt; [apply blocked_dot_wildcard|]. apply blocked_alt; [apply blocked_wild_tag; cbn; auto|].
    apply blocked_then; [apply cheap_w_pre_opt|apply blocked_w_rest].
Qed.

Lemma always_wildcard_version : always_linear WILDCARD_VERSION.
Proof.
  unfold WILDCARD_VERSION. cbn [cats]. apply always_cat; [apply always_v|]. apply always_cat; [apply always_plain_epoch|].
  apply always_alt; [apply always_wildcard|apply always_w_release].
Qed.

(** ** The patterns *)

Lemma bounded_steps r : bounded r -> exists K, forall s, snd (fullmatch_steps r s) <= K * (List.length s + 1).
Proof.
  intros (A & B & H). exists (A + B). intros s. unfold fullmatch_steps. eapply Nat.le_trans; [apply steps_total|].
  eapply Nat.le_trans; [apply (total_mono r _ ended)|].
  - intros [|]; cbn [snd]; reflexivity.
  - specialize (H s). nia.
Qed.

Lemma bounded_tag : bounded TAG.
Proof.
  set (v := Opt (Cat (Opt SEPARATOR) (Grp G_VALUE DIGITS))).
  destruct (linear_value G_VALUE 1 0 1) as (A & B & V). specialize (V ended lin_ended quick_ended). fold v in V.
  assert (Q : forall x s, is_alpha x = true -> total v ended (x :: s) <= 8).
  { intros x s X. assert (S : is_sep x = false) by (apply alnum_not_sep; unfold is_alnum; now rewrite X).
    assert (D : is_digit x = false).
    { destruct (is_digit x) eqn:D; [|reflexivity]. unfold is_alpha in X. rewrite (lower_digit x D), andb_true_iff, !N.leb_le in X. apply digit_range in D. lia. }
    unfold v, DIGITS, Plus, SEPARATOR, ended. cbn [total]. rewrite S, D. cbn [Nat.add]. lia. }
  exists (A + 20), (B + 20). intros s.
  change (total TAG ended s) with (S (S (total (Plus (Chr is_alpha)) (total v ended) s))).
  pose proof (plus_bound is_alpha (total v ended) 8 Q s) as H.
  destruct (prefix is_alpha s) as [|L] eqn:P; [lia|]. pose proof (prefix_le is_alpha s) as PL. rewrite P in PL. specialize (V (after is_alpha s)). nia.
Qed.

Lemma bounded_public_clause ops : bounded (Cat (Grp G_OPERATOR (alts ops)) (Grp G_VERSION PUBLIC_VERSION)).
Proof. apply bounded_after; [apply always_grp, always_alts|]. apply bounded_group, linear_bounded, linear_public. Qed.

Definition patterns : list re :=
  [TAG; PUBLIC_VERSION; VERSION; WILDCARD_VERSION; WILDCARD_SPECIFICATION; ORDER_SPECIFICATION; CARET_SPECIFICATION; TILDE_SPECIFICATION; EQUAL_SPECIFICATION].

Lemma patterns_bounded r : In r patterns -> bounded r.
Proof.
  intros [<-|[<-|[<-|[<-|[<-|[<-|[<-|[<-|[<-|[]]]]]]]]]].
  - apply bounded_tag.
  - apply linear_bounded, linear_public.
  - apply bounded_version.
  - apply linear_bounded, always, always_wildcard_version.
  - apply bounded_after; [apply always_opt, always_grp, always_alts|]. apply bounded_group, linear_bounded, always, always_wildcard_version.
  - apply bounded_public_clause.
  - apply bounded_public_clause.
  - apply bounded_public_clause.
  - apply bounded_after; [apply always_opt, always_grp, always_alts|]. apply bounded_group, bounded_version.
Qed.

Theorem patterns_linear : exists K, forall r s, In r patterns -> snd (fullmatch_steps r s) <= K * (List.length s + 1).
Proof.
  assert (X : forall l, Forall bounded l -> exists K, forall r s, In r l -> snd (fullmatch_steps r s) <= K * (List.length s + 1)).
  { induction 1 as [|r l B _ (K & IH)]; [exists 0; intros r s []|]. destruct (bounded_steps r B) as (K' & H). exists (K + K').
    intros q s [<-|Q]; [specialize (H s); nia|]. specialize (IH q s Q). nia. }
  apply X. apply Forall_forall. exact patterns_bounded.
Qed.

(** ** Captured texts *)

Definition within (n : nat) (cs : caps) : Prop := Forall (fun x => List.length (snd x) <= n) cs.

Lemma mt_within n r : forall s cs k (P : caps -> Prop) x, List.length s <= n -> within n cs ->
  (forall s' cs' x, List.length s' <= n -> within n cs' -> k s' cs' = Some x -> P x) -> mt r s cs k = Some x -> P x.
Proof.
  induction r as [|p|a IHa b IHb|a IHa b IHb|a IHa|a IHa|g a IHa]; intros s cs k P x L W K M.
  - exact (K s cs x L W M).
  - cbn [mt] in M. destruct s as [|c s]; [discriminate|]. destruct (p c); [|discriminate]. apply (K s cs x); auto. cbn in L. lia.
  - cbn [mt] in M. revert M. apply (IHa s cs); auto. intros s' cs' y L' W'. apply (IHb s' cs'); auto.
  - cbn [mt] in M. destruct (mt a s cs k) as [y|] eqn:E.
    + injection M as <-. apply (IHa s cs k P y); auto.
    + apply (IHb s cs k P x); auto.
  - cbn [mt] in M. destruct (mt a s cs k) as [y|] eqn:E.
    + injection M as <-. apply (IHa s cs k P y); auto.
    + apply (K s cs x); auto.
  - change (match_loop a k (List.length s) s cs = Some x) in M. revert M. generalize (List.length s) at 1. intros m.
    revert s cs x L W. induction m as [|m IH]; intros s cs x L W M; cbn [match_loop] in M; [now apply (K s cs x)|].
    fold (match_loop a k) in M.
    destruct (mt a s cs (fun s' cs' => if List.length s' <? List.length s then match_loop a k m s' cs' else None)) as [y|] eqn:E.
    + injection M as <-. revert E. apply IHa; auto. intros s' cs' z L' W'. destruct (_ <? _); [now apply IH|discriminate].
    + now apply (K s cs x).
  - cbn [mt] in M. revert M. apply IHa; auto. intros s' cs' y L' W'. apply K; auto. apply Forall_cons; [|exact W'].
    cbn [snd]. rewrite firstn_length. lia.
Qed.

Lemma captured_length r s m g t : fullmatch r s = Some m -> get_group g m = Some t -> List.length t <= List.length s.
Proof.
  intros M G. assert (W : within (List.length s) m).
  { revert M. unfold fullmatch. apply (mt_within (List.length s)); [lia|apply Forall_nil|]. intros [|] cs x _ W E; [|discriminate]. now injection E as <-. }
  clear M. induction W as [|[h u] m U W IH]; [discriminate|]. cbn [get_group] in G. destruct (_ =? _)%N; [|auto]. now injection G as <-.
Qed.

(** ** Whole parses *)

Lemma matching_linear : exists K, forall r s, In r patterns -> matching r s <= K * (List.length s + 1).
Proof. exact patterns_linear. Qed.

Theorem version_linear : exists K, forall s, version_matching s <= K * (List.length s + 1).
Proof.
  destruct matching_linear as [K H]. exists (4 * K). intros s. unfold version_matching.
  assert (V : matching VERSION s <= K * (List.length s + 1)) by (apply H; cbn; auto).
  destruct (fullmatch VERSION s) as [m|] eqn:M; [|nia].
  assert (T : forall g, match get_group g m with Some t => matching TAG t | None => 0 end <= K * (List.length s + 1)).
  { intros g. destruct (get_group g m) as [t|] eqn:G; [|lia]. pose proof (captured_length _ _ _ _ _ M G).
    assert (X : matching TAG t <= K * (List.length t + 1)) by (apply H; cbn; auto). nia. }
  pose proof (T G_PRE). pose proof (T G_POST). pose proof (T G_DEV). cbv zeta. lia.
Qed.

Theorem single_linear : exists K, forall s, single_matching s <= K * (List.length s + 1).
Proof.
  destruct matching_linear as [K H]. destruct version_linear as [V HV].
  assert (C : forall r f s, In r patterns -> (forall v, List.length (f v) = List.length v) -> clause_matching r f s <= (K + V) * (List.length s + 1)).
  { intros r f s R F. unfold clause_matching. specialize (H r s R). destruct (fullmatch r s) as [m|] eqn:M; [|nia].
    destruct (get_group G_VERSION m) as [v|] eqn:G; [|nia]. pose proof (captured_length _ _ _ _ _ M G). specialize (HV (f v)). rewrite F in HV. nia. }
  assert (X : forall ps s, Forall (fun p => In (fst p) patterns /\ forall v, List.length (snd p v) = List.length v) ps ->
    first_matching ps s <= List.length ps * ((K + V) * (List.length s + 1))).
  { intros ps s F. induction F as [|[r f] ps [R E] F IH]; [reflexivity|]. cbn [first_matching List.length]. cbn [fst snd] in R, E.
    specialize (C r f s R E). destruct (fullmatch r s); nia. }
  exists (5 * (K + V)). intros s. unfold single_matching.
  match goal with |- first_matching ?ps s <= _ => specialize (X ps s) end. cbn [List.length] in X. rewrite Nat.mul_assoc in X. apply X. clear.
  repeat (apply Forall_cons; [cbn [fst snd]; split; [cbn; tauto|intros v; try reflexivity; unfold replace_char; now rewrite !map_length]|]). apply Forall_nil.
Qed.

Lemma split_on_size c s : list_sum (map (fun p : pstr => List.length p + 1) (split_on c s)) = List.length s + 1.
Proof.
  induction s as [|x s IH]; [reflexivity|]. cbn [split_on].
  assert (C : forall (p : pstr) l, list_sum (map (fun p : pstr => List.length p + 1) (p :: l)) = List.length p + 1 + list_sum (map (fun p : pstr => List.length p + 1) l)) by reflexivity.
  destruct (x =? c)%N; [rewrite C, IH; cbn [List.length]; lia|].
  destruct (split_on c s) as [|w ws]; [cbn in IH; lia|]. rewrite C in *. cbn [List.length]. lia.
Qed.

Lemma replace_double_size c n : forall s, List.length s <= n -> List.length (replace_double c s) <= List.length s.
Proof.
  induction n as [|n IH]; intros [|x [|y s]] L; cbn [List.length] in *; try (cbn; lia).
  cbn [replace_double]. destruct (_ && _)%bool.
  - cbn [List.length]. specialize (IH s). lia.
  - change (List.length (x :: replace_double c (y :: s)) <= S (S (List.length s))). cbn [List.length]. specialize (IH (y :: s)). cbn [List.length] in IH. lia.
Qed.

Lemma filter_size {A} (p : A -> bool) l : List.length (filter p l) <= List.length l.
Proof. induction l as [|x l IH]; [reflexivity|]. cbn [filter List.length]. destruct (p x); cbn [List.length]; lia. Qed.

Lemma sum_bound {A} (f : A -> nat) (g : A -> nat) K l : (forall x, f x <= K * g x) -> list_sum (map f l) <= K * list_sum (map g l).
Proof. intros H. induction l as [|x l IH]; [cbn; lia|].
  change (f x + list_sum (map f l) <= K * (g x + list_sum (map g l))). specialize (H x). nia. Qed.

Theorem specifier_linear : exists K, forall s, specifier_matching s <= K * (List.length s + 1).
Proof.
  destruct single_linear as [K H]. exists K. intros s. unfold specifier_matching.
  eapply Nat.le_trans; [apply (sum_bound _ (fun p => List.length p + 1) K)|].
  - intros p. rewrite <- (split_on_size 44 p). apply sum_bound. exact H.
  - unfold split_pipes. rewrite split_on_size, clear_visible. apply Nat.mul_le_mono_l, Nat.add_le_mono_r.
    eapply Nat.le_trans; [apply (replace_double_size _ _ _ (le_n _))|]. apply filter_size.
Qed.

(** ** A pattern that is not linear *)

(** [(a+)+] *)
Definition nested : re := Plus (Plus (Chr (N.eqb 97))).

(** Some letters [a] and a letter [b]. *)
Definition many (n : nat) : pstr := repeat 97%N n ++ [98%N].

Lemma many_length n : List.length (many n) = S n.
Proof. unfold many. rewrite app_length, repeat_length. cbn. lia. Qed.

Definition tries (g : nat -> nat) : nat -> nat :=
  fix go (n : nat) : nat := match n with O => 0 | S m => g m + go m end.

Lemma tries_le g h n : (forall j, j < n -> g j <= h j) -> tries g n <= tries h n.
Proof.
  induction n as [|n IH]; intros H; [reflexivity|]. cbn [tries]. fold (tries g). fold (tries h).
  pose proof (H n (Nat.lt_succ_diag_r n)). assert (tries g n <= tries h n) by (apply IH; intros j J; apply H; lia). lia.
Qed.

Lemma tries_powers n : S (tries (fun j => 2 ^ j) n) = 2 ^ n.
Proof. induction n as [|n IH]; [reflexivity|]. cbn [tries Nat.pow]. fold (tries (fun j => 2 ^ j)). lia. Qed.

Lemma orelse_fails x y : fst x = false -> fst y = false -> fst (orelse x y) = false /\ snd (orelse x y) = snd x + snd y.
Proof. destruct x as [[|] x], y as [m y]; cbn [fst]; [discriminate|]. intros _ ->. unfold orelse. cbn. auto. Qed.

Definition fails (k : pstr -> bool * nat) (n : nat) : Prop := forall j, j <= n -> fst (k (many j)) = false.

Lemma letter_run k n : fails k n -> forall m, n <= m ->
  fst (step_loop (Chr (N.eqb 97)) k m (many n)) = false /\
  snd (k (many n)) + tries (fun j => snd (k (many j))) n <= snd (step_loop (Chr (N.eqb 97)) k m (many n)).
Proof.
  induction n as [|n IH]; intros F m M.
  - destruct m as [|m]; cbn [step_loop tick fst snd tries]; [split; [apply F|]; lia|].
    destruct (orelse_fails (steps (Chr (N.eqb 97)) (many 0) (fun s' => if List.length s' <? List.length (many 0) then step_loop (Chr (N.eqb 97)) k m s' else (false, 1))) (k (many 0)) eq_refl (F 0 (le_n 0))) as [X Y].
    fold (step_loop (Chr (N.eqb 97)) k). rewrite X, Y. split; [reflexivity|lia].
  - destruct m as [|m]; [lia|]. destruct (IH (fun j J => F j (le_S _ _ J)) m (le_S_n _ _ M)) as [I1 I2].
    set (g := fun s' => if List.length s' <? List.length (many (S n)) then step_loop (Chr (N.eqb 97)) k m s' else (false, 1)).
    change (step_loop (Chr (N.eqb 97)) k (S m) (many (S n))) with (tick (orelse (steps (Chr (N.eqb 97)) (many (S n)) g) (k (many (S n))))).
    cbn [tick fst snd tries]. fold (tries (fun j => snd (k (many j)))).
    assert (G : g (many n) = step_loop (Chr (N.eqb 97)) k m (many n)).
    { unfold g. rewrite !many_length. now replace (S n <? S (S n)) with true by (symmetry; apply Nat.ltb_lt; lia). }
    assert (E : steps (Chr (N.eqb 97)) (many (S n)) g = tick (g (many n))) by reflexivity. rewrite E, G.
    destruct (orelse_fails (tick (step_loop (Chr (N.eqb 97)) k m (many n))) (k (many (S n))) I1 (F (S n) (le_n _))) as [X Y].
    rewrite X, Y. cbn [tick snd]. split; [reflexivity|lia].
Qed.

Lemma nested_loop k n : fails k n -> forall m, n <= m ->
  fst (step_loop (Plus (Chr (N.eqb 97))) k m (many n)) = false /\ 2 ^ n <= snd (step_loop (Plus (Chr (N.eqb 97))) k m (many n)).
Proof.
  induction n as [n IH] using lt_wf_ind. intros F m M.
  destruct m as [|m]; [destruct n; [|lia]; cbn [step_loop tick fst snd Nat.pow]; split; [apply F|]; lia|].
  set (g := fun s' => if List.length s' <? List.length (many n) then step_loop (Plus (Chr (N.eqb 97))) k m s' else (false, 1)).
  change (step_loop (Plus (Chr (N.eqb 97))) k (S m) (many n)) with (tick (orelse (steps (Plus (Chr (N.eqb 97))) (many n) g) (k (many n)))).
  cbn [tick fst snd].
  assert (S' : fst (steps (Plus (Chr (N.eqb 97))) (many n) g) = false /\ 2 ^ n <= S (snd (steps (Plus (Chr (N.eqb 97))) (many n) g))).
  { destruct n as [|n]; [cbn; auto with arith|].
    assert (G : forall j, j <= n -> g (many j) = step_loop (Plus (Chr (N.eqb 97))) k m (many j)).
    { intros j J. unfold g. rewrite !many_length. now replace (S j <? S (S n)) with true by (symmetry; apply Nat.ltb_lt; lia). }
    assert (R : forall j, j <= n -> fst (g (many j)) = false /\ 2 ^ j <= snd (g (many j))).
    { intros j J. rewrite (G j J). apply IH; [lia| |lia]. intros i I. apply F. lia. }
    change (steps (Plus (Chr (N.eqb 97))) (many (S n)) g) with (tick (tick (step_loop (Chr (N.eqb 97)) g (List.length (many n)) (many n)))).
    destruct (letter_run g n (fun j J => proj1 (R j J)) (List.length (many n))) as [L1 L2]; [rewrite many_length; lia|].
    cbn [tick fst snd]. split; [exact L1|].
    assert (U : tries (fun j => 2 ^ j) (S n) <= tries (fun j => snd (g (many j))) (S n)) by (apply tries_le; intros j J; apply R; lia).
    pose proof (tries_powers (S n)) as W. cbn [tries] in U, W. fold (tries (fun j => 2 ^ j)) in U, W. fold (tries (fun j => snd (g (many j)))) in U. lia. }
  destruct S' as [S1 S2]. destruct (orelse_fails _ (k (many n)) S1 (F n (le_n n))) as [X Y]. rewrite X, Y. split; [reflexivity|]. lia.
Qed.

Theorem nested_exponential n : 2 ^ n <= matching nested (many n).
Proof.
  unfold matching, fullmatch_steps.
  set (k := fun s' : pstr => match s' with [] => (true, 1) | _ => (false, 1) end).
  assert (F : forall n, fails k n) by (intros i j _; unfold many, k; destruct (repeat 97%N j); reflexivity).
  destruct n as [|n]; [cbn; lia|].
  set (h := fun s' => steps (Star (Plus (Chr (N.eqb 97)))) s' k).
  change (steps nested (many (S n)) k) with (tick (tick (tick (step_loop (Chr (N.eqb 97)) h (List.length (many n)) (many n))))).
  assert (R : forall j, fst (h (many j)) = false /\ 2 ^ j <= snd (h (many j))).
  { intros j. apply (nested_loop k j (F j)). rewrite many_length. lia. }
  destruct (letter_run h n (fun j _ => proj1 (R j)) (List.length (many n))) as [_ L]; [rewrite many_length; lia|].
  assert (U : tries (fun j => 2 ^ j) (S n) <= tries (fun j => snd (h (many j))) (S n)) by (apply tries_le; intros j J; apply R).
  pose proof (tries_powers (S n)) as W. cbn [tries] in U, W. fold (tries (fun j => 2 ^ j)) in U, W. fold (tries (fun j => snd (h (many j)))) in U.
  cbn [tick snd]. lia.
Qed.
