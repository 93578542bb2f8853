(** The pattern texts, compiled, match what the regular expressions of
    Patterns.v match, and capture the same. *)

From Coq Require Import List ZArith NArith String Bool Arith Lia.
From Verif Require Import Py Segments Regex Patterns PatternText Compile.
Import ListNotations.

Definition named (cs : caps) : captures := map (fun gc => (group_name (fst gc), snd gc)) cs.

(** ** Extensionality *)

Section Induction.
  Variable P : rx -> Prop.
  Hypothesis HChar : forall c, P (XChar c).
  Hypothesis HSet : forall r, P (XSet r).
  Hypothesis HStart : P XStart.
  Hypothesis HEnd : P XEnd.
  Hypothesis HSeq : forall xs, Forall P xs -> P (XSeq xs).
  Hypothesis HOr : forall xs, Forall P xs -> P (XOr xs).
  Hypothesis HOpt : forall x, P x -> P (XOpt x).
  Hypothesis HStar : forall x, P x -> P (XStar x).
  Hypothesis HPlus : forall x, P x -> P (XPlus x).
  Hypothesis HGroup : forall g x, P x -> P (XGroup g x).

  Fixpoint rx_members (x : rx) : P x :=
    let fix each (xs : list rx) : Forall P xs :=
      match xs with
      | [] => Forall_nil P
      | y :: ys => Forall_cons y (rx_members y) (each ys)
      end in
    match x with
    | XChar c => HChar c
    | XSet r => HSet r
    | XStart => HStart
    | XEnd => HEnd
    | XSeq xs => HSeq xs (each xs)
    | XOr xs => HOr xs (each xs)
    | XOpt y => HOpt y (rx_members y)
    | XStar y => HStar y (rx_members y)
    | XPlus y => HPlus y (rx_members y)
    | XGroup g y => HGroup g y (rx_members y)
    end.
End Induction.

Definition same_k (k k' : pstr -> captures -> option captures) := forall s cs, k s cs = k' s cs.

Definition star_loop (n : nat) (x : rx) (k : pstr -> captures -> option captures) : nat -> pstr -> captures -> option captures :=
  fix go (m : nat) (s : pstr) (cs : captures) : option captures :=
  match m with
  | O => k s cs
  | S m' =>
      match run n x s cs (fun s' cs' =>
              if (List.length s' <? List.length s)%nat then go m' s' cs' else None) with
      | Some r => Some r
      | None => k s cs
      end
  end.

Fixpoint runs (n : nat) (xs : list rx) (s : pstr) (cs : captures) (k : pstr -> captures -> option captures) : option captures :=
  match xs with
  | [] => k s cs
  | x :: xs' => run n x s cs (fun s' cs' => runs n xs' s' cs' k)
  end.

Fixpoint run_any (n : nat) (xs : list rx) (s : pstr) (cs : captures) (k : pstr -> captures -> option captures) : option captures :=
  match xs with
  | [] => None
  | y :: ys => match run n y s cs k with Some r => Some r | None => run_any n ys s cs k end
  end.

Lemma run_star n x s cs k : run n (XStar x) s cs k = star_loop n x k (List.length s) s cs.
Proof. reflexivity. Qed.

Lemma run_plus n x s cs k : run n (XPlus x) s cs k = run n x s cs (fun s cs => star_loop n x k (List.length s) s cs).
Proof. reflexivity. Qed.

Lemma run_or n xs s cs k : run n (XOr xs) s cs k = run_any n xs s cs k.
Proof.
  cbn [run]. induction xs as [|y ys IH]; [reflexivity|]. cbn [run_any]. destruct (run n y s cs k); [reflexivity|exact IH].
Qed.

Lemma run_ext n x : forall s cs k k', same_k k k' -> run n x s cs k = run n x s cs k'.
Proof.
  assert (L : forall x, (forall s cs k k', same_k k k' -> run n x s cs k = run n x s cs k') ->
    forall k k', same_k k k' -> forall m s cs, star_loop n x k m s cs = star_loop n x k' m s cs).
  { intros y H k k' E m. induction m as [|m IH]; intros s cs; cbn [star_loop]; [apply E|].
    rewrite (H s cs _ (fun s' cs' => if (List.length s' <? List.length s)%nat then star_loop n y k' m s' cs' else None)).
    - now rewrite (E s cs).
    - intros s' cs'. now rewrite IH. }
  induction x as [c|r| | |xs IH|xs IH|x IH|x IH|x IH|g x IH] using rx_members; intros s cs k k' E.
  - cbn [run]. destruct s; auto. now rewrite (E s cs).
  - cbn [run]. destruct s; auto. now rewrite (E s cs).
  - cbn [run]. now rewrite (E s cs).
  - cbn [run]. destruct s as [|c [|]]; auto; now rewrite (E _ cs).
  - cbn [run]. revert s cs. induction xs as [|y ys IHy]; intros s cs; [apply E|].
    apply Forall_cons_iff in IH as [H1 H2]. apply H1. intros s' cs'. now apply IHy.
  - rewrite !run_or. induction xs as [|y ys IHy]; [reflexivity|]. apply Forall_cons_iff in IH as [H1 H2].
    cbn [run_any]. rewrite (H1 s cs k k' E). now rewrite IHy.
  - cbn [run]. now rewrite (IH s cs k k' E), (E s cs).
  - rewrite !run_star. now apply L.
  - rewrite !run_plus. apply IH. intros s' cs'. now apply L.
  - destruct g as [g|]; cbn [run]; apply IH; auto. intros s' cs'. apply E.
Qed.

Lemma runs_app n xs ys : forall s cs k, runs n (xs ++ ys) s cs k = runs n xs s cs (fun s' cs' => runs n ys s' cs' k).
Proof.
  induction xs as [|x xs IH]; intros s cs k; [reflexivity|]. cbn [app runs]. apply run_ext. intros s' cs'. apply IH.
Qed.

Lemma run_seq n xs s cs k : run n (XSeq xs) s cs k = runs n xs s cs k.
Proof.
  cbn [run]. revert s cs. induction xs as [|x xs IH]; intros s cs; [reflexivity|]. cbn [runs]. apply run_ext.
  intros s' cs'. apply IH.
Qed.

(** ** Regular expressions and compiled texts side by side *)

Fixpoint mts (rs : list re) (s : pstr) (cs : caps) (k : pstr -> caps -> option caps) : option caps :=
  match rs with
  | [] => k s cs
  | r :: rs' => mt r s cs (fun s' cs' => mts rs' s' cs' k)
  end.

Definition sim_k (k : pstr -> caps -> option caps) (k' : pstr -> captures -> option captures) : Prop :=
  forall s cs, option_map named (k s cs) = k' s (named cs).

Definition sim1 (n : nat) (r : re) (x : rx) : Prop :=
  forall s cs k k', sim_k k k' -> option_map named (mt r s cs k) = run n x s (named cs) k'.

Definition sim (n : nat) (rs : list re) (xs : list rx) : Prop :=
  forall s cs k k', sim_k k k' -> option_map named (mts rs s cs k) = runs n xs s (named cs) k'.

Lemma sim_nil n : sim n [] [].
Proof. intros s cs k k' K. apply K. Qed.

Lemma sim_cons n r x rs xs : sim1 n r x -> sim n rs xs -> sim n (r :: rs) (x :: xs).
Proof. intros H1 H2 s cs k k' K. apply H1. intros s' cs'. now apply H2. Qed.

Lemma sim_cat n a b rs xs : sim n (a :: b :: rs) xs -> sim n (Cat a b :: rs) xs.
Proof. intros H. exact H. Qed.

Lemma sim_eps n rs xs : sim n rs xs -> sim n (Eps :: rs) xs.
Proof. intros H. exact H. Qed.

Lemma sim_seq n rs ys xs : sim n rs (ys ++ xs) -> sim n rs (XSeq ys :: xs).
Proof. intros H s cs k k' K. cbn [runs]. rewrite run_seq, <- runs_app. now apply H. Qed.

Lemma sim_plain n rs x xs : sim n rs (x :: xs) -> sim n rs (XGroup None x :: xs).
Proof. intros H. exact H. Qed.

Lemma sim_single n r x : sim n [r] [x] -> sim1 n r x.
Proof.
  intros H s cs k k' K. specialize (H s cs k k' K). cbn [mts runs] in H. exact H.
Qed.

Lemma sim_chr n p a : (forall c, p c = char_matches a c) -> sim1 n (Chr p) (XChar a).
Proof. intros E s cs k k' K. cbn [mt run]. destruct s as [|c s]; auto. rewrite <- E. destruct (p c); [apply K|reflexivity]. Qed.

Lemma sim_set n p r : (forall c, p c = set_matches r c) -> sim1 n (Chr p) (XSet r).
Proof. intros E s cs k k' K. cbn [mt run]. destruct s as [|c s]; auto. rewrite <- E. destruct (p c); [apply K|reflexivity]. Qed.

Lemma sim_opt n r x : sim1 n r x -> sim1 n (Opt r) (XOpt x).
Proof.
  intros H s cs k k' K. cbn [mt run]. rewrite <- (H s cs k k' K), <- (K s cs). now destruct (mt r s cs k).
Qed.

Lemma sim_alt n a b x y ys : sim1 n a x -> sim1 n b (XOr (y :: ys)) -> sim1 n (Alt a b) (XOr (x :: y :: ys)).
Proof.
  intros H1 H2 s cs k k' K. specialize (H2 s cs k k' K). rewrite run_or in *. cbn [mt]. change (run_any n (x :: y :: ys) s (named cs) k')
    with (match run n x s (named cs) k' with Some r => Some r | None => run_any n (y :: ys) s (named cs) k' end).
  rewrite <- (H1 s cs k k' K), <- H2. now destruct (mt a s cs k).
Qed.

Lemma sim_last n rs y xs : sim n rs (y :: xs) -> sim n rs (XOr [y] :: xs).
Proof. intros H s cs k k' K. cbn [runs]. rewrite run_or. cbn [run_any]. rewrite (H s cs k k' K). cbn [runs]. now destruct (run n y s (named cs) _). Qed.

Lemma sim_group n g name r x : name = group_name g -> sim1 n r x -> sim1 n (Grp g r) (XGroup (Some name) x).
Proof. intros -> H s cs k k' K. cbn [mt run]. apply H. intros s' cs'. apply K. Qed.

Definition mt_loop (r : re) (k : pstr -> caps -> option caps) : nat -> pstr -> caps -> option caps :=
  fix go (m : nat) (s : pstr) (cs : caps) : option caps :=
  match m with
  | O => k s cs
  | S m' =>
      match mt r s cs (fun s' cs' =>
              if (List.length s' <? List.length s)%nat then go m' s' cs' else None) with
      | Some x => Some x
      | None => k s cs
      end
  end.

Lemma sim_loop n r x k k' : sim1 n r x -> sim_k k k' ->
  forall m s cs, option_map named (mt_loop r k m s cs) = star_loop n x k' m s (named cs).
Proof.
  intros H K m. induction m as [|m IH]; intros s cs; cbn [mt_loop star_loop]; [apply K|].
  rewrite <- (H s cs (fun s' cs' => if (List.length s' <? List.length s)%nat then mt_loop r k m s' cs' else None)).
  - rewrite <- (K s cs). now destruct (mt r s cs _).
  - intros s' cs'. destruct (_ <? _)%nat; [apply IH|reflexivity].
Qed.

Lemma sim_star n r x : sim1 n r x -> sim1 n (Star r) (XStar x).
Proof. intros H s cs k k' K. rewrite run_star. exact (sim_loop n r x k k' H K _ s cs). Qed.

Lemma sim_plus n r x : sim1 n r x -> sim1 n (Plus r) (XPlus x).
Proof.
  intros H s cs k k' K. rewrite run_plus. unfold Plus. cbn [mt]. apply H. intros s' cs'.
  exact (sim_loop n r x k k' H K _ s' cs').
Qed.

(** ** Characters *)

Lemma ci_matches a : (a <? 128)%N = true -> ((65 <=? a) && (a <=? 90))%N = false -> forall c, (lower c =? a)%N = char_matches a c.
Proof.
  intros A U c. apply N.ltb_lt in A. unfold char_matches, iscased, ascii_letter. rewrite U. cbn [orb].
  destruct ((97 <=? a) && (a <=? 122))%N eqn:L.
  - apply andb_true_iff in L as [L1 L2]. apply N.leb_le in L1, L2. unfold fold_matches.
    assert (T : tolower a = a).
    { unfold tolower. rewrite U. destruct (N.eqb_spec a 304); [lia|]. destruct (N.eqb_spec a 8490); [lia|reflexivity]. }
    rewrite T. unfold lower, tolower, extra_cases.
    destruct (((65 <=? c) && (c <=? 90))%N) eqn:C.
    + apply andb_true_iff in C as [C1 C2]. apply N.leb_le in C1, C2. cbn [existsb].
      destruct (N.eqb_spec a 105), (N.eqb_spec a 115), (N.eqb_spec a 305), (N.eqb_spec a 383); try lia; cbn [existsb];
      destruct (N.eqb_spec (c + 32) a); cbn [orb]; auto;
      try (destruct (N.eqb_spec (c + 32) 305); try lia); try (destruct (N.eqb_spec (c + 32) 383); try lia); auto.
    + cbn [existsb].
      destruct (N.eqb_spec c 304) as [->|N1]; cbn [orb].
      { destruct (N.eqb_spec a 105) as [->|]; [reflexivity|]. destruct (N.eqb_spec a 115) as [->|]; [reflexivity|].
        destruct (N.eqb_spec a 305); [lia|]. destruct (N.eqb_spec a 383); [lia|]. cbn [existsb]. destruct (N.eqb_spec 105 a); [congruence|reflexivity]. }
      destruct (N.eqb_spec c 305) as [->|N2]; cbn [orb].
      { change (305 =? 8490)%N with false. cbv iota.
        destruct (N.eqb_spec a 105) as [->|]; [reflexivity|]. destruct (N.eqb_spec a 115) as [->|]; [reflexivity|].
        destruct (N.eqb_spec a 305); [lia|]. destruct (N.eqb_spec a 383); [lia|]. cbn [existsb].
        destruct (N.eqb_spec 105 a); [congruence|]. destruct (N.eqb_spec 305 a); [lia|reflexivity]. }
      destruct (N.eqb_spec c 383) as [->|N3].
      { change (383 =? 8490)%N with false. cbv iota.
        destruct (N.eqb_spec a 105) as [->|]; [reflexivity|]. destruct (N.eqb_spec a 115) as [->|]; [reflexivity|].
        destruct (N.eqb_spec a 305); [lia|]. destruct (N.eqb_spec a 383); [lia|]. cbn [existsb].
        destruct (N.eqb_spec 115 a); [congruence|]. destruct (N.eqb_spec 383 a); [lia|reflexivity]. }
      destruct (N.eqb_spec c 8490) as [->|N4].
      { destruct (N.eqb_spec a 105) as [->|]; [reflexivity|]. destruct (N.eqb_spec a 115) as [->|]; [reflexivity|].
        destruct (N.eqb_spec a 305); [lia|]. destruct (N.eqb_spec a 383); [lia|]. cbn [existsb].
        now destruct (N.eqb_spec 107 a). }
      destruct (N.eqb_spec a 105), (N.eqb_spec a 115), (N.eqb_spec a 305), (N.eqb_spec a 383); try lia; cbn [existsb];
        destruct (N.eqb_spec c a); cbn [orb]; auto;
        try (destruct (N.eqb_spec c 305); try lia); try (destruct (N.eqb_spec c 383); try lia); auto.
  - assert (L' : ~ (97 <= a <= 122)%N) by (intros [L1 L2]; apply N.leb_le in L1, L2; rewrite L1, L2 in L; discriminate).
    unfold lower. destruct (((65 <=? c) && (c <=? 90))%N) eqn:C.
    + apply andb_true_iff in C as [C1 C2]. apply N.leb_le in C1, C2.
      destruct (N.eqb_spec (c + 32) a); [lia|]. destruct (N.eqb_spec a c) as [->|]; auto.
      exfalso. apply N.leb_le in C1, C2. rewrite C1, C2 in U. discriminate.
    + destruct (N.eqb_spec c 304); cbn [orb]; [subst c; destruct (N.eqb_spec 105 a), (N.eqb_spec a 304); lia || auto|].
      destruct (N.eqb_spec c 305); [subst c; destruct (N.eqb_spec 105 a), (N.eqb_spec a 305); lia || auto|].
      destruct (N.eqb_spec c 383); [subst c; destruct (N.eqb_spec 115 a), (N.eqb_spec a 383); lia || auto|].
      destruct (N.eqb_spec c 8490); [subst c; destruct (N.eqb_spec 107 a), (N.eqb_spec a 8490); lia || auto|].
      apply N.eqb_sym.
Qed.

Lemma chr_matches a : iscased a = false -> forall c, (a =? c)%N = char_matches a c.
Proof. intros H c. unfold char_matches. now rewrite H. Qed.

Lemma count_up_mem d n : forall a, existsb (fun b => (b =? d)%N) (count_up a n) = ((a <=? d) && (d <? a + N.of_nat n))%N.
Proof.
  induction n as [|n IH]; intros a; cbn [count_up existsb].
  - destruct (N.leb_spec a d), (N.ltb_spec d (a + N.of_nat 0)); auto; lia.
  - rewrite IH. destruct (N.eqb_spec a d) as [->|].
    + destruct (N.leb_spec d d), (N.ltb_spec d (d + N.of_nat (S n))); auto; lia.
    + cbn [orb]. destruct (N.leb_spec (N.succ a) d), (N.leb_spec a d), (N.ltb_spec d (N.succ a + N.of_nat n)), (N.ltb_spec d (a + N.of_nat (S n))); auto; lia.
Qed.

Lemma digit_set : forall c, is_digit c = set_matches [(48, 57)]%N c.
Proof.
  intros c. unfold set_matches. change (existsb iscased (set_members [(48, 57)]%N)) with false. cbv iota.
  change (set_members [(48, 57)]%N) with (count_up 48 10). rewrite count_up_mem. unfold is_digit.
  destruct (N.leb_spec 48 c), (N.leb_spec c 57), (N.ltb_spec c (48 + N.of_nat 10)); auto; cbn in *; lia.
Qed.

Lemma sep_set : forall c, is_sep c = set_matches [(46, 46); (45, 45); (95, 95)]%N c.
Proof.
  intros c. unfold set_matches. change (existsb iscased (set_members [(46, 46); (45, 45); (95, 95)]%N)) with false. cbv iota.
  change (set_members [(46, 46); (45, 45); (95, 95)]%N) with [46; 45; 95]%N. cbn [existsb]. unfold is_sep.
  rewrite (N.eqb_sym 46 c), (N.eqb_sym 45 c), (N.eqb_sym 95 c), orb_false_r. now rewrite orb_assoc.
Qed.

Lemma existsb_ext' {A} (f g : A -> bool) l : Forall (fun x => f x = g x) l -> existsb f l = existsb g l.
Proof. induction 1 as [|x l E _ IH]; [reflexivity|]. cbn [existsb]. now rewrite E, IH. Qed.

Lemma letters_mem c : existsb (fun a => fold_matches a c) (count_up 97 26) = is_alpha c.
Proof.
  rewrite (existsb_ext' _ (fun a => (a =? lower c)%N)).
  - rewrite count_up_mem. unfold is_alpha. destruct (N.leb_spec 97 (lower c)), (N.leb_spec (lower c) 122), (N.ltb_spec (lower c) (97 + N.of_nat 26)); auto; cbn in *; lia.
  - assert (E : forall a, ascii_letter a = true -> (a <? 128)%N = true -> ((65 <=? a) && (a <=? 90))%N = false -> fold_matches a c = (a =? lower c)%N).
    { intros a H1 H2 H3. rewrite N.eqb_sym, (ci_matches a H2 H3 c). unfold char_matches, iscased. now rewrite H1. }
    cbn [count_up N.succ Pos.succ]. repeat (apply Forall_cons; [apply E; reflexivity|]). apply Forall_nil.
Qed.

Lemma alpha_set : forall c, is_alpha c = set_matches [(97, 122)]%N c.
Proof.
  intros c. unfold set_matches. change (existsb iscased (set_members [(97, 122)]%N)) with true. cbv iota.
  change (set_members [(97, 122)]%N) with (count_up 97 26). now rewrite letters_mem.
Qed.

Lemma alnum_set : forall c, is_alnum c = set_matches [(97, 122); (48, 57)]%N c.
Proof.
  intros c. unfold set_matches. change (existsb iscased (set_members [(97, 122); (48, 57)]%N)) with true. cbv iota.
  change (set_members [(97, 122); (48, 57)]%N) with (count_up 97 26 ++ count_up 48 10). rewrite existsb_app, letters_mem.
  unfold is_alnum. f_equal. rewrite (existsb_ext' _ (fun a => (a =? c)%N)).
  - rewrite count_up_mem. unfold is_digit. destruct (N.leb_spec 48 c), (N.leb_spec c 57), (N.ltb_spec c (48 + N.of_nat 10)); auto; cbn in *; lia.
  - assert (E : forall a, (48 <= a <= 57)%N -> fold_matches a c = (a =? c)%N).
    { intros a H. unfold fold_matches. assert (T : tolower a = a).
      { unfold tolower. destruct (N.leb_spec 65 a); [lia|]. cbn [andb]. destruct (N.eqb_spec a 304); [lia|]. destruct (N.eqb_spec a 8490); [lia|reflexivity]. }
      rewrite T. unfold extra_cases. destruct (N.eqb_spec a 105); [lia|]. destruct (N.eqb_spec a 115); [lia|].
      destruct (N.eqb_spec a 305); [lia|]. destruct (N.eqb_spec a 383); [lia|]. cbn [existsb]. rewrite orb_false_r. unfold tolower.
      destruct ((65 <=? c) && (c <=? 90))%N eqn:C.
      { apply andb_true_iff in C as [C1 C2]. apply N.leb_le in C1, C2. destruct (N.eqb_spec (c + 32) a), (N.eqb_spec a c); auto; lia. }
      destruct (N.eqb_spec c 304); [destruct (N.eqb_spec 105 a), (N.eqb_spec a c); auto; lia|].
      destruct (N.eqb_spec c 8490); [destruct (N.eqb_spec 107 a), (N.eqb_spec a c); auto; lia|]. apply N.eqb_sym. }
    cbn [count_up N.succ Pos.succ]. repeat (apply Forall_cons; [apply E; lia|]). apply Forall_nil.
Qed.

(** ** The patterns *)

Ltac sim_atom :=
  first
  [ apply sim_group; [reflexivity|]; apply sim_single
  | apply sim_opt; apply sim_single
  | apply sim_plus; apply sim_single
  | apply sim_star; apply sim_single
  | apply sim_alt; apply sim_single
  | apply sim_set; first [exact digit_set | exact sep_set | exact alpha_set | exact alnum_set]
  | apply sim_chr; first [apply chr_matches; reflexivity | apply ci_matches; reflexivity] ].

Ltac sim_step :=
  lazymatch goal with
  | |- sim _ [] [] => apply sim_nil
  | |- sim _ _ (XSeq _ :: _) => apply sim_seq; cbn [app]
  | |- sim _ _ (XGroup None _ :: _) => apply sim_plain
  | |- sim _ _ (XOr [_] :: _) => apply sim_last
  | |- sim _ (Plus _ :: _) (XPlus _ :: _) => apply sim_cons; [sim_atom|]
  | |- sim _ (Cat _ _ :: _) _ => apply sim_cat
  | |- sim _ (_ :: _) (_ :: _) => apply sim_cons; [sim_atom|]
  | |- sim1 _ _ _ => sim_atom
  end.

Ltac expose :=
  cbv [VERSION PUBLIC_VERSION WILDCARD_VERSION WILDCARD_SPECIFICATION ORDER_SPECIFICATION CARET_SPECIFICATION TILDE_SPECIFICATION
       EQUAL_SPECIFICATION EQUAL_OPERATOR P_V P_EPOCH P_RELEASE P_PRE P_POST P_DEV P_LOCAL W_PRE W_PRE_OPT W_POST W_POST_OPT W_DEV
       W_RELEASE WILDCARD DIGITS ALPHA_DIGITS SEPARATOR Patterns.chr ci cats alts word
       PRE_PHASES POST_PHASES DEV_PHASES ALPHA BETA A_LITERAL B_LITERAL C_LITERAL RC PREVIEW PRE POST REV R_LITERAL DEV
       lit Ascii.N_of_ascii Ascii.N_of_digits N.add N.mul Pos.add Pos.mul Pos.succ].

Definition agrees (r : re) (text : pstr) : Prop := forall s, text_fullmatch text s = Some (option_map named (fullmatch r s)).

Lemma accept_sim : sim_k (fun s' cs => match s' with [] => Some cs | _ => None end) (fun s' cs => match s' with [] => Some cs | _ => None end).
Proof. intros [|] cs; reflexivity. Qed.

Lemma compiled r text x : compile text = Some x -> (forall n, sim n [r] [x]) -> agrees r text.
Proof.
  intros C H s. unfold text_fullmatch. rewrite C. cbn [option_map]. f_equal. unfold rx_fullmatch, fullmatch.
  symmetry. apply (sim_single _ r x (H (List.length s)) s [] _ _ accept_sim).
Qed.

Ltac compiles :=
  match goal with
  | |- agrees ?r ?text =>
      let c := eval vm_compute in (compile text) in
      match c with
      | Some ?x => apply (compiled r text x); [vm_compute; reflexivity|intros n; expose; repeat sim_step]
      end
  end.

Lemma public_version_text : agrees PUBLIC_VERSION PUBLIC_VERSION_PATTERN.
Proof. compiles. Qed.

Lemma version_text : agrees VERSION VERSION_PATTERN.
Proof. compiles. Qed.

Lemma wildcard_version_text : agrees WILDCARD_VERSION WILDCARD_VERSION_PATTERN.
Proof. compiles. Qed.

Lemma wildcard_text : agrees WILDCARD_SPECIFICATION WILDCARD_SPECIFICATION_PATTERN.
Proof. compiles. Qed.

Lemma order_text : agrees ORDER_SPECIFICATION ORDER_SPECIFICATION_PATTERN.
Proof. compiles. Qed.

Lemma caret_text : agrees CARET_SPECIFICATION CARET_SPECIFICATION_PATTERN.
Proof. compiles. Qed.

Lemma tilde_text : agrees TILDE_SPECIFICATION TILDE_SPECIFICATION_PATTERN.
Proof. compiles. Qed.

Lemma equal_text : agrees EQUAL_SPECIFICATION EQUAL_SPECIFICATION_PATTERN.
Proof. compiles. Qed.

(** The anchors of [TAG_PATTERN] add nothing. *)
Lemma tag_text : agrees TAG TAG_PATTERN.
Proof.
  intros s. unfold text_fullmatch.
  set (c := compile TAG_PATTERN). vm_compute in c. subst c. cbn [option_map]. f_equal. unfold rx_fullmatch, fullmatch.
  rewrite run_seq.
  match goal with |- runs ?n (XStart :: ?a :: ?b :: [XEnd]) s [] ?k = _ =>
    change (runs n (XStart :: a :: b :: [XEnd]) s [] k) with
      (if (List.length s =? n)%nat then runs n [a; b] s [] (fun s' cs' => run n XEnd s' cs' k) else None);
    rewrite Nat.eqb_refl; symmetry;
    assert (S : sim n [TAG] [a; b]) by (cbv [TAG DIGITS SEPARATOR]; repeat sim_step)
  end.
  apply (S s []). intros [|c [|d s']] cs; cbn [run]; try reflexivity. now destruct (c =? 10)%N.
Qed.
