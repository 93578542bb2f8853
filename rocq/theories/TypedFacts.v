(** Facts about versions of different types. *)

From Coq Require Import List ZArith NArith String Bool Lia.
From Verif Require Import Py Segments Version VersionSets Operators Specifiers Parsers Rich Spec Grammar Clauses Orders OrderFacts OperatorFacts
  SpecifierFacts ParseTheorems MetaFacts SpecParse SpecMeaning Typed TypedSpec.
Import ListNotations.

(** ** Comparisons *)

Lemma rich_same o T v w : t_rich o (Typed T v) (Typed T w) = Ok (native o (v_cmp v w)).
Proof. unfold t_rich. cbn [t_type t_version]. now rewrite Nat.eqb_refl. Qed.

Lemma rich_foreign o x y : t_type x <> t_type y -> t_rich o x y = unrelated o.
Proof. intros N. unfold t_rich. apply Nat.eqb_neq in N. now rewrite N. Qed.

Lemma rich_raises o x y e : t_rich o x y = Err e <-> e = TypeError /\ t_type x <> t_type y /\ o <> OpEq /\ o <> OpNe.
Proof.
  unfold t_rich. destruct (Nat.eqb (t_type x) (t_type y)) eqn:E.
  - apply Nat.eqb_eq in E. split; [discriminate|]. intros (_ & N & _). contradiction.
  - apply Nat.eqb_neq in E. destruct o; cbn; split; try discriminate; try (intros [= <-]); try (intros (-> & _ & A & B)); try congruence;
      repeat split; auto; discriminate.
Qed.

Lemma rich_equal x y : t_rich OpEq x y = Ok true <-> t_type x = t_type y /\ v_eq (t_version x) (t_version y) = true.
Proof.
  unfold t_rich, v_eq. destruct (Nat.eqb (t_type x) (t_type y)) eqn:E.
  - apply Nat.eqb_eq in E. cbn [native]. destruct (v_cmp _ _); cbn; intuition congruence.
  - apply Nat.eqb_neq in E. cbn. intuition congruence.
Qed.

Lemma rich_never o x y : o = OpEq \/ o = OpNe -> exists b, t_rich o x y = Ok b.
Proof. intros [-> | ->]; unfold t_rich; destruct (Nat.eqb _ _); cbn; eauto. Qed.

Lemma between_same T a v u : t_between (Typed T a) (Typed T v) u = between a v u.
Proof.
  unfold t_between, between. rewrite rich_same. cbn [bind t_type].
  assert (E : native OpLe (v_cmp a v) = v_le a v) by (unfold v_le; destruct (v_cmp a v); reflexivity). rewrite E.
  destruct (v_le a v); [|reflexivity]. destruct u as [u|e]; cbn [bind]; [|reflexivity]. rewrite rich_same. unfold v_lt. destruct (v_cmp v u); reflexivity.
Qed.

Lemma between_foreign a x u : t_type a <> t_type x -> t_between a x u = Err TypeError.
Proof. intros N. unfold t_between. now rewrite rich_foreign by auto. Qed.

Lemma matches_same T t v w : t_matches t (Typed T v) (Typed T w) = op_matches t v w.
Proof.
  assert (W : t_matches_wildcard_equal (Typed T v) (Typed T w) = matches_wildcard_equal v w).
  { unfold t_matches_wildcard_equal, matches_wildcard_equal. cbn [t_version]. destruct (next_wildcard_breaking w) as [[u|]|e]; cbn [bind]; auto.
    apply between_same. }
  destruct t; cbn [t_matches op_matches t_version]; unfold matches_tilde_equal, matches_caret, matches_tilde, matches_wildcard_not_equal, matches_equal,
    matches_not_equal, matches_less, matches_less_or_equal, matches_greater, matches_greater_or_equal, v_eq, v_ne, v_lt, v_le, v_gt, v_ge;
    rewrite ?rich_same, ?between_same, ?W; try reflexivity; try (destruct (v_cmp v w); reflexivity).
Qed.

Lemma wildcard_foreign x y : valid_version (t_version y) = true -> t_type x <> t_type y ->
  (wildcard_any (t_version y) /\ t_matches_wildcard_equal x y = Ok true)
  \/ (~ wildcard_any (t_version y) /\ t_matches_wildcard_equal x y = Err TypeError).
Proof.
  intros V N. unfold t_matches_wildcard_equal. destruct (wildcard_bound _ V) as [[A E]|[A (u & E & _)]]; rewrite E; cbn [bind].
  - left. auto.
  - right. split; auto. apply between_foreign. congruence.
Qed.

Lemma matches_foreign t x y : valid_version (t_version y) = true -> t_type x <> t_type y ->
  (passes t (t_version y) /\ t_matches t x y = Ok true)
  \/ (fails t (t_version y) /\ t_matches t x y = Ok false)
  \/ (orders t (t_version y) /\ t_matches t x y = Err TypeError).
Proof.
  intros V N. assert (N' : t_type y <> t_type x) by congruence. pose proof (wildcard_foreign x y V N) as W. unfold orders, passes, fails.
  destruct t; cbn [t_matches]; rewrite ?(rich_foreign _ x y N), ?(between_foreign y x _ N').
  all: try (right; right; split; [|reflexivity]; split; intros H; decompose [and or] H; discriminate).
  all: try (right; left; split; [|reflexivity]; now auto).
  all: try (left; split; [|reflexivity]; now auto).
  1, 2: destruct W as [[A E]|[A E]]; rewrite E; [left; split; [|reflexivity]; now auto 6
    | right; right; split; [|reflexivity]; split; intros H; decompose [and or] H; try discriminate; contradiction].
  destruct W as [[A E]|[A E]]; rewrite E; cbn [bind negb].
  - right. left. split; [|reflexivity]. auto.
  - right. right. split; [|reflexivity]. split; intros H; decompose [and or] H; try discriminate; contradiction.
Qed.

Lemma passes_fails t w : passes t w -> ~ fails t w.
Proof. unfold passes, fails. intros P F. decompose [and or] P; decompose [and or] F; congruence. Qed.

Lemma matches_exact t x y : valid_version (t_version y) = true -> t_type x <> t_type y ->
  (t_matches t x y = Ok true <-> passes t (t_version y)) /\ (t_matches t x y = Ok false <-> fails t (t_version y))
  /\ (t_matches t x y = Err TypeError <-> orders t (t_version y)).
Proof.
  intros V N. pose proof (passes_fails t (t_version y)) as D. destruct (matches_foreign t x y V N) as [[A E]|[[A E]|[[A B] E]]]; rewrite E; unfold orders;
    repeat split; intros; try discriminate; try tauto.
Qed.

(** ** The first that decides *)

Section Deciding.
  Context {A : Type} (f : A -> result bool).
  Lemma any_true xs : any_r f xs = Ok true <-> first_to (fun x => f x = Ok false) (fun x => f x = Ok true) xs.
  Proof.
    induction xs as [|x xs IH]; cbn [any_r].
    - split; [discriminate|]. intros (pre & y & post & E & _). now destruct pre.
    - destruct (f x) as [[|]|e] eqn:E; cbn [bind].
      + split; auto. intros _. exists [], x, xs. auto.
      + rewrite IH. split.
        * intros (pre & y & post & -> & F & H). exists (x :: pre), y, post. auto.
        * intros (pre & y & post & X & F & H). destruct pre as [|z pre]; injection X as <- X.
          -- congruence.
          -- exists pre, y, post. inversion F; auto.
      + split; [discriminate|]. intros (pre & y & post & X & F & H). destruct pre as [|z pre]; injection X as <- X; [congruence|]. inversion F; congruence.
  Qed.
  Lemma any_false xs : any_r f xs = Ok false <-> Forall (fun x => f x = Ok false) xs.
  Proof.
    induction xs as [|x xs IH]; cbn [any_r]; [split; auto|].
    rewrite Forall_cons_iff, <- IH. destruct (f x) as [[|]|e]; cbn [bind]; intuition congruence.
  Qed.
  Lemma any_error xs e : any_r f xs = Err e <-> first_to (fun x => f x = Ok false) (fun x => f x = Err e) xs.
  Proof.
    induction xs as [|x xs IH]; cbn [any_r].
    - split; [discriminate|]. intros (pre & y & post & E & _). now destruct pre.
    - destruct (f x) as [[|]|e'] eqn:E; cbn [bind].
      + split; [discriminate|]. intros (pre & y & post & X & F & H). destruct pre as [|z pre]; injection X as <- X; [congruence|]. inversion F; congruence.
      + rewrite IH. split.
        * intros (pre & y & post & -> & F & H). exists (x :: pre), y, post. auto.
        * intros (pre & y & post & X & F & H). destruct pre as [|z pre]; injection X as <- X.
          -- congruence.
          -- exists pre, y, post. inversion F; auto.
      + split.
        * intros [= ->]. exists [], x, xs. auto.
        * intros (pre & y & post & X & F & H). destruct pre as [|z pre]; injection X as <- X; [congruence|]. inversion F; congruence.
  Qed.
  Lemma all_true xs : all_r f xs = Ok true <-> Forall (fun x => f x = Ok true) xs.
  Proof.
    induction xs as [|x xs IH]; cbn [all_r]; [split; auto|].
    rewrite Forall_cons_iff, <- IH. destruct (f x) as [[|]|e]; cbn [bind]; intuition congruence.
  Qed.
  Lemma all_stops xs r : r <> Ok true -> all_r f xs = r <-> first_to (fun x => f x = Ok true) (fun x => f x = r) xs.
  Proof.
    intros NR. induction xs as [|x xs IH]; cbn [all_r].
    - split; [congruence|]. intros (pre & y & post & E & _). now destruct pre.
    - destruct (f x) as [[|]|e] eqn:E; cbn [bind].
      + rewrite IH. split.
        * intros (pre & y & post & -> & F & H). exists (x :: pre), y, post. auto.
        * intros (pre & y & post & X & F & H). destruct pre as [|z pre]; injection X as <- X.
          -- congruence.
          -- exists pre, y, post. inversion F; auto.
      + split.
        * intros <-. exists [], x, xs. auto.
        * intros (pre & y & post & X & F & H). destruct pre as [|z pre]; injection X as <- X; [congruence|]. inversion F; congruence.
      + split.
        * intros <-. exists [], x, xs. auto.
        * intros (pre & y & post & X & F & H). destruct pre as [|z pre]; injection X as <- X; [congruence|]. inversion F; congruence.
  Qed.
End Deciding.

Lemma first_to_iff {A} (P P' Q Q' : A -> Prop) xs : Forall (fun x => P x <-> P' x) xs -> Forall (fun x => Q x <-> Q' x) xs ->
  first_to P Q xs <-> first_to P' Q' xs.
Proof.
  intros HP HQ. split; intros (pre & x & post & -> & F & H); exists pre, x, post; (split; [reflexivity|]);
    apply Forall_app in HP; apply Forall_app in HQ; destruct HP as [HP _], HQ as [_ HQ]; inversion HQ as [|? ? Hx _]; subst;
    (split; [|now apply Hx]); rewrite Forall_forall in *; intros y Hy; apply HP; auto.
Qed.

Lemma Forall_iff {A} (P P' : A -> Prop) xs : Forall (fun x => P x <-> P' x) xs -> Forall P xs <-> Forall P' xs.
Proof. intros H. rewrite !Forall_forall in *. split; intros G x X; apply H; auto. Qed.

(** ** Specifiers *)

Lemma accepts_same T s v : t_accepts (retype_spec T s) (Typed T v) = accepts s v.
Proof.
  induction s as [| |t w|ss IH|ss IH] using spec_members; try reflexivity.
  - apply matches_same.
  - cbn [retype_spec t_accepts accepts]. induction IH as [|s ss H _ IH]; [reflexivity|]. cbn [map any_r]. now rewrite H, IH.
  - cbn [retype_spec t_accepts accepts]. induction IH as [|s ss H _ IH]; [reflexivity|]. cbn [map all_r]. now rewrite H, IH.
Qed.

(** A version of another type: it does not matter which. *)
Lemma accepts_blind U s x y : spec_made s -> t_type x <> U -> t_type y <> U ->
  t_accepts (retype_spec U s) x = t_accepts (retype_spec U s) y.
Proof.
  intros M X Y. induction s as [| |t w|ss IH|ss IH] using spec_members; try reflexivity.
  - destruct M as [V _]. cbn [retype_spec t_accepts]. pose proof (passes_fails t w) as D.
    destruct (matches_foreign t x (Typed U w) V X) as [[A ->]|[[A ->]|[[A B] ->]]], (matches_foreign t y (Typed U w) V Y) as [[A' ->]|[[A' ->]|[[A' B'] ->]]];
      cbn [t_version] in *; tauto.
  - apply made_any in M. destruct M as [_ M]. cbn [retype_spec t_accepts]. induction IH as [|s ss H _ IH]; [reflexivity|]. inversion M; subst. cbn [map any_r].
    now rewrite H, IH.
  - apply made_all in M. destruct M as [_ M]. cbn [retype_spec t_accepts]. induction IH as [|s ss H _ IH]; [reflexivity|]. inversion M; subst. cbn [map all_r].
    now rewrite H, IH.
Qed.

Lemma group_any U ss x : t_accepts (retype_spec U (grouped AnyOf ss)) x = any_r (fun s => t_accepts (retype_spec U s) x) ss.
Proof.
  assert (G : t_accepts (retype_spec U (AnyOf ss)) x = any_r (fun s => t_accepts (retype_spec U s) x) ss).
  { cbn [retype_spec t_accepts]. induction ss as [|s ss IH]; [reflexivity|]. cbn [map any_r]. now rewrite IH. }
  destruct ss as [|s [|s' ss]]; auto. clear G. cbn [grouped any_r]. destruct (t_accepts (retype_spec U s) x) as [[|]|e]; reflexivity.
Qed.
Lemma group_all U ss x : t_accepts (retype_spec U (grouped AllOf ss)) x = all_r (fun s => t_accepts (retype_spec U s) x) ss.
Proof.
  assert (G : t_accepts (retype_spec U (AllOf ss)) x = all_r (fun s => t_accepts (retype_spec U s) x) ss).
  { cbn [retype_spec t_accepts]. induction ss as [|s ss IH]; [reflexivity|]. cbn [map all_r]. now rewrite IH. }
  destruct ss as [|s [|s' ss]]; auto. clear G. cbn [grouped all_r]. destruct (t_accepts (retype_spec U s) x) as [[|]|e]; reflexivity.
Qed.

Definition ask U (x : typed) (c : op_type * gversion) : result bool := t_matches (fst c) x (Typed U (reading (snd c))).

Lemma accepts_rows U xss x : t_accepts (retype_spec U (spec_of xss)) x = any_r (all_r (ask U x)) xss.
Proof.
  unfold spec_of. rewrite group_any. induction xss as [|xs xss IH]; [reflexivity|]. cbn [map any_r]. rewrite IH, group_all.
  assert (E : all_r (fun s => t_accepts (retype_spec U s) x) (map clause_spec xs) = all_r (ask U x) xs); [|now rewrite E].
  clear. induction xs as [|c xs IH]; [reflexivity|]. cbn [map all_r]. now rewrite IH.
Qed.

Lemma rows_valid css xss : Forall2 (Forall2 proper_clause) css xss -> Forall (Forall (fun x => valid_version (reading (snd x)) = true)) xss.
Proof.
  intros H. induction H as [|cs xs css xss H _ IH]; constructor; auto. clear IH.
  induction H as [|c x cs xs H _ IH]; constructor; auto. destruct H as (C & L & _).
  assert (T : tree (snd x)) by (destruct C; assumption). destruct (wf_ordinary _ (reading_wf _ T L)) as [V _]. exact V.
Qed.

Theorem accepts_parsed U s p css xss x : parse_specifier s = Ok p -> specification s css -> Forall2 (Forall2 proper_clause) css xss -> p = spec_of xss ->
  t_type x <> U ->
  let r := t_accepts (retype_spec U p) x in
  (r = Ok true <-> first_to alt_fails alt_passes xss) /\ (r = Ok false <-> Forall alt_fails xss)
  /\ (r = Err TypeError <-> first_to alt_fails alt_orders xss) /\ (r = Ok true \/ r = Ok false \/ r = Err TypeError).
Proof.
  intros P S F -> N r. subst r. rewrite accepts_rows. apply rows_valid in F. clear P S.
  assert (C : Forall (Forall (fun c => (ask U x c = Ok true <-> on_clause passes c) /\ (ask U x c = Ok false <-> on_clause fails c)
      /\ (ask U x c = Err TypeError <-> on_clause orders c) /\ (ask U x c = Ok true \/ ask U x c = Ok false \/ ask U x c = Err TypeError))) xss).
  { eapply Forall_impl; [|exact F]. intros xs G. eapply Forall_impl; [|exact G]. intros c V. cbv beta in V.
    destruct (matches_exact (fst c) x (Typed U (reading (snd c))) V N) as (A & B & D).
    destruct (matches_foreign (fst c) x (Typed U (reading (snd c))) V N) as [[_ E]|[[_ E]|[_ E]]]; split; auto; split; auto; split; auto; rewrite <- E; unfold ask; auto. }
  clear F.
  assert (R : Forall (fun xs => (all_r (ask U x) xs = Ok true <-> alt_passes xs) /\ (all_r (ask U x) xs = Ok false <-> alt_fails xs)
      /\ (all_r (ask U x) xs = Err TypeError <-> alt_orders xs)
      /\ (all_r (ask U x) xs = Ok true \/ all_r (ask U x) xs = Ok false \/ all_r (ask U x) xs = Err TypeError)) xss).
  { eapply Forall_impl; [|exact C]. clear C. intros xs C.
    assert (C1 : Forall (fun c => ask U x c = Ok true <-> on_clause passes c) xs) by (eapply Forall_impl; [|exact C]; intros c H; apply H).
    assert (C2 : Forall (fun c => ask U x c = Ok false <-> on_clause fails c) xs) by (eapply Forall_impl; [|exact C]; intros c H; apply H).
    assert (C3 : Forall (fun c => ask U x c = Err TypeError <-> on_clause orders c) xs) by (eapply Forall_impl; [|exact C]; intros c H; apply H).
    split; [rewrite all_true; now apply Forall_iff|]. split; [rewrite all_stops by discriminate; now apply first_to_iff|].
    split; [rewrite all_stops by discriminate; now apply first_to_iff|].
    clear C1 C2 C3. induction C as [|c xs (_ & _ & _ & H) _ IH]; [now left|]. cbn [all_r].
    destruct H as [-> |[-> | ->]]; cbn [bind]; auto. }
  clear C.
  assert (R1 : Forall (fun xs => all_r (ask U x) xs = Ok true <-> alt_passes xs) xss) by (eapply Forall_impl; [|exact R]; intros c H; apply H).
  assert (R2 : Forall (fun xs => all_r (ask U x) xs = Ok false <-> alt_fails xs) xss) by (eapply Forall_impl; [|exact R]; intros c H; apply H).
  assert (R3 : Forall (fun xs => all_r (ask U x) xs = Err TypeError <-> alt_orders xs) xss) by (eapply Forall_impl; [|exact R]; intros c H; apply H).
  split; [rewrite any_true; now apply first_to_iff|]. split; [rewrite any_false; now apply Forall_iff|]. split; [rewrite any_error; now apply first_to_iff|].
  clear R1 R2 R3. induction R as [|xs xss (_ & _ & _ & H) _ IH]; [now auto|]. cbn [any_r]. destruct H as [-> |[-> | ->]]; cbn [bind]; auto.
Qed.

(** Specifiers of different types are different. *)
Lemma specs_differ T U s u : T <> U -> tspec_eqb (retype_spec T s) (retype_spec U u) = true -> each_op (fun _ _ => False) s.
Proof.
  intros N. revert u. induction s as [| |t w|ss IH|ss IH] using spec_members; intros u E; try exact I.
  - destruct u as [| |t' w'|us|us]; try discriminate. cbn in E. unfold t_same in E. cbn [t_type] in E. apply andb_prop in E. destruct E as [_ E].
    apply Nat.eqb_neq in N. rewrite N in E. discriminate.
  - destruct u as [| |t' w'|us|us]; try discriminate. apply each_op_any. cbn [retype_spec tspec_eqb] in E. revert us E.
    induction IH as [|s ss H _ IH]; intros [|u us] E; try discriminate; constructor; cbn [map] in E; apply andb_prop in E; destruct E as [E1 E2].
    + eapply H; eauto.
    + eapply IH; eauto.
  - destruct u as [| |t' w'|us|us]; try discriminate. apply each_op_all. cbn [retype_spec tspec_eqb] in E. revert us E.
    induction IH as [|s ss H _ IH]; intros [|u us] E; try discriminate; constructor; cbn [map] in E; apply andb_prop in E; destruct E as [E1 E2].
    + eapply H; eauto.
    + eapply IH; eauto.
Qed.

Lemma eqb_same T s u : tspec_eqb (retype_spec T s) (retype_spec T u) = spec_eqb s u.
Proof.
  revert u. induction s as [| |t w|ss IH|ss IH] using spec_members; intros u; destruct u as [| |t' w'|us|us]; try reflexivity.
  - cbn. unfold t_same. cbn [t_type t_version]. now rewrite Nat.eqb_refl.
  - cbn [retype_spec tspec_eqb spec_eqb]. revert us. induction IH as [|s ss H _ IH]; intros [|u us]; try reflexivity. cbn [map]. now rewrite H, IH.
  - cbn [retype_spec tspec_eqb spec_eqb]. revert us. induction IH as [|s ss H _ IH]; intros [|u us]; try reflexivity. cbn [map]. now rewrite H, IH.
Qed.

(** ** Sets *)

Lemma bound_same o T x y : t_bound o (match x with NegInf => NegInf | Fin v => Fin (Typed T v) | PosInf => PosInf end)
    (match y with NegInf => NegInf | Fin v => Fin (Typed T v) | PosInf => PosInf end) = Ok (native o (b_cmp x y)).
Proof. destruct x, y; try reflexivity. cbn [t_bound]. now rewrite rich_same. Qed.

Lemma lower_typed T m : t_lower (option_map (Typed T) m) = match lower_bound m with NegInf => NegInf | Fin v => Fin (Typed T v) | PosInf => PosInf end.
Proof. now destruct m. Qed.
Lemma upper_typed T m : t_upper (option_map (Typed T) m) = match upper_bound m with NegInf => NegInf | Fin v => Fin (Typed T v) | PosInf => PosInf end.
Proof. now destruct m. Qed.

Lemma at_lower o T v m : t_bound o (Fin (Typed T v)) (t_lower (option_map (Typed T) m)) = Ok (native o (b_cmp (Fin v) (lower_bound m))).
Proof. rewrite lower_typed. exact (bound_same o T (Fin v) (lower_bound m)). Qed.
Lemma at_upper o T v m : t_bound o (Fin (Typed T v)) (t_upper (option_map (Typed T) m)) = Ok (native o (b_cmp (Fin v) (upper_bound m))).
Proof. rewrite upper_typed. exact (bound_same o T (Fin v) (upper_bound m)). Qed.

Lemma item_contains_same T i v : t_item_contains (retype_item T i) (Typed T v) = Ok (item_contains i v).
Proof.
  destruct i as [w|min max imin imax].
  - cbn [retype_item t_item_contains item_contains]. rewrite rich_same. unfold v_eq. destruct (v_cmp w v); reflexivity.
  - cbn [retype_item t_item_contains item_contains]. rewrite !at_lower, !at_upper. unfold comparable_min, comparable_max, i_exclude_min, i_exclude_max. cbn [i_min i_max i_include_min i_include_max].
    destruct (b_cmp (Fin v) (lower_bound min)), (b_cmp (Fin v) (upper_bound max)), imin, imax; reflexivity.
Qed.

Lemma contains_same T a v : t_contains (retype_set T a) (Typed T v) = Ok (contains a v).
Proof.
  destruct a as [|i|items]; [reflexivity|apply item_contains_same|]. cbn [retype_set t_contains contains].
  induction items as [|i items IH]; [reflexivity|]. cbn [map any_r existsb]. rewrite item_contains_same. cbn [bind]. destruct (item_contains i v); auto.
Qed.

Lemma item_foreign U i x : t_type x <> U ->
  (is_a_point i /\ t_item_contains (retype_item U i) x = Ok false)
  \/ (unlimited i /\ t_item_contains (retype_item U i) x = Ok true)
  \/ (limited_range i /\ t_item_contains (retype_item U i) x = Err TypeError).
Proof.
  intros N. destruct i as [w|[m|] [M|] imin imax]; cbn [retype_item t_item_contains option_map t_lower t_upper t_bound].
  - left. split; [now exists w|]. now rewrite rich_foreign by (cbn; congruence).
  - right. right. split; [repeat eexists; left; discriminate|]. now rewrite rich_foreign by (cbn; congruence).
  - right. right. split; [repeat eexists; left; discriminate|]. now rewrite rich_foreign by (cbn; congruence).
  - right. right. split; [repeat eexists; right; discriminate|]. rewrite rich_foreign by (cbn; congruence). now destruct imin.
  - right. left. split; [repeat eexists|]. now destruct imin, imax.
Qed.

Lemma item_exact U i x : t_type x <> U ->
  (t_item_contains (retype_item U i) x = Ok false <-> is_a_point i) /\ (t_item_contains (retype_item U i) x = Ok true <-> unlimited i)
  /\ (t_item_contains (retype_item U i) x = Err TypeError <-> limited_range i).
Proof.
  intros N. unfold is_a_point, unlimited, limited_range.
  destruct (item_foreign U i x N) as [[(v & ->) ->]|[[(a & b & ->) ->]|[(a & b & c & d & -> & H) ->]]].
  - split; [split; eauto|]. split; split; try discriminate.
    + intros (? & ? & ?). discriminate.
    + intros (? & ? & ? & ? & ? & ?). discriminate.
  - split; [split; [discriminate|intros (? & ?); discriminate]|]. split; split; eauto; try discriminate.
    intros (? & ? & ? & ? & [= <- <- <- <-] & [H | H]); congruence.
  - split; [split; [discriminate|intros (? & ?); discriminate]|]. split; split; eauto; try discriminate.
    + intros (? & ? & [= -> -> -> ->]). destruct H; congruence.
    + intros _. repeat eexists; eauto.
Qed.

Lemma contains_foreign U a x : t_type x <> U ->
  let r := t_contains (retype_set U a) x in
  (r = Ok true <-> first_to is_a_point unlimited (members a)) /\ (r = Ok false <-> Forall is_a_point (members a))
  /\ (r = Err TypeError <-> first_to is_a_point limited_range (members a)) /\ (r = Ok true \/ r = Ok false \/ r = Err TypeError).
Proof.
  intros N r.
  assert (R : r = any_r (fun i => t_item_contains (retype_item U i) x) (members a)).
  { subst r. destruct a as [|i|items]; cbn [retype_set t_contains members any_r]; [reflexivity| |].
    - destruct (t_item_contains (retype_item U i) x) as [[|]|e]; reflexivity.
    - induction items as [|i items IH]; [reflexivity|]. cbn [map any_r]. now rewrite IH. }
  rewrite R. clear r R. generalize (members a) as is. intros is.
  split; [rewrite any_true; apply first_to_iff; apply Forall_forall; intros i _; now apply item_exact|].
  split; [rewrite any_false; apply Forall_iff; apply Forall_forall; intros i _; now apply item_exact|].
  split; [rewrite any_error; apply first_to_iff; apply Forall_forall; intros i _; now apply item_exact|].
  induction is as [|i is IH]; [now auto|]. cbn [any_r]. destruct (item_foreign U i x N) as [[_ ->]|[[_ ->]|[_ ->]]]; cbn [bind]; auto.
Qed.

(** Canonical sets: only the universal set contains an unlimited range. *)
Lemma good_items_limited x y is i : good_items (x :: y :: is) -> In i (x :: y :: is) -> i_min i <> None \/ i_max i <> None.
Proof.
  revert x y. induction is as [|z is IH]; intros x y G H.
  - destruct G as (_ & S & _). unfold separated in S. destruct H as [<-|[<-|[]]].
    + right. intros E. now rewrite E in S.
    + left. intros E. rewrite E in S. now destruct (i_max x).
  - destruct G as (_ & S & G). destruct H as [<-|H].
    + right. intros E. unfold separated in S. now rewrite E in S.
    + now apply (IH y z).
Qed.

Lemma canonical_unlimited a i : canonical a -> In i (members a) -> unlimited i -> a = UNIVERSAL_SET.
Proof.
  intros C H (imin & imax & ->). destruct a as [|j|items].
  - destruct H.
  - destruct H as [->|[]]. destruct C as (A & B & _). now rewrite A, B.
  - destruct C as [G L]. destruct items as [|x [|y is]]; cbn in L; try lia. destruct (good_items_limited x y is _ G H) as [X|X]; now destruct X.
Qed.

Lemma contains_canonical U a x : canonical a -> t_type x <> U ->
  let r := t_contains (retype_set U a) x in
  (r = Ok true <-> a = UNIVERSAL_SET) /\ (r = Ok false <-> Forall is_a_point (members a)) /\ (r = Err TypeError <-> Exists limited_range (members a))
  /\ (r = Ok true \/ r = Ok false \/ r = Err TypeError).
Proof.
  intros C N r. destruct (contains_foreign U a x N) as (A & B & D & E). fold r in A, B, D, E.
  assert (A' : r = Ok true <-> a = UNIVERSAL_SET).
  { rewrite A. split.
    - intros (pre & i & post & X & _ & H). apply (canonical_unlimited a i C); auto. rewrite X. apply in_elt.
    - intros ->. exists [], UNIVERSAL, []. split; [reflexivity|]. split; auto. now exists false, false. }
  split; [exact A'|]. split; [exact B|]. split; [|exact E]. rewrite D. split.
  - intros (pre & i & post & -> & _ & H). apply Exists_exists. exists i. split; auto. apply in_elt.
  - intros X. destruct E as [E|[E|E]]; [| |now apply D].
    + exfalso. apply A' in E. subst a. apply Exists_exists in X. destruct X as (i & [<-|[]] & (m & M & p & q & [= <- <- <- <-] & [H|H])); congruence.
    + exfalso. apply B in E. rewrite Exists_exists in X. rewrite Forall_forall in E. destruct X as (i & I & (m & M & p & q & -> & H)).
      destruct (E _ I) as (v & F). discriminate.
Qed.

Lemma range_typed T min max imin imax :
  t_range_new (option_map (Typed T) min) (option_map (Typed T) max) imin imax = rmap (retype_item T) (range_new min max imin imax).
Proof.
  unfold t_range_new, range_new. rewrite lower_typed, upper_typed, bound_same. cbn [bind].
  destruct min, max, imin, imax; cbn [option_map]; try reflexivity; cbn [negb]; destruct (b_cmp _ _); reflexivity.
Qed.

Lemma range_foreign x y imin imax : t_type x <> t_type y -> t_range_new (Some x) (Some y) imin imax = Err TypeError.
Proof. intros N. unfold t_range_new. cbn [t_lower t_upper t_bound]. now rewrite rich_foreign by auto. Qed.

(** ** Specifiers and their sets never contradict each other *)

Lemma fresh_version ws : exists v, forall w, In w ws -> v_eq v w = false.
Proof.
  assert (B : exists e, forall w, In w ws -> (v_epoch w < e)%Z).
  { induction ws as [|w ws (e & H)]; [exists 0%Z; intros ? []|]. exists (Z.max e (v_epoch w + 1))%Z. intros u [<-|I]; [lia|]. specialize (H u I). lia. }
  destruct B as (e & H). exists (bare e [0%Z]). intros w I. specialize (H w I). destruct (v_eq (bare e [0%Z]) w) eqn:E; auto.
  apply v_eq_key in E. assert (X : v_epoch (bare e [0%Z]) = v_epoch w).
  { transitivity (k_epoch (key (bare e [0%Z]))); [reflexivity|]. rewrite E. unfold key. now destruct (compute_compare_tags _ _ _) as [[? ?] ?]. }
  cbn in X. lia.
Qed.

Lemma passes_cofinite U x s : spec_made s -> t_type x <> U ->
  (t_accepts (retype_spec U s) x = Ok true -> exists ws, forall v, (forall w, In w ws -> v_eq v w = false) -> accepts s v = Ok true)
  /\ (t_accepts (retype_spec U s) x = Ok false -> exists ws, forall v, accepts s v = Ok true -> exists w, In w ws /\ v_eq v w = true).
Proof.
  intros M N. induction s as [| |t w|ss IH|ss IH] using spec_members.
  - split; [discriminate|]. intros _. exists []. discriminate.
  - split; [|discriminate]. intros _. exists []. reflexivity.
  - destruct M as [V _]. cbn [retype_spec t_accepts]. destruct (matches_exact t x (Typed U w) V N) as (A & B & _). cbn [t_version] in *. rewrite A, B.
    assert (W : wildcard_any w -> forall v, matches_wildcard_equal v w = Ok true).
    { intros H v. unfold matches_wildcard_equal. destruct (wildcard_bound w V) as [[_ ->]|[H' _]]; [reflexivity|contradiction]. }
    split.
    + intros [->|[H C]].
      * exists [w]. intros v F. cbn. unfold matches_not_equal, v_ne. specialize (F w (or_introl eq_refl)). unfold v_eq in F. now rewrite F.
      * exists []. intros v _. destruct H as [->| ->]; cbn; now apply W.
    + intros [->|[->|[-> C]]].
      * exists [w]. intros v E. exists w. split; [now left|]. cbn in E. now injection E as E.
      * exists [w]. intros v E. exists w. split; [now left|]. cbn in E. now injection E as E.
      * exists []. intros v E. cbn in E. unfold matches_wildcard_not_equal in E. rewrite (W C v) in E. discriminate.
  - apply made_any in M. destruct M as [_ M]. cbn [retype_spec t_accepts accepts]. induction IH as [|s ss H _ IH].
    + split; [discriminate|]. intros _. exists []. discriminate.
    + inversion M as [|? ? Ms Mss]; subst. destruct (H Ms) as [H1 H2]. destruct (IH Mss) as [I1 I2]. cbn [map any_r].
      assert (T : forall v, exists b, accepts s v = Ok b) by (intros v; destruct (accepts_sat s v Ms) as (b & E & _); eauto).
      destruct (t_accepts (retype_spec U s) x) as [[|]|e]; cbn [bind]; [| |split; discriminate].
      * split; [|discriminate]. intros _. destruct (H1 eq_refl) as (ws & F). exists ws. intros v G. now rewrite (F v G).
      * destruct (H2 eq_refl) as (ws & F). split; intros E.
        -- destruct (I1 E) as (us & G). exists us. intros v K. destruct (T v) as ([|] & ->); cbn [bind]; auto.
        -- destruct (I2 E) as (us & G). exists (ws ++ us). intros v K. destruct (T v) as ([|] & X); rewrite X in K; cbn [bind] in K.
           ++ destruct (F v X) as (w & I & Q). exists w. split; auto. apply in_or_app. auto.
           ++ destruct (G v K) as (w & I & Q). exists w. split; auto. apply in_or_app. auto.
  - apply made_all in M. destruct M as [_ M]. cbn [retype_spec t_accepts accepts]. induction IH as [|s ss H _ IH].
    + split; [|discriminate]. intros _. exists []. reflexivity.
    + inversion M as [|? ? Ms Mss]; subst. destruct (H Ms) as [H1 H2]. destruct (IH Mss) as [I1 I2]. cbn [map all_r].
      assert (T : forall v, exists b, accepts s v = Ok b) by (intros v; destruct (accepts_sat s v Ms) as (b & E & _); eauto).
      destruct (t_accepts (retype_spec U s) x) as [[|]|e]; cbn [bind]; [| |split; discriminate].
      * destruct (H1 eq_refl) as (ws & F). split; intros E.
        -- destruct (I1 E) as (us & G). exists (ws ++ us). intros v K. rewrite (F v) by (intros w I; apply K; apply in_or_app; auto). cbn [bind].
           apply G. intros w I. apply K. apply in_or_app. auto.
        -- destruct (I2 E) as (us & G). exists us. intros v K. destruct (T v) as ([|] & X); rewrite X in K; cbn [bind] in K; [auto|discriminate].
      * split; [discriminate|]. intros _. destruct (H2 eq_refl) as (ws & F). exists ws. intros v K. destruct (T v) as ([|] & X); rewrite X in K; cbn [bind] in K; [|discriminate].
        now apply F.
Qed.

Lemma points_finite a : Forall is_a_point (members a) -> exists ws, forall v, contains a v = true -> exists w, In w ws /\ v_eq v w = true.
Proof.
  intros F. assert (C : forall v, contains a v = existsb (fun i => item_contains i v) (members a)).
  { intros v. destruct a; cbn; [reflexivity|now rewrite orb_false_r|reflexivity]. }
  setoid_rewrite C. clear C. induction F as [|i is (w & ->) _ (ws & H)]; [exists []; discriminate|].
  exists (w :: ws). intros v E. cbn [existsb] in E. apply orb_prop in E. destruct E as [E|E].
  - exists w. split; [now left|]. cbn in E. apply v_eq_key in E. now apply v_eq_key.
  - destruct (H v E) as (u & I & Q). exists u. split; auto. now right.
Qed.

Theorem no_contradiction U s a x b b' : spec_made s -> each_op plain_op s -> specifier_to_version_set s = Ok a -> t_type x <> U ->
  t_accepts (retype_spec U s) x = Ok b -> t_contains (retype_set U a) x = Ok b' -> b = b'.
Proof.
  intros M P E N A B. destruct (convert_accepts s a M P E) as [C H]. destruct (passes_cofinite U x s M N) as [F G].
  destruct (contains_canonical U a x C N) as (K & L & _). destruct b, b'; auto; exfalso.
  - destruct (F A) as (ws & W). apply L in B. destruct (points_finite a B) as (us & Q). destruct (fresh_version (ws ++ us)) as (v & V).
    assert (X : accepts s v = Ok true) by (apply W; intros w I; apply V; apply in_or_app; auto). rewrite H in X. injection X as X.
    destruct (Q v X) as (w & I & Y). rewrite V in Y by (apply in_or_app; auto). discriminate.
  - destruct (G A) as (ws & W). apply K in B. subst a. destruct (fresh_version ws) as (v & V).
    assert (X : accepts s v = Ok true) by (rewrite H; reflexivity). destruct (W v X) as (w & I & Y). rewrite V in Y by auto. discriminate.
Qed.

Lemma some_clause css xss s : specification s css -> Forall2 (Forall2 proper_clause) css xss -> ~ each_op (fun _ _ => False) (spec_of xss).
Proof.
  intros (c & cs & alts & -> & _) F. inversion F as [|? xs ? xss' H _]; subst. inversion H as [|? x ? xs' _ _]; subst. unfold spec_of. intros E.
  assert (X : each_op (fun _ _ => False) (grouped AllOf (map clause_spec (x :: xs')))).
  { destruct xss' as [|ys xss']; [exact E|]. apply each_op_any in E. now inversion E. }
  destruct xs' as [|y xs']; [exact X|]. apply each_op_all in X. now inversion X.
Qed.

Theorem parsed_differ T U s u p q : T <> U -> t_parse_specifier T s = Ok p -> t_parse_specifier U u = Ok q -> tspec_eqb p q = false.
Proof.
  unfold t_parse_specifier. intros N P Q. destruct (parse_specifier s) as [p'|] eqn:S; [|discriminate]. destruct (parse_specifier u) as [q'|]; [|discriminate].
  injection P as <-. injection Q as <-. destruct (tspec_eqb _ _) eqn:E; auto. exfalso. apply (specs_differ T U p' q' N) in E.
  apply parse_specifier_ok in S. destruct S as (css & xss & S & F & ->). now apply (some_clause css xss s S F).
Qed.

Theorem versions_differ T U s u x y : T <> U -> t_parse_version T s = Ok x -> t_parse_version U u = Ok y ->
  t_rich OpEq x y = Ok false /\ t_rich OpNe x y = Ok true /\ t_rich OpLt x y = Err TypeError /\ t_rich OpLe x y = Err TypeError
  /\ t_rich OpGt x y = Err TypeError /\ t_rich OpGe x y = Err TypeError.
Proof.
  unfold t_parse_version. intros N X Y. destruct (parse_version s) as [v|]; [|discriminate]. destruct (parse_version u) as [w|]; [|discriminate].
  injection X as <-. injection Y as <-. rewrite !rich_foreign by exact N. auto 6.
Qed.

Theorem versions_alike T s u x y o : t_parse_version T s = Ok x -> t_parse_version T u = Ok y ->
  exists v w, parse_version s = Ok v /\ parse_version u = Ok w /\ t_rich o x y = Ok (native o (v_cmp v w)).
Proof.
  unfold t_parse_version. intros X Y. destruct (parse_version s) as [v|]; [|discriminate]. destruct (parse_version u) as [w|]; [|discriminate].
  injection X as <-. injection Y as <-. exists v, w. now rewrite rich_same.
Qed.

Theorem accepts_typed T s p v : t_parse_specifier T s = Ok p <-> exists q, parse_specifier s = Ok q /\ p = retype_spec T q /\ t_accepts p (Typed T v) = accepts q v.
Proof.
  unfold t_parse_specifier. split.
  - destruct (parse_specifier s) as [q|]; [|discriminate]. intros [= <-]. exists q. split; auto. split; auto. apply accepts_same.
  - intros (q & -> & -> & _). reflexivity.
Qed.

Theorem contains_typed T s a v : t_parse_version_set T s = Ok a <-> exists b, parse_version_set s = Ok b /\ a = retype_set T b /\ t_contains a (Typed T v) = Ok (contains b v).
Proof.
  unfold t_parse_version_set. split.
  - destruct (parse_version_set s) as [q|]; [|discriminate]. intros [= <-]. exists q. split; auto. split; auto. apply contains_same.
  - intros (q & -> & -> & _). reflexivity.
Qed.

Theorem parsed_foreign U s p x : t_parse_specifier U s = Ok p -> t_type x <> U -> exists css xss,
  specification s css /\ Forall2 (Forall2 proper_clause) css xss
  /\ (t_accepts p x = Ok true <-> first_to alt_fails alt_passes xss) /\ (t_accepts p x = Ok false <-> Forall alt_fails xss)
  /\ (t_accepts p x = Err TypeError <-> first_to alt_fails alt_orders xss)
  /\ (t_accepts p x = Ok true \/ t_accepts p x = Ok false \/ t_accepts p x = Err TypeError).
Proof.
  unfold t_parse_specifier. destruct (parse_specifier s) as [q|] eqn:Q; [|discriminate]. intros [= <-] N.
  destruct (proj1 (parse_specifier_ok s q) Q) as (css & xss & S & F & E). exists css, xss. split; [exact S|]. split; [exact F|].
  exact (accepts_parsed U s q css xss x Q S F E N).
Qed.

Theorem parsed_sets_foreign U s a x : t_parse_version_set U s = Ok a -> t_type x <> U -> exists b, parse_version_set s = Ok b
  /\ (t_contains a x = Ok true <-> b = UNIVERSAL_SET) /\ (t_contains a x = Ok false <-> Forall is_a_point (members b))
  /\ (t_contains a x = Err TypeError <-> Exists limited_range (members b))
  /\ (t_contains a x = Ok true \/ t_contains a x = Ok false \/ t_contains a x = Err TypeError).
Proof.
  unfold t_parse_version_set. destruct (parse_version_set s) as [b|] eqn:B; [|discriminate]. intros [= <-] N. exists b. split; [reflexivity|].
  unfold parse_version_set in B. destruct (parse_specifier s) as [p|] eqn:P; [|discriminate]. cbn [bind] in B. destruct (parsed_made s p P) as [M F].
  destruct (convert_accepts p b M F B) as [C _]. exact (contains_canonical U b x C N).
Qed.

Theorem parsed_agree U s p a x b b' : t_parse_specifier U s = Ok p -> t_parse_version_set U s = Ok a -> t_type x <> U ->
  t_accepts p x = Ok b -> t_contains a x = Ok b' -> b = b'.
Proof.
  unfold t_parse_specifier, t_parse_version_set, parse_version_set. destruct (parse_specifier s) as [q|] eqn:Q; [|discriminate]. cbn [bind rmap].
  intros [= <-]. destruct (specifier_to_version_set q) as [c|] eqn:C; [|discriminate]. intros [= <-] N. destruct (parsed_made s q Q) as [M F].
  exact (no_contradiction U q c x b b' M F C N).
Qed.
